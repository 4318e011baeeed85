(** Which fields an input of any form can change. *)
From Coq Require Import ZifyBool ZifyNat ZifyN.
From Verif Require Import Base Wire GoType Leaf Codec Tag Walker Api Resolve Typing CodecSim SpecWire SpecTag SpecMsg SpecLib
  WireFacts DecodeFacts GenFacts TypingFacts WalkInv WalkSpec WalkSeq EncFacts MsgResolve MsgEnc MsgDec MsgRound MsgFit MsgApi ApiFacts ApiTags MsgStep.
Local Open Scope Z_scope.
Ltac Zify.zify_post_hook ::= Z.div_mod_to_equations.

(** On inputs on which the library does not deviate these are the records. *)
Lemma mentioned_plain sch m : forall fs b, plain sch m fs b = true -> incl (mentioned_lib m fs b) (mentioned m b).
Proof.
  induction m as [|m IH]; intros fs b Hpl; [intros x []|]. cbn [mentioned_lib mentioned plain] in *. destruct b as [|c b]; [intros x []|].
  destruct (read_varint (c :: b)) as [tag k r| |]; [|intros x []..]. pose proof (read_payload_len (tag mod 8) r) as RP.
  destruct (payload_len (tag mod 8) r) as [len|]; [|rewrite RP; intros x H; exact H].
  destruct RP as (p & RP & Hle). rewrite RP in *. apply andb_true_iff in Hpl. destruct Hpl as [P1 P2].
  apply incl_cons; [left; reflexivity|]. apply incl_tl.
  destruct (find_field 0 fs (tag / 8)) as [[i f]|]; [|apply IH; exact P2].
  destruct (N.eqb_spec (wire_fty f) (tag mod 8)) as [E|E]; [|intros x []]. cbn [negb orb] in *. rewrite <- E in RP.
  rewrite skipn_length in P1. replace (length r - (length r - len))%nat with len in P1 by lia.
  destruct (seen_plain_put _ _ _ _ _ _ RP Hle P1) as [_ S2]. rewrite after_taken, S2. apply IH. exact P2.
Qed.

Section Lib.
Variables (D : decls) (sch : schema).
Hypothesis HV : covers D sch = true.
Let HI := proj1 (covers_facts D sch HV).
Let HS := proj1 (proj2 (covers_facts D sch HV)).
Let HC := proj1 (proj2 (proj2 (covers_facts D sch HV))).
Let HP := proj2 (proj2 (proj2 (covers_facts D sch HV))).
Let HF : decls_fit D = true := HD_fit D HP.
Notation dec := (dec plook (piget D) D).
Notation ldecs := (ldecs plook (piget D) D).

(** A codec that reports no error takes as many bytes as [after] says. *)
Definition uses (f : fty) : Prop := forall n fuel y y' q r len p r', wt D y (go_type f) = true -> small r ->
  payload_len (wire_fty f) r = inl len -> read_payload (wire_fty f) r = Some (p, r') ->
  dec fuel (pref_of n f) (firstn len r) y = DRet y' q None -> q = Z.of_nat (taken f len).
Lemma uses_scalar s md fuel y y' q r len p r' : not_sfixed s = true -> static_mode md = true -> wt D y (TScalar (go_kind s)) = true -> small r ->
  payload_len (wire_sty s) r = inl len -> read_payload (wire_sty s) r = Some (p, r') ->
  dec fuel (PStatic (SC (wk_of s) md)) (firstn len r) y = DRet y' q None -> q = Z.of_nat (takes s len).
Proof.
  intros H1 H2 Hw Hs Hl Hp E. destruct (puts_scalar D s md fuel y r len p r' H1 H2 Hs Hw Hl Hp) as (v & _ & _ & [F|F]); rewrite F in E; [discriminate|].
  congruence.
Qed.
Lemma uses_message m0 : uses (FMessage m0).
Proof.
  intros n fuel y y' q r len p r' Hw Hs Hl Hp E. cbn [wire_fty go_type pref_of] in *. destruct fuel as [|fuel]; [discriminate E|].
  destruct (wt_msg _ _ _ Hw) as (o & -> & _). apply payload_len_ok in Hl as Hle.
  destruct (dec_struct plook (piget D) D fuel (PStruct (SNamed m0)) (SNamed m0) (SNamed m0) (firstn len r) o (small_firstn _ _ Hs) eq_refl) as [z Eq].
  rewrite Eq in E. cbv zeta in E. destruct (read_varint _) as [u k d| |]; try discriminate E.
  destruct (ldecs fuel _ _ _); try discriminate E. rewrite zlen_firstn_le in E by exact Hle. cbn [taken scalar_of]. congruence.
Qed.
Lemma uses_bytes : uses FBytes.
Proof.
  intros n fuel y y' q r len p r' Hw Hs Hl Hp E. cbn [wire_fty go_type pref_of] in *. destruct fuel as [|fuel]; [discriminate E|].
  destruct (varlen_dec _ _ _ _ Hs Hl Hp) as (d & -> & Q & Hn). rewrite dec_S in E. cbn [plook static l_decode bytesCodec] in E. unfold decodeBytes in E. rewrite Q in E.
  cbn [taken scalar_of]. wtd y; congruence.
Qed.
Lemma uses_elem e : ok_elem e = true -> uses e.
Proof.
  intros He. destruct e as [s|s|s|s| |m0|e|k e]; try discriminate; [|apply uses_bytes|apply uses_message].
  intros n fuel y y' q r len p r' Hw Hs Hl Hp E. cbn [wire_fty go_type pref_of] in *. eapply uses_scalar with (md := Required); try eassumption. reflexivity.
Qed.
Lemma uses_field f : ok_fty f = true -> uses f.
Proof.
  intros Hf. destruct f as [s|s|s|s| |m0|e|k e]; cbn [ok_fty] in Hf.
  - intros n fuel y y' q r len p r' Hw Hs Hl Hp E. cbn [wire_fty go_type pref_of] in *. eapply uses_scalar with (md := Normal); try eassumption. reflexivity.
  - intros n fuel y y' q r len p r' Hw Hs Hl Hp E. cbn [wire_fty go_type pref_of] in *. destruct fuel as [|fuel]; [discriminate E|].
    wtd y. cbn [wt] in Hw. rewrite dec_S in E. cbn [plook] in E.
    replace (l_decode (static (SC (wk_of s) Optional)) (firstn len r) (VOpt some y)) with
        (dmap (VOpt true) (l_decode (static (SC (wk_of s) Required)) (firstn len r) y)) in E by (destruct s; reflexivity).
    destruct (l_decode (static (SC (wk_of s) Required)) (firstn len r) y) as [y0 q0 e0| |] eqn:E0; try discriminate E. cbn [dmap] in E.
    assert (Q : dec (S fuel) (PStatic (SC (wk_of s) Required)) (firstn len r) y = DRet y0 q0 None) by (rewrite dec_S; cbn [plook]; congruence).
    assert (q = q0) as -> by congruence. eapply uses_scalar with (md := Required); try eassumption. reflexivity.
  - intros n fuel y y' q r len p r' Hw Hs Hl Hp E. cbn [wire_fty go_type pref_of] in *. destruct (wt_ptr _ _ _ Hw) as (o & -> & Ho). destruct fuel as [|fuel]; [discriminate E|].
    rewrite dec_S in E. cbn [plook] in E. cbv zeta in E.
    assert (Wx : wt D (match o with Some x => x | None => zero (TScalar (go_kind s)) end) (TScalar (go_kind s)) = true) by (destruct o; [exact Ho|apply zero_wt]).
    destruct (dec fuel _ _ _) as [y0 q0 e0| |] eqn:E0; try discriminate E. cbn [dmap] in E.
    assert (q = q0) as -> by congruence. assert (e0 = None) as -> by congruence.
    eapply uses_scalar with (md := Normal); try eassumption. reflexivity.
  - apply uses_elem; assumption.
  - apply uses_bytes.
  - apply uses_message.
  - intros n fuel y y' q r len p r' Hw Hs Hl Hp E. cbn [pref_of go_type wire_fty] in *.
    destruct (wt_slice _ _ _ Hw) as (nn & items & spare & -> & Hi & Hsp). destruct fuel as [|fuel]; [discriminate E|]. rewrite dec_S in E. cbn [plook] in E. cbv zeta in E.
    set (sp := match spare with [] => grow_spare (go_type e) (length items) | _ => spare end) in *.
    assert (Wsp : forallb (fun x => wt D x (go_type e)) sp = true) by (unfold sp; destruct spare; [apply grow_spare_wt|assumption]). clearbody sp.
    destruct sp as [|slot sp]; [discriminate E|]. cbn [forallb] in Wsp. apply andb_true_iff in Wsp. destruct Wsp as [Ws _].
    destruct (dec fuel (pref_of n e) (firstn len r) slot) as [y0 q0 [e0|]| |] eqn:E0; try discriminate E.
    assert (q = q0) as -> by congruence. exact (uses_elem e Hf n fuel slot y0 q0 r len p r' Ws Hs Hl Hp E0).
  - intros n fuel y y' q r len p r' Hw Hs Hl Hp E. cbn [wire_fty go_type] in *. apply andb_true_iff in Hf. destruct Hf as [Hk He].
    destruct (len_payload _ _ _ _ Hl Hp) as (d & z & -> & Er & El & Hq).
    apply payload_len_ok in Hl as Hle. destruct (wt_map _ _ _ _ Hw) as (mm & -> & Hm). destruct fuel as [|fuel]; [discriminate E|].
    destruct (dec_map plook (piget D) D fuel (pref_of n (FMap k e)) (8 * n + 2) (mkfield 0 (tag_of 1 (FAlways k)) (PStatic (SC (wk_of k) Required))) (mkfield 1 (tag_of 2 e) (pref_of 2 e)) (entry_key k e) (entry_key k e) (firstn len r) mm (small_firstn _ _ Hs) eq_refl) as [z' Eq].
    rewrite Eq, Er in E. clear Eq. cbv zeta in E. cbn [taken scalar_of]. destruct (firstn len r) as [|c0 r0] eqn:E0; [discriminate Er|]. rewrite <- E0 in E.
    destruct (ldecs fuel _ _ _) as [v| | |]; try discriminate E. destruct v as [| | | | | | | | | | | | |l|]; try discriminate E.
    destruct l as [|a [|x [|]]]; try discriminate E. rewrite zlen_firstn_le in E by exact Hle. congruence.
Qed.

(** Only fields of records as they are taken change. *)
Lemma lib_untouched m : forall k fs b ys fuel x', key_fs D sch k fs -> (length b < m)%nat ->
  bytes_okb b = true -> small b -> wts D (VStruct ys) k = true -> lval (ldecs fuel k b (VStruct ys)) = Some x' ->
  forall j, unmentioned fs (mentioned_lib m fs b) j -> get_field x' j = nth_error ys j.
Proof.
  induction m as [|m IH]; intros k fs b ys fuel x' Hkey Hlen Hb Hs Hw Hx j Hj; [lia|].
  destruct fuel as [|fuel]; [discriminate Hx|]. cbn [DecodeFacts.ldecs mentioned_lib] in *.
  destruct b as [|c0 b0] eqn:Eb; [injection Hx as <-; reflexivity|]. rewrite <- Eb in *. assert (Hne : (1 <= length b)%nat) by (rewrite Eb; cbn; lia). clear Eb c0 b0.
  destruct (key_fs_facts D sch HI HS HC _ _ Hkey) as (Hix & Ht & Hz & Hnum & Hnd & Hno & Hok).
  unfold lstep in Hx. destruct (read_varint b) as [tag kk r| |] eqn:Er; [|injection Hx as <-; reflexivity..].
  apply read_varint_ok in Er as Er'. destruct Er' as (Htag & _ & Hr & Hkk & _).
  assert (Hbr : bytes_okb r = true) by (rewrite <- Hr; apply bytes_okb_skipn; assumption).
  assert (Hsr : small r) by (rewrite <- Hr; apply small_skipn; assumption).
  assert (Hlr : (length r < length b)%nat) by (rewrite <- Hr, skipn_length; lia).
  unfold lookup_field in Hx. rewrite Hix, (lookup_spec fs (tag / 8) Hnum Hnd 0) in Hx.
  pose proof (read_payload_len (tag mod 8) r) as RP.
  destruct (find_field 0 fs (tag / 8)) as [[i f]|] eqn:Ef; cbn [option_map fst snd] in Hx.
  - apply find_field_in in Ef as Efi. destruct Efi as [_ Efi]. rewrite Nat.sub_0_r in Efi.
    apply nth_error_In in Efi as Hin. destruct (Hok _ _ Hin) as [Hf Hn61].
    destruct (field_number_of i (tag / 8) f (pref_of (tag / 8) f) Hn61) as [_ Hwt]. rewrite Hwt in Hx.
    destruct (N.eqb_spec (tag mod 8) (wire_fty f)) as [Ew|Ew]; cbn [negb] in Hx; [|injection Hx as <-; reflexivity].
    rewrite Ew in *. destruct (payload_len (wire_fty f) r) as [len|e] eqn:El; [|injection Hx as <-; reflexivity].
    destruct RP as (p & RP & Hle). rewrite RP in *. rewrite N.eqb_refl in Hj. cbn [negb] in Hj. rewrite after_taken in Hj.
    pose proof (wts_struct D (VStruct ys) k Hno Hw) as (ys0 & Ey & W). inversion Ey; subst ys0. clear Ey. rewrite Ht in W.
    assert (Eti : nth_error (map fld_type fs) i = Some (go_type f)) by (rewrite (map_nth_error fld_type _ _ Efi); reflexivity).
    destruct (all2_nth _ _ _ _ _ W Eti) as (y & Eyi & Wy). cbn [mkfield f_idx f_codec get_field] in Hx. rewrite Eyi in Hx.
    destruct Hkey as [Hko Hkc]. pose proof (conj Hko Hkc : key_fs D sch k fs) as Hkey.
    assert (Hlk : In (mkfield i (tag_of (tag / 8) f) (pref_of (tag / 8) f)) (i_index (piget D k))).
    { apply (lookup_field_in (piget D k) (tag / 8)). unfold lookup_field. rewrite Hix, (lookup_spec fs (tag / 8) Hnum Hnd 0), Ef. reflexivity. }
    destruct (piget_field D k _ HF Hko Hlk) as (t & Et & Hfit & Hdep). cbn [mkfield f_idx f_codec] in Et, Hfit.
    rewrite Ht, Eti in Et. inversion Et; subst t. clear Et.
    pose proof (proj1 (dec_ok D HF fuel) (pref_of (tag / 8)%N f) (go_type f) (firstn len r) y Hfit Hdep Wy (bytes_okb_firstn _ _ Hbr) (small_firstn _ _ Hsr)) as T.
    destruct (dec fuel (pref_of (tag / 8) f) (firstn len r) y) as [y' q [e|]| |] eqn:E; try discriminate Hx.
    + injection Hx as <-. cbn [set_field get_field]. eapply unmentioned_set; eassumption.
    + pose proof (uses_field f Hf (tag / 8)%N fuel y y' q r len p _ Wy Hsr El RP E) as ->. rewrite Nat2Z.id in Hx. cbn [set_field] in Hx.
      rewrite (IH k fs (skipn (taken f len) r) (list_set ys i y') fuel x' Hkey); try assumption.
      * eapply unmentioned_set; eassumption.
      * rewrite skipn_length. lia.
      * apply bytes_okb_skipn; assumption.
      * apply small_skipn; assumption.
      * apply struct_wts; try assumption. rewrite Ht. eapply all2_set; eassumption.
      * eapply unmentioned_tl; exact Hj.
  - destruct (payload_len (tag mod 8) r) as [len|e] eqn:El; [|injection Hx as <-; reflexivity].
    destruct RP as (p & RP & Hle). rewrite RP in *.
    apply (IH k fs (skipn len r) ys fuel x' Hkey); try assumption; try (apply bytes_okb_skipn; assumption); try (apply small_skipn; assumption).
    + rewrite skipn_length. lia.
    + eapply unmentioned_tl; exact Hj.
Qed.

Theorem untouched_lib s m b ys x' e : reachable D s -> wts D (VStruct ys) (SNamed m) = true -> bytes_okb b = true -> zlen b < Z63 ->
  fst (Unmarshal D b (ptr m ys) s) = Returns (IPtr (SNamed m) (Some x'), e) ->
  forall j, unmentioned (msg sch m) (mentioned_lib (S (length b)) (msg sch m) b) j -> get_field x' j = nth_error ys j.
Proof.
  intros R Hw Hb Hs H j Hj. pose proof (wts_msg _ _ _ Hw) as [Hk _].
  destruct (unmarshal_fst D HP s (SNamed m) b (VStruct ys) R Hk Hw Hb Hs) as [E P]. rewrite H in E.
  assert (K : key_fs D sch (SNamed m) (msg sch m)) by (split; [apply user_key_ok; exact Hk|left; eauto]).
  assert (Q : lval (pdecode D (SNamed m) b (VStruct ys)) = Some x').
  { destruct P as [(x0 & P & W)|(x0 & e0 & P & W)]; rewrite P in *; inversion E; subst; auto. }
  exact (lib_untouched (S (length b)) (SNamed m) (msg sch m) b ys _ x' K (Nat.lt_succ_diag_r _) Hb Hs Hw Q j Hj).
Qed.
End Lib.
