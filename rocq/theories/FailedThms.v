(** What a message holds after a call of Unmarshal that failed. *)
From Coq Require Import ZifyBool ZifyNat ZifyN.
From Verif Require Import Base Wire GoType Leaf Codec Tag Walker Api Resolve Typing CodecSim SpecWire SpecTag SpecMsg SpecLib SpecFailed
  WireFacts DecodeFacts GenFacts TypingFacts WalkInv WalkSpec WalkSeq EncFacts MsgResolve MsgEnc MsgDec MsgRound MsgFit MsgApi RecordFacts.
Local Open Scope Z_scope.

Section Dec.
Variables (D : decls) (sch : schema).
Hypothesis HI : implements D sch = true.
Hypothesis HS : schema_ok sch = true.
Hypothesis HC : in_scope sch = true.
Hypothesis HD : decls_fit D = true.
Notation dec := (Codec.dec plook (piget D) D).
Notation ldecs := (DecodeFacts.ldecs plook (piget D) D).
Notation lib := (merge_lib sch).

Definition leaves (m : nat) : Prop := forall m0 b ys xs fuel x e, key_ok D (SNamed m0) -> (length b < m)%nat ->
  bytes_okb b = true -> small b -> wts D (VStruct ys) (SNamed m0) = true -> forallb fresh ys = true -> map norm ys = map norm xs ->
  ldecs fuel (SNamed m0) b (VStruct ys) = LErr x e -> norm x = norm (VStruct (remains sch m (msg sch m0) xs b)).

Lemma put_fails m f n fuel y y' r len p r' v q e : leaves m -> ok_fty f = true ->
  codec_fits D (pref_of n f) (go_type f) = true -> (type_depth (go_type f) <= Nat.max 1 (decls_depth D))%nat ->
  wt D y (go_type f) = true -> fresh y = true -> old_rel f y y' ->
  bytes_okb r = true -> small r -> (length r <= m)%nat ->
  payload_len (wire_fty f) r = inl len -> read_payload (wire_fty f) r = Some (p, r') ->
  dec fuel (pref_of n f) (firstn len r) y = DRet v q (Some e) ->
  norm v = norm match f, p with
    | FMessage m0, PLen c => VPtr (Some (VStruct (remains sch m (msg sch m0) match y' with VPtr (Some (VStruct xs)) => xs | _ => zeros (msg sch m0) end c)))
    | _, _ => y end.
Proof.
  intros IH Hf Hfit Hdep Hw Hfr Hrel Hb Hs Hlen Hl Hp E.
  pose proof (puts_field D sch HI HS HC HD m f (merges_all D sch HI HS HC HD m) Hf n fuel y y' r len p r' Hfit Hdep Hw Hfr Hrel Hb Hs Hlen Hl Hp) as P.
  rewrite E in P. destruct P as [P|P]; [discriminate|].
  destruct f as [s|s|s|s| |m0|el|k el].
  1-5: destruct (put _ _ _ _ _) as [z| |] eqn:Ep; [destruct P as (? & P & _); discriminate P| |contradiction].
  - exfalso. cbn [ok_fty] in Hf. unfold seen in Ep. cbn [scalar_of put wire_fty pref_of go_type] in *.
    destruct (puts_scalar D s Normal fuel y r len p r') as (w & Ew & _); try assumption; try reflexivity. rewrite Ew in Ep. discriminate Ep.
  - exfalso. cbn [ok_fty] in Hf. unfold seen in Ep. cbn [scalar_of put wire_fty pref_of go_type] in *.
    destruct (puts_scalar D s Required fuel (zero (TScalar (go_kind s))) r len p r') as (w & Ew & _); try assumption; try reflexivity; [apply zero_wt|]. rewrite Ew in Ep. discriminate Ep.
  - exfalso. cbn [ok_fty] in Hf. unfold seen in Ep. cbn [scalar_of put wire_fty pref_of go_type] in *.
    destruct (puts_scalar D s Normal fuel (zero (TScalar (go_kind s))) r len p r') as (w & Ew & _); try assumption; try reflexivity; [apply zero_wt|]. rewrite Ew in Ep. discriminate Ep.
  - exfalso. cbn [ok_fty ok_elem] in Hf. unfold seen in Ep. cbn [scalar_of put wire_fty pref_of go_type] in *.
    destruct (puts_scalar D s Required fuel y r len p r') as (w & Ew & _); try assumption; try reflexivity. rewrite Ew in Ep. discriminate Ep.
  - exfalso. unfold seen in Ep. cbn [scalar_of put wire_fty] in *. destruct (varlen_dec _ _ _ _ Hs Hl Hp) as (d & -> & _). discriminate Ep.
  - clear P. cbn [wire_fty go_type pref_of old_rel] in *. destruct fuel as [|fuel]; [discriminate E|].
    destruct (len_payload _ _ _ _ Hl Hp) as (d & k & -> & Er & El & Hk).
    assert (Hkk : key_ok D (SNamed m0)) by (cbn [codec_fits flat_fits] in Hfit; btrue; assumption).
    assert (Hkey : key_fs D sch (SNamed m0) (msg sch m0)) by (split; [assumption|left; eauto]).
    destruct (key_fs_facts D sch HI HS HC _ _ Hkey) as (_ & Ht & Hz & _ & _ & Hno & _).
    destruct (wt_msg _ _ _ Hw) as (o & -> & Hx). destruct (norm_ptr_inv _ _ Hrel) as (o' & -> & Ho).
    destruct (dec_struct plook (piget D) D fuel (PStruct (SNamed m0)) (SNamed m0) (SNamed m0) (firstn len r) o (small_firstn _ _ Hs) eq_refl) as [q' Eq].
    rewrite Eq, Er in E. clear Eq. cbv zeta in E.
    assert (Hd : d = skipn k (firstn len r)) by (apply read_varint_ok in Er; symmetry; apply Er).
    assert (Hbd : bytes_okb d = true) by (rewrite Hd; apply bytes_okb_skipn, bytes_okb_firstn; assumption).
    assert (Hsd : small d) by (rewrite Hd; apply small_skipn, small_firstn; assumption).
    assert (Hle := payload_len_ok _ _ _ Hl).
    assert (Hld : (length d < m)%nat) by lia.
    assert (S : exists ys xs, match o with Some x => x | None => zero_struct D (SNamed m0) end = VStruct ys /\
        match VPtr o' with VPtr (Some (VStruct xs)) => xs | _ => zeros (msg sch m0) end = xs /\
        wts D (VStruct ys) (SNamed m0) = true /\ forallb fresh ys = true /\ map norm ys = map norm xs).
    { destruct o as [x|], o' as [x'|]; try discriminate; cbn [option_map] in Ho.
      - destruct (wts_struct D x (SNamed m0) Hno Hx) as (ys & -> & _). inversion Ho as [Hn].
        destruct (norm_struct_inv ys x' Hn) as (xs & -> & Hm). exists ys, xs. repeat (split; [first [reflexivity|assumption]|]). assumption.
      - exists (zeros (msg sch m0)), (zeros (msg sch m0)). split; [exact Hz|]. split; [reflexivity|].
        split; [rewrite <- Hz; apply zero_struct_wts; assumption|]. split; [|reflexivity].
        unfold zeros. rewrite forallb_forall. intros w Hv. apply in_map_iff in Hv. destruct Hv as (g & <- & _).
        destruct (fld_type g) as [[]| |[]| | | | |]; reflexivity. }
    destruct S as (ys & xs & Eo & -> & Wy & Fy & Ny). rewrite Eo in E.
    destruct (ldecs fuel (SNamed m0) d (VStruct ys)) as [x|x e'|c|] eqn:EL; try discriminate E. inversion E; subst v.
    pose proof (IH m0 d ys xs fuel x e' Hkk Hld Hbd Hsd Wy Fy Ny EL) as N. cbn [norm] in N |- *. rewrite N. reflexivity.
  - clear P. cbn [pref_of go_type] in *. destruct (wt_slice _ _ _ Hw) as (nn & items & spare & -> & Hi & Hsp).
    destruct fuel as [|fuel]; [discriminate E|]. rewrite dec_S in E. cbn [plook] in E. cbv zeta in E.
    destruct (match spare with [] => grow_spare (go_type el) (length items) | _ => spare end) as [|slot sp]; [discriminate E|].
    destruct (dec fuel (pref_of n el) (firstn len r) slot) as [w k [e'|]|c|]; try discriminate E. inversion E; subst v. rewrite !norm_slice. destruct items; reflexivity.
  - clear P. cbn [go_type] in *. destruct (wt_map _ _ _ _ Hw) as (mm & -> & Hm). destruct fuel as [|fuel]; [discriminate E|].
    destruct (dec_map plook (piget D) D fuel (pref_of n (FMap k el)) (8 * n + 2) (mkfield 0 (tag_of 1 (FAlways k)) (PStatic (SC (wk_of k) Required))) (mkfield 1 (tag_of 2 el) (pref_of 2 el)) (entry_key k el) (entry_key k el) (firstn len r) mm (small_firstn _ _ Hs) eq_refl) as [z Eq].
    rewrite Eq in E. clear Eq. cbv zeta in E.
    assert (V : v = VMap (Some match mm with Some l => l | None => [] end)).
    { destruct (firstn len r); [discriminate E|]. destruct (read_varint _) as [? ? d| |]; try (inversion E; reflexivity).
      destruct (ldecs fuel (entry_key k el) d _) as [x|x e'|c|]; try discriminate E; [|inversion E; reflexivity].
      destruct x as [| | | | | | | | | | | | |[|? [|? [|]]]|]; discriminate E. }
    rewrite V. rewrite !norm_map. destruct mm as [[|? ?]|]; reflexivity.
Qed.

Lemma leaves_all m : leaves m.
Proof.
  induction m as [|m IH]; intros m0 b ys xs fuel x e Hko Hlen Hb Hs Hw Hfr Hn E; [lia|].
  assert (Hkey : key_fs D sch (SNamed m0) (msg sch m0)) by (split; [assumption|left; eauto]).
  assert (Nn : norm (VStruct ys) = norm (VStruct xs)) by (cbn [norm]; rewrite Hn; reflexivity).
  destruct fuel as [|fuel]; [discriminate E|]. cbn [DecodeFacts.ldecs remains] in *.
  destruct b as [|c0 b0] eqn:Eb; [discriminate E|]. rewrite <- Eb in *. assert (Hne : (1 <= length b)%nat) by (rewrite Eb; cbn; lia). clear Eb c0 b0.
  destruct (key_fs_facts D sch HI HS HC _ _ Hkey) as (Hix & Ht & Hz & Hnum & Hnd & Hno & Hok). set (fs := msg sch m0) in *.
  unfold lstep in E. destruct (read_varint b) as [tag kk r| |] eqn:Er; [|injection E as <- _; exact Nn..].
  apply read_varint_ok in Er as Er'. destruct Er' as (Htag & _ & Hr & Hkk & _).
  assert (Hbr : bytes_okb r = true) by (rewrite <- Hr; apply bytes_okb_skipn; assumption).
  assert (Hsr : small r) by (rewrite <- Hr; apply small_skipn; assumption).
  assert (Hlr : (length r < length b)%nat) by (rewrite <- Hr, skipn_length; lia).
  unfold lookup_field in E. rewrite Hix, (lookup_spec fs (tag / 8) Hnum Hnd 0) in E.
  pose proof (read_payload_len (tag mod 8) r) as RP.
  destruct (find_field 0 fs (tag / 8)) as [[i f]|] eqn:Ef; cbn [option_map fst snd] in E.
  - apply find_field_in in Ef as Efi. destruct Efi as [_ Efi]. rewrite Nat.sub_0_r in Efi.
    apply nth_error_In in Efi as Hin. destruct (Hok _ _ Hin) as [Hf Hn61].
    destruct (field_number_of i (tag / 8) f (pref_of (tag / 8) f) Hn61) as [_ Hwt]. rewrite Hwt in E.
    destruct (N.eqb_spec (tag mod 8) (wire_fty f)) as [Ew|Ew]; cbn [negb] in E.
    2:{ injection E as <- _. destruct (read_payload (tag mod 8) r) as [[p r']|]; [|exact Nn].
        destruct (N.eqb_spec (wire_fty f) (tag mod 8)); [congruence|]. cbn [negb]. exact Nn. }
    rewrite Ew in *. destruct (payload_len (wire_fty f) r) as [len|e0] eqn:El.
    2:{ rewrite RP. injection E as <- _. exact Nn. }
    destruct RP as (p & RP & Hle). rewrite RP. rewrite N.eqb_refl. cbn [negb].
    pose proof (wts_struct D (VStruct ys) _ Hno Hw) as (ys0 & Ey & W). inversion Ey; subst ys0. clear Ey. rewrite Ht in W.
    assert (Eti : nth_error (map fld_type fs) i = Some (go_type f)) by (rewrite (map_nth_error fld_type _ _ Efi); reflexivity).
    destruct (all2_nth _ _ _ _ _ W Eti) as (y & Eyi & Wy). cbn [mkfield f_idx f_codec get_field] in E. rewrite Eyi in E.
    destruct (map_norm_nth _ _ _ _ Hn Eyi) as (z & Ez & Nz). rewrite Ez.
    assert (Hlk : In (mkfield i (tag_of (tag / 8) f) (pref_of (tag / 8) f)) (i_index (piget D (SNamed m0)))).
    { apply (lookup_field_in (piget D (SNamed m0)) (tag / 8)). unfold lookup_field. rewrite Hix, (lookup_spec fs (tag / 8) Hnum Hnd 0), Ef. reflexivity. }
    destruct (piget_field D (SNamed m0) _ HD Hko Hlk) as (t & Et & Hfit & Hdep). cbn [mkfield f_idx f_codec] in Et, Hfit.
    rewrite Ht, Eti in Et. inversion Et; subst t. clear Et.
    assert (Hrel : old_rel f y z) by (destruct f; try exact Logic.I; exact Nz).
    assert (Hfy : fresh y = true) by (eapply fresh_nth; eassumption).
    pose proof (puts_field D sch HI HS HC HD m f (merges_all D sch HI HS HC HD m) Hf (tag / 8)%N fuel y z r len p (skipn len r) Hfit Hdep Wy Hfy Hrel Hbr Hsr ltac:(lia) El RP) as P.
    destruct P as [P|P]; [rewrite P in E; discriminate E|].
    destruct (put sch (lib m) f (seen f r p) z) as [z'| |].
    + destruct P as (y' & P & Ny & Fy). rewrite P in E. rewrite Nat2Z.id in E. rewrite after_taken. cbn [set_field] in E.
      pose proof (proj1 (dec_ok D HD fuel) (pref_of (tag / 8)%N f) (go_type f) (firstn len r) y Hfit Hdep Wy (bytes_okb_firstn _ _ Hbr) (small_firstn _ _ Hsr)) as T.
      rewrite P in T.
      eapply IH; try exact E; try assumption; try (apply bytes_okb_skipn; assumption); try (apply small_skipn; assumption).
      * rewrite skipn_length. lia.
      * apply struct_wts; try assumption. rewrite Ht. eapply all2_set; eassumption.
      * apply fresh_set; assumption.
      * apply map_norm_set; assumption.
    + destruct P as (y' & q & e' & P). pose proof (put_fails m f _ fuel y z r len p _ y' q e' IH Hf Hfit Hdep Wy Hfy Hrel Hbr Hsr ltac:(lia) El RP P) as PF.
      rewrite P in E. injection E as <- _. cbn [set_field].
      assert (R : forall w, norm y' = norm w -> norm (VStruct (list_set ys i y')) = norm (VStruct (replace xs i w))).
      { intros w Hwn. cbn [norm]. f_equal. apply map_norm_set; assumption. }
      assert (R0 : norm y' = norm y -> norm (VStruct (list_set ys i y')) = norm (VStruct xs)).
      { intros Hyn. rewrite (R z) by congruence. cbn [norm]. f_equal. clear - Ez. revert i Ez. induction xs as [|x0 xs IHx]; intros [|i] Ez; try discriminate; cbn [nth_error] in Ez.
        - inversion Ez. reflexivity.
        - cbn [replace map]. f_equal. apply IHx. exact Ez. }
      destruct f as [s|s|s|s| |m1|el|k el]; try (apply R0; exact PF). destruct p; try (apply R0; exact PF). apply R. exact PF.
    + contradiction.
  - destruct (payload_len (tag mod 8) r) as [len|e0] eqn:El.
    2:{ rewrite RP. injection E as <- _. exact Nn. }
    destruct RP as (p & RP & Hle). rewrite RP.
    eapply IH; try exact E; try assumption; try (apply bytes_okb_skipn; assumption); try (apply small_skipn; assumption).
    rewrite skipn_length. lia.
Qed.
End Dec.

Theorem failed_proof D sch : covers D sch = true -> forall s m xs zs b, reachable D s ->
  wts D (VStruct xs) (SNamed m) = true -> forallb fresh xs = true -> map norm xs = map norm zs ->
  bytes_okb b = true -> zlen b < 2^63 -> merge_lib sch (S (length b)) (msg sch m) zs b = MBad ->
  exists ys e, fst (Unmarshal D b (ptr m xs) s) = Returns (ptr m ys, Some e) /\
    map norm ys = map norm (remains sch (S (length b)) (msg sch m) zs b) /\ wts D (VStruct ys) (SNamed m) = true.
Proof.
  intros HV s m xs zs b Hr Hw Hf Hn Hb Hs Hm. pose proof (unmarshal_lib D sch HV s m xs zs b Hr Hw Hf Hn Hb Hs) as U. rewrite Hm in U.
  destruct (covers_facts _ _ HV) as (HI & HS & HC & HP).
  pose proof (wts_msg _ _ _ Hw) as [Hk Hw']. pose proof (reachable_SInv D HP s Hr) as HR.
  assert (HF : decls_fit D = true) by (apply schema_fits with (sch := sch); assumption).
  destruct (unmarshal_pure D HP s (SNamed m) b (VStruct xs) HR Hk Hw Hb Hs) as (s' & _ & [(x' & P & W & E)|(x' & e & P & W & E)]).
  - exfalso. destruct U as (x & e & U). rewrite E in U. discriminate U.
  - pose proof (leaves_all D sch HI HS HC HF (S (length b)) m b xs zs _ x' e (user_key_ok _ _ Hk) (Nat.lt_succ_diag_r _) Hb Hs Hw Hf Hn P) as N.
    destruct (wts_struct D x' (SNamed m) ltac:(discriminate) W) as (ys & -> & _). exists ys, e. rewrite E. split; [reflexivity|].
    split; [|exact W]. cbn [norm] in N. congruence.
Qed.

(** ** Inputs with a good beginning *)
Section App.
Variable sch : schema.
Notation lib := (merge_lib sch).
Notation remains := (remains sch).

Lemma payload_app w r p r' b : read_payload w r = Some (p, r') -> read_payload w (r ++ b) = Some (p, r' ++ b).
Proof.
  unfold read_payload. destruct (w =? 0)%N.
  { destruct (read_varint r) as [v k q| |] eqn:E; try discriminate. intros H. inversion H; subst. rewrite (read_varint_app _ _ _ _ b E). reflexivity. }
  destruct (w =? 1)%N.
  { destruct (8 <=? length r)%nat eqn:E; [|discriminate]. intros H. apply Nat.leb_le in E. injection H as <- <-. rewrite app_length. replace (8 <=? _)%nat with true by lia.
    rewrite firstn_app, skipn_app. replace (8 - length r)%nat with 0%nat by lia. rewrite firstn_O, app_nil_r. reflexivity. }
  destruct (w =? 2)%N.
  { destruct (read_varint r) as [v k q| |] eqn:E; try discriminate. destruct (v <=? N.of_nat (length q))%N eqn:L; [|discriminate]. intros H. injection H as <- <-.
    rewrite (read_varint_app _ _ _ _ b E). apply N.leb_le in L. rewrite app_length. replace (v <=? _)%N with true by lia.
    rewrite firstn_app, skipn_app. replace (N.to_nat v - length q)%nat with 0%nat by lia. rewrite firstn_O, app_nil_r. reflexivity. }
  destruct (w =? 5)%N; [|discriminate].
  destruct (4 <=? length r)%nat eqn:E; [|discriminate]. intros H. apply Nat.leb_le in E. injection H as <- <-. rewrite app_length. replace (4 <=? _)%nat with true by lia.
  rewrite firstn_app, skipn_app. replace (4 - length r)%nat with 0%nat by lia. rewrite firstn_O, app_nil_r. reflexivity.
Qed.
Lemma seen_inner f r p : (inner (seen f r p) <= inner p)%nat.
Proof. unfold seen. destruct (scalar_of f) as [s|]; [|lia]. destruct s, p; cbn; lia. Qed.
Lemma after_length f r r' : (length r' <= length r)%nat -> (length (after f r r') <= length r)%nat.
Proof. intros H. unfold after. destruct (scalar_of f) as [[]|]; try exact H. destruct r; cbn; lia. Qed.
Lemma lib_fuel m : forall m' fs xs b, (length b < m)%nat -> (length b < m')%nat -> lib m fs xs b = lib m' fs xs b.
Proof.
  induction m as [|m IH]; intros [|m'] fs xs b H H'; try lia. cbn [merge_lib]. destruct b as [|c b0] eqn:Eb; [reflexivity|]. rewrite <- Eb in *. clear Eb c b0.
  destruct (read_varint b) as [tag k r| |] eqn:Er; try reflexivity.
  assert (Hr : (length r < length b)%nat) by (apply read_varint_ok in Er; destruct Er as (_ & _ & <- & ? & ?); rewrite skipn_length; lia).
  destruct (read_payload (tag mod 8) r) as [[p r']|] eqn:Ep; [|reflexivity]. apply read_payload_inner in Ep as [Hp Hr'].
  destruct (find_field 0 fs (tag / 8)) as [[i f]|]; [|apply IH; lia].
  destruct (negb _); [reflexivity|]. destruct (nth_error xs i) as [y|]; [|reflexivity]. pose proof (seen_inner f r p). pose proof (after_length f r r' Hr').
  rewrite (put_ext sch f (seen f r p) y (lib m) (lib m')) by (intros; apply IH; lia).
  destruct (put sch (lib m') f (seen f r p) y); try reflexivity. apply IH; lia.
Qed.
Lemma remains_app n : forall m fs xs b zs c, (length b < n)%nat -> (length (b ++ c) < m)%nat -> lib n fs xs b = MOk zs ->
  exists m', (length c < m')%nat /\ remains m fs xs (b ++ c) = remains m' fs zs c /\ lib m fs xs (b ++ c) = lib m' fs zs c.
Proof.
  induction n as [|n IH]; intros m fs xs b zs c Hn Hm E; [lia|]. cbn [merge_lib] in E.
  destruct b as [|c0 b0] eqn:Eb; [inversion E; subst; exists m; cbn [app] in *; auto|]. rewrite <- Eb in *.
  destruct m as [|m]; [lia|]. cbn [SpecFailed.remains merge_lib].
  assert (Hbc : (length (b ++ c) = length b + length c)%nat) by apply app_length.
  destruct (b ++ c) as [|c1 b1] eqn:Ea; [rewrite Eb in Ea; discriminate Ea|]. rewrite <- Ea in *. clear Eb c0 b0.
  destruct (read_varint b) as [tag k r| |] eqn:Er; try discriminate E.
  pose proof (read_varint_app _ _ _ _ c Er) as Er2. rewrite Er2. clear Ea c1 b1.
  assert (Hr : (length r < length b)%nat) by (apply read_varint_ok in Er; destruct Er as (_ & _ & <- & ? & ?); rewrite skipn_length; lia).
  destruct (read_payload (tag mod 8) r) as [[p r']|] eqn:Ep; [|discriminate E]. rewrite (payload_app _ _ _ _ c Ep). apply read_payload_inner in Ep as Ei. destruct Ei as [Hp Hr'].
  destruct (find_field 0 fs (tag / 8)) as [[i f]|].
  2:{ apply (IH m fs xs r'); [lia| |exact E]. rewrite app_length. lia. }
  destruct (N.eqb_spec (wire_fty f) (tag mod 8)) as [Ew|]; [|discriminate E]. cbn [negb] in *.
  destruct (nth_error xs i) as [y|]; [|discriminate E].
  pose proof (seen_inner f r p) as Hsi. pose proof (after_length f r r' Hr') as Hal.
  assert (Hrn : scalar_of f = Some Y_bool -> r <> []).
  { intros Hb ->. rewrite <- Ew, (scalar_wire f _ Hb) in Ep. discriminate Ep. }
  assert (Es : seen f (r ++ c) p = seen f r p).
  { unfold seen. destruct (scalar_of f) as [s|] eqn:Es; [|reflexivity]. destruct s; try reflexivity. destruct r; [destruct (Hrn eq_refl eq_refl)|reflexivity]. }
  assert (Ef : after f (r ++ c) (r' ++ c) = after f r r' ++ c).
  { unfold after. destruct (scalar_of f) as [s|] eqn:Es'; [|reflexivity]. destruct s; try reflexivity. destruct r; [destruct (Hrn eq_refl eq_refl)|reflexivity]. }
  rewrite Es, Ef. rewrite (put_ext sch f (seen f r p) y (lib m) (lib n)) by (intros; apply lib_fuel; lia).
  destruct (put sch (lib n) f (seen f r p) y) as [z| |]; try discriminate E.
  apply (IH m fs (replace xs i z) (after f r r')); [lia| |exact E]. rewrite app_length. lia.
Qed.
Lemma faulty_lib m fs zs b : nodup_N (numbers fs) = true -> faulty fs b -> (length b < m)%nat -> lib m fs zs b = MBad /\ remains m fs zs b = zs.
Proof.
  intros Hnd [Hne F] Hm. destruct m as [|m]; [lia|]. cbn [merge_lib SpecFailed.remains]. destruct b as [|c b]; [contradiction|].
  destruct (read_varint (c :: b)) as [tag k r| |]; [|auto..]. destruct F as [->|(f & Hin & Hw)]; [auto|].
  destruct (RecordFacts.find_in _ _ _ Hnd Hin) as [i ->]. destruct (read_payload _ r) as [[p r']|]; [|auto].
  destruct (N.eqb_spec (wire_fty f) (tag mod 8)) as [E|E]; [contradiction|]. auto.
Qed.
End App.

Theorem failed_prefix_proof D sch : covers D sch = true -> forall s m xs zs b c, reachable D s ->
  wts D (VStruct xs) (SNamed m) = true -> forallb fresh xs = true ->
  bytes_okb (b ++ c) = true -> zlen (b ++ c) < 2^63 -> merge_lib sch (S (length b)) (msg sch m) xs b = MOk zs -> faulty (msg sch m) c ->
  exists ys e, fst (Unmarshal D (b ++ c) (ptr m xs) s) = Returns (ptr m ys, Some e) /\ map norm ys = map norm zs.
Proof.
  intros HV s m xs zs b c Hr Hw Hf Hb Hs E F. destruct (covers_facts _ _ HV) as (_ & HS & _ & _). destruct (schema_ok_msg sch HS m) as (_ & Hnd & _).
  destruct (remains_app sch (S (length b)) (S (length (b ++ c))) (msg sch m) xs b zs c ltac:(lia) ltac:(lia) E) as (m' & Hm' & R & L).
  destruct (faulty_lib sch m' (msg sch m) zs c Hnd F Hm') as [F1 F2].
  destruct (failed_proof D sch HV s m xs xs (b ++ c) Hr Hw Hf eq_refl Hb Hs ltac:(congruence)) as (ys & e & U & N & _).
  exists ys, e. split; [exact U|]. rewrite N, R, F2. reflexivity.
Qed.
Lemma remains_ok sch m : forall fs xs b zs, merge_lib sch m fs xs b = MOk zs -> remains sch m fs xs b = zs.
Proof.
  induction m as [|m IH]; intros fs xs b zs H; [discriminate H|]. cbn [merge_lib remains] in *. destruct b as [|c b]; [congruence|].
  destruct (read_varint (c :: b)) as [tag k r| |]; try discriminate H. destruct (read_payload _ r) as [[p r']|]; [|discriminate H].
  destruct (find_field 0 fs (tag / 8)) as [[i f]|]; [|auto]. destruct (negb _); [discriminate H|]. destruct (nth_error xs i) as [y|]; [|discriminate H].
  destruct (put _ _ _ _ _); try discriminate H. auto.
Qed.
