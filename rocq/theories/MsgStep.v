(** Record by record: which fields an input can change, and what an error
    leaves behind. *)
From Coq Require Import ZifyBool ZifyNat ZifyN.
From Verif Require Import Base Wire GoType Leaf Codec Tag Walker Api Resolve Typing CodecSim SpecWire SpecTag SpecMsg
  WireFacts DecodeFacts GenFacts TypingFacts WalkInv WalkSpec WalkSeq EncFacts MsgResolve MsgEnc MsgDec MsgRound MsgFit MsgApi ApiFacts ApiTags.
Local Open Scope Z_scope.
Ltac Zify.zify_post_hook ::= Z.div_mod_to_equations.

Lemma payload_len_firstn w r n : payload_len w r = inl n -> payload_len w (firstn n r) = inl n.
Proof.
  intros H. apply payload_len_ok in H as L. unfold payload_len in *.
  destruct (w =? wt_varint)%N; [|destruct (w =? wt_varlen)%N; [|destruct (w =? wt_fixed32)%N; [|destruct (w =? wt_fixed64)%N; [|discriminate]]]].
  - destruct (read_varint r) as [v k r'| |] eqn:E; try discriminate. inversion H; subst. rewrite (read_varint_firstn _ _ _ _ _ E (Nat.le_refl _)). reflexivity.
  - destruct (read_varint r) as [v k r'| |] eqn:E; try discriminate. destruct (N.ltb_spec (N.of_nat (length r')) v); [discriminate|]. inversion H; subst.
    rewrite (read_varint_firstn _ _ _ _ _ E) by lia. replace (k + N.to_nat v - k)%nat with (N.to_nat v) by lia. rewrite firstn_length.
    destruct (N.ltb_spec (N.of_nat (Nat.min (N.to_nat v) (length r'))) v); [lia|reflexivity].
  - destruct (Nat.ltb_spec (length r) 4); [discriminate|]. inversion H; subst. rewrite firstn_length. destruct (Nat.ltb_spec (Nat.min 4 (length r)) 4); [lia|reflexivity].
  - destruct (Nat.ltb_spec (length r) 8); [discriminate|]. inversion H; subst. rewrite firstn_length. destruct (Nat.ltb_spec (Nat.min 8 (length r)) 8); [lia|reflexivity].
Qed.
(** The first record of [b]. *)
Lemma first_record b tag kk r len : read_varint b = VOk tag kk r -> payload_len (tag mod 8) r = inl len ->
  b = firstn (kk + len) b ++ skipn len r /\ read_varint (firstn (kk + len) b) = VOk tag kk (firstn len r) /\ firstn (kk + len) b <> [].
Proof.
  intros E L. apply payload_len_ok in L as L'. apply read_varint_ok in E as E'. destruct E' as (_ & _ & <- & K1 & K2).
  rewrite skipn_skipn', firstn_skipn. split; [reflexivity|]. split.
  - rewrite (read_varint_firstn _ _ _ _ _ E) by lia. replace (kk + len - kk)%nat with len by lia. reflexivity.
  - intros F. apply (f_equal (@length N)) in F. rewrite firstn_length in F. cbn in F. lia.
Qed.

Section Step.
Variables (D : decls) (sch : schema).
Hypothesis HV : covers D sch = true.
Let HI := proj1 (covers_facts D sch HV).
Let HS := proj1 (proj2 (covers_facts D sch HV)).
Let HC := proj1 (proj2 (proj2 (covers_facts D sch HV))).
Let HP := proj2 (proj2 (proj2 (covers_facts D sch HV))).
Let HF : decls_fit D = true := HD_fit D HP.
Notation dec := (dec plook (piget D) D).
Notation ldecs := (ldecs plook (piget D) D).
Notation plain := (plain sch).

Definition keeps_slice (y y' : val) : Prop :=
  match y with VSlice _ items _ => exists nn' spare', y' = VSlice nn' items spare' | _ => True end.
Lemma dec_err_slice fuel c b v v' n e : dec fuel c b v = DRet v' n (Some e) -> keeps_slice v v'.
Proof.
  destruct v as [| | | | | | | | | | nn items spare | | | |]; intros H; try exact Logic.I.
  destruct fuel as [|fuel]; [discriminate|]. rewrite dec_S in H. cbn [keeps_slice].
  destruct (plook c) as [|s|t c'|t c'|k i|tag kf vf k i]; try discriminate.
  - destruct s as [w m|]; [destruct w, m|]; cbn in H;
      unfold decodeBool, decodeString, decodeFloat32, decodeFloat64, decodeInt32, decodeInt64, decodeUint32,
        decodeUint64, decodeFixed32, decodeFixed64, decodeZigzag32, decodeZigzag64, decodeBytes, wret in H; cbn in H;
      repeat match type of H with
      | context [match ?a with _ => _ end] => destruct a; try discriminate
      end; try discriminate.
    all: inversion H; eauto.
  - cbv zeta in H. set (sp := match spare with [] => grow_spare t (length items) | _ :: _ => spare end) in H. destruct sp as [|slot sp]; [discriminate|].
    destruct (dec fuel c' b slot) as [x n1 [e1|]| |]; try discriminate; inversion H; subst; eauto.
Qed.

(** What one turn of the loop does. *)
Lemma step m k fs b ys fuel : key_fs D sch k fs -> (length b < S m)%nat -> b <> [] ->
  bytes_okb b = true -> small b -> wts D (VStruct ys) k = true -> forallb fresh ys = true -> plain (S m) fs b = true ->
  ldecs (S fuel) k b (VStruct ys) = LFuel \/
  (exists e, ldecs (S fuel) k b (VStruct ys) = LErr (VStruct ys) e) \/
  exists tag kk r len, read_varint b = VOk tag kk r /\ payload_len (tag mod 8) r = inl len /\ (length (skipn len r) < m)%nat /\
    plain m fs (skipn len r) = true /\
    ((find_field 0 fs (tag / 8) = None /\ ldecs (S fuel) k b (VStruct ys) = ldecs fuel k (skipn len r) (VStruct ys) /\
      ldecs (S fuel) k (firstn (kk + len) b) (VStruct ys) = ldecs fuel k [] (VStruct ys)) \/
     exists i f y y', find_field 0 fs (tag / 8) = Some (i, f) /\ nth_error ys i = Some y /\
       ((exists e, ldecs (S fuel) k b (VStruct ys) = LErr (VStruct (list_set ys i y')) e /\ keeps_slice y y') \/
        (ldecs (S fuel) k b (VStruct ys) = ldecs fuel k (skipn len r) (VStruct (list_set ys i y')) /\
         ldecs (S fuel) k (firstn (kk + len) b) (VStruct ys) = ldecs fuel k [] (VStruct (list_set ys i y')) /\
         wts D (VStruct (list_set ys i y')) k = true /\ forallb fresh (list_set ys i y') = true))).
Proof.
  intros Hkey Hlen Hne Hb Hs Hw Hfr Hpl. cbn [DecodeFacts.ldecs SpecMsg.plain] in *.
  destruct b as [|c0 b0] eqn:Eb; [contradiction|]. rewrite <- Eb in *. assert (Hne' : (1 <= length b)%nat) by (rewrite Eb; cbn; lia). clear Eb c0 b0.
  destruct (key_fs_facts D sch HI HS HC _ _ Hkey) as (Hix & Ht & Hz & Hnum & Hnd & Hno & Hok).
  unfold lstep. destruct (read_varint b) as [tag kk r| |] eqn:Er; [|right; left; eauto..].
  apply read_varint_ok in Er as Er'. destruct Er' as (Htag & _ & Hr & Hkk & _).
  assert (Hbr : bytes_okb r = true) by (rewrite <- Hr; apply bytes_okb_skipn; assumption).
  assert (Hsr : small r) by (rewrite <- Hr; apply small_skipn; assumption).
  assert (Hlr : (length r < length b)%nat) by (rewrite <- Hr, skipn_length; lia).
  unfold lookup_field. rewrite Hix, (lookup_spec fs (tag / 8) Hnum Hnd 0).
  pose proof (read_payload_len (tag mod 8) r) as RP.
  destruct (payload_len (tag mod 8) r) as [len|e] eqn:El.
  2:{ clear Hpl. right. left. destruct (find_field 0 fs (tag / 8)) as [[i f]|]; cbn [option_map]; [|eexists; reflexivity]. destruct (negb _); eexists; reflexivity. }
  destruct RP as (p & RP & Hle). rewrite RP in Hpl.
  destruct (first_record b tag kk r len Er El) as (_ & Fr1 & Fr2).
  assert (Sk : skipn len (firstn len r) = []) by (apply skipn_all2; rewrite firstn_length; lia).
  apply andb_true_iff in Hpl. destruct Hpl as [Hp1 Hp2].
  destruct (find_field 0 fs (tag / 8)) as [[i f]|] eqn:Ef; cbn [option_map fst snd].
  - apply find_field_in in Ef as Efi. destruct Efi as [_ Efi]. rewrite Nat.sub_0_r in Efi.
    apply nth_error_In in Efi as Hin. destruct (Hok _ _ Hin) as [Hf Hn61].
    destruct (field_number_of i (tag / 8) f (pref_of (tag / 8) f) Hn61) as [_ Hwt]. rewrite Hwt.
    destruct (N.eqb_spec (tag mod 8) (wire_fty f)) as [Ew|Ew]; cbn [negb]; [|right; left; eauto].
    rewrite Ew in *. rewrite N.eqb_refl in Hp1. cbn [negb orb] in Hp1.
    rewrite skipn_length in Hp1. replace (length r - (length r - len))%nat with len in Hp1 by lia.
    pose proof (wts_struct D (VStruct ys) k Hno Hw) as (ys0 & Ey & W). inversion Ey; subst ys0. clear Ey. rewrite Ht in W.
    assert (Eti : nth_error (map fld_type fs) i = Some (go_type f)) by (rewrite (map_nth_error fld_type _ _ Efi); reflexivity).
    destruct (all2_nth _ _ _ _ _ W Eti) as (y & Eyi & Wy). cbn [mkfield f_idx f_codec get_field]. rewrite Eyi.
    destruct Hkey as [Hko Hkc]. pose proof (conj Hko Hkc : key_fs D sch k fs) as Hkey.
    assert (Hlk : In (mkfield i (tag_of (tag / 8) f) (pref_of (tag / 8) f)) (i_index (piget D k))).
    { apply (lookup_field_in (piget D k) (tag / 8)). unfold lookup_field. rewrite Hix, (lookup_spec fs (tag / 8) Hnum Hnd 0), Ef. reflexivity. }
    destruct (piget_field D k _ HF Hko Hlk) as (t & Et & Hfit & Hdep). cbn [mkfield f_idx f_codec] in Et, Hfit.
    rewrite Ht, Eti in Et. inversion Et; subst t. clear Et.
    assert (Hrel : old_rel f y y) by (destruct f; try exact Logic.I; reflexivity).
    assert (Hfy : fresh y = true) by (eapply fresh_nth; eassumption).
    pose proof (puts_plain D sch HI HS HC HF m f Hf (tag / 8)%N fuel y y r len p Hfit Hdep Wy Hfy Hrel Hbr Hsr ltac:(lia) El RP Hp1) as P.
    destruct P as [P|P]; [left; rewrite P; reflexivity|].
    pose proof (proj1 (dec_ok D HF fuel) (pref_of (tag / 8)%N f) (go_type f) (firstn len r) y Hfit Hdep Wy (bytes_okb_firstn _ _ Hbr) (small_firstn _ _ Hsr)) as T.
    right. right. exists tag, kk, r, len. rewrite Ew. split; [reflexivity|]. split; [exact El|].
    split; [rewrite skipn_length; lia|]. split; [exact Hp2|]. right.
    destruct (put sch (merge sch m) f p y) as [z'| |].
    + destruct P as (y' & P & Ny & Fy). rewrite P in *. exists i, f, y, y'. split; [exact Ef|]. split; [exact Eyi|]. right.
      rewrite Nat2Z.id. cbn [set_field]. split; [reflexivity|]. split.
      { destruct (firstn (kk + len) b) as [|c1 b1] eqn:Eb1; [contradiction|]; rewrite <- Eb1 in *; clear Eb1 c1 b1.
        rewrite Fr1, lookup_spec, Ef by assumption. cbn [option_map fst snd]. rewrite Hwt, Ew, N.eqb_refl. cbn [negb].
        rewrite (payload_len_firstn _ _ _ El), firstn_firstn, Nat.min_id. cbn [mkfield f_idx f_codec get_field]. rewrite Eyi, P, Nat2Z.id, Sk. reflexivity. }
      split; [apply struct_wts; try assumption; rewrite Ht; eapply all2_set; eassumption|apply fresh_set; assumption].
    + destruct P as (y' & q & e & P). rewrite P. exists i, f, y, y'. split; [exact Ef|]. split; [exact Eyi|]. left. cbn [set_field].
      eexists. split; [reflexivity|]. eapply dec_err_slice; exact P.
    + contradiction.
  - right. right. exists tag, kk, r, len. split; [reflexivity|]. split; [exact El|]. split; [rewrite skipn_length; lia|]. split; [exact Hp2|].
    left. split; [exact Ef|]. split; [reflexivity|].
    destruct (firstn (kk + len) b) as [|c1 b1] eqn:Eb1; [contradiction|]; rewrite <- Eb1 in *; clear Eb1 c1 b1.
    rewrite Fr1, lookup_spec, Ef by assumption. cbn [option_map]. rewrite (payload_len_firstn _ _ _ El), Sk. reflexivity.
Qed.

Definition unmentioned (fs : list sfld) (l : list N) (j : nat) : Prop :=
  match nth_error fs j with Some (Field n _) => ~ In n l | _ => True end.
Lemma unmentioned_set fs n l i f j (ys : list val) y : find_field 0 fs n = Some (i, f) -> unmentioned fs (n :: l) j ->
  nth_error (list_set ys i y) j = nth_error ys j.
Proof.
  intros Ef U. apply find_field_in in Ef. destruct Ef as [_ Ef]. rewrite Nat.sub_0_r in Ef. apply nth_set_neq. intros ->.
  unfold unmentioned in U. rewrite Ef in U. apply U. left. reflexivity.
Qed.
Lemma unmentioned_tl fs n l j : unmentioned fs (n :: l) j -> unmentioned fs l j.
Proof. unfold unmentioned. destruct (nth_error fs j) as [[|]|]; auto. intros U H. apply U. right. exact H. Qed.

(** A run of the loop: the records of [b1] were merged entirely; the first of
    [b2], if there is one, failed. *)
Lemma run m : forall k fs b ys fuel, key_fs D sch k fs -> (length b < m)%nat ->
  bytes_okb b = true -> small b -> wts D (VStruct ys) k = true -> forallb fresh ys = true -> plain m fs b = true ->
  ldecs fuel k b (VStruct ys) = LFuel \/
  exists b1 b2 ys1, b = b1 ++ b2 /\ (exists fuel', ldecs fuel' k b1 (VStruct ys) = LOk (VStruct ys1)) /\
    (forall j, unmentioned fs (mentioned m b) j -> nth_error ys1 j = nth_error ys j) /\
    ((b2 = [] /\ ldecs fuel k b (VStruct ys) = LOk (VStruct ys1)) \/
     (b2 <> [] /\ exists ys' e, ldecs fuel k b (VStruct ys) = LErr (VStruct ys') e /\
        (forall j, unmentioned fs (mentioned m b) j -> nth_error ys' j = nth_error ys j) /\
        (forall j, nth_error ys' j = nth_error ys1 j \/
          exists tag kk r n f y y', read_varint b2 = VOk tag kk r /\ nth_error fs j = Some (Field n f) /\ n = (tag / 8)%N /\
            nth_error ys1 j = Some y /\ nth_error ys' j = Some y' /\ keeps_slice y y'))).
Proof.
  induction m as [|m IH]; intros k fs b ys fuel Hkey Hlen Hb Hs Hw Hfr Hpl; [lia|].
  destruct fuel as [|fuel]; [left; reflexivity|].
  destruct b as [|c0 b0] eqn:Eb.
  { right. exists [], [], ys. split; [reflexivity|]. split; [exists 1%nat; reflexivity|]. split; [reflexivity|]. left. split; reflexivity. }
  assert (Hne : b <> []) by (rewrite Eb; discriminate). rewrite <- Eb in *.
  destruct (step m k fs b ys fuel Hkey Hlen Hne Hb Hs Hw Hfr Hpl) as [L|[(e & L)|(tag & kk & r & len & Er & El & Hlr & Hp2 & Cases)]].
  { left. exact L. }
  { right. exists [], b, ys. split; [reflexivity|]. split; [exists 1%nat; reflexivity|]. split; [reflexivity|]. right. split; [exact Hne|].
    exists ys, e. split; [exact L|]. split; [reflexivity|]. intros j. left. reflexivity. }
  destruct (first_record b tag kk r len Er El) as (Eb1 & Fr1 & Fr2).
  assert (M : mentioned (S m) b = (tag / 8)%N :: mentioned m (skipn len r)).
  { cbn [mentioned]. rewrite Er. pose proof (read_payload_len (tag mod 8) r) as RP. rewrite El in RP. destruct RP as (p & -> & _). rewrite Eb. reflexivity. }
  rewrite M. clear Eb c0 b0 M. apply read_varint_ok in Er as Er'. destruct Er' as (_ & _ & Hr & _).
  assert (Hb2 : bytes_okb (skipn len r) = true) by (rewrite <- Hr; rewrite skipn_skipn'; apply bytes_okb_skipn; assumption).
  assert (Hs2 : small (skipn len r)) by (rewrite <- Hr; rewrite skipn_skipn'; apply small_skipn; assumption).
  set (r1 := firstn (kk + len) b) in *.
  assert (Sr1 : small r1) by (apply small_firstn; assumption).
  (* the rest of the input, from [ys0] *)
  assert (Rest : forall ys0, wts D (VStruct ys0) k = true -> forallb fresh ys0 = true ->
    ldecs (S fuel) k b (VStruct ys) = ldecs fuel k (skipn len r) (VStruct ys0) ->
    ldecs (S fuel) k r1 (VStruct ys) = ldecs fuel k [] (VStruct ys0) ->
    (forall j, unmentioned fs ((tag / 8)%N :: mentioned m (skipn len r)) j -> nth_error ys0 j = nth_error ys j) ->
    ldecs (S fuel) k b (VStruct ys) = LFuel \/
    exists b1 b2 ys1, b = b1 ++ b2 /\ (exists fuel', ldecs fuel' k b1 (VStruct ys) = LOk (VStruct ys1)) /\
    (forall j, unmentioned fs ((tag / 8)%N :: mentioned m (skipn len r)) j -> nth_error ys1 j = nth_error ys j) /\
    ((b2 = [] /\ ldecs (S fuel) k b (VStruct ys) = LOk (VStruct ys1)) \/
     (b2 <> [] /\ exists ys' e, ldecs (S fuel) k b (VStruct ys) = LErr (VStruct ys') e /\
        (forall j, unmentioned fs ((tag / 8)%N :: mentioned m (skipn len r)) j -> nth_error ys' j = nth_error ys j) /\
        (forall j, nth_error ys' j = nth_error ys1 j \/
          exists tag kk r n f y y', read_varint b2 = VOk tag kk r /\ nth_error fs j = Some (Field n f) /\ n = (tag / 8)%N /\
            nth_error ys1 j = Some y /\ nth_error ys' j = Some y' /\ keeps_slice y y')))).
  { intros ys0 W0 F0 E1 E2 U0. rewrite E1.
    destruct (IH k fs (skipn len r) ys0 fuel Hkey Hlr Hb2 Hs2 W0 F0 Hp2) as [L|(b1 & b2 & ys1 & A & B & C & Dd)]; [left; exact L|].
    right. exists (r1 ++ b1), b2, ys1. rewrite <- app_assoc, <- A. split; [exact Eb1|]. split.
    { destruct B as [fuel' B]. destruct fuel as [|fuel0]; [exfalso; destruct Dd as [[_ Dd]|(_ & ? & ? & Dd & _)]; discriminate Dd|]. cbn [DecodeFacts.ldecs] in E2.
      exists (S (S fuel0) + fuel')%nat. eapply ldecs_app; [exact Sr1|exact E2|exact B|discriminate]. }
    split.
    { intros j Hj. rewrite C by (eapply unmentioned_tl; exact Hj). apply U0. exact Hj. }
    destruct Dd as [[D1 D2]|(D1 & ys' & e & D2 & D3 & D4)]; [left; split; assumption|]. right. split; [exact D1|].
    exists ys', e. split; [exact D2|]. split; [|exact D4].
    intros j Hj. rewrite D3 by (eapply unmentioned_tl; exact Hj). apply U0. exact Hj. }
  destruct Cases as [(Ef & E1 & E2)|(i & f & y & y' & Ef & Ey & Cases)].
  - apply (Rest ys); try assumption. reflexivity.
  - destruct Cases as [(e & L & Hk)|(E1 & E2 & W0 & F0)].
    + right. exists [], b, ys. split; [reflexivity|]. split; [exists 1%nat; reflexivity|]. split; [reflexivity|]. right. split; [exact Hne|].
      exists (list_set ys i y'), e. split; [exact L|]. split.
      * intros j Hj. eapply unmentioned_set; eassumption.
      * intros j. destruct (Nat.eq_dec i j) as [<-|Hij]; [|left; apply nth_set_neq; exact Hij].
        right. apply find_field_in in Ef. destruct Ef as [_ Ef]. rewrite Nat.sub_0_r in Ef.
        exists tag, kk, r, (tag / 8)%N, f, y, y'. repeat (split; [first [assumption|reflexivity]|]). split; [eapply nth_set_eq; exact Ey|exact Hk].
    + apply (Rest (list_set ys i y')); try assumption. intros j Hj. eapply unmentioned_set; eassumption.
Qed.
End Step.
