(** Errors are traced to the input (SpecTrace.v). *)
From Coq Require Import Lia ZifyBool ZifyNat ZifyN.
From Verif Require Import Base Wire GoType Leaf Codec Tag Walker Api Resolve SpecWire WireFacts DecodeFacts GenFacts Typing WalkSeq AnyWalk SpecAny AnyApi SpecTrace SpecErrText ErrText ErrTextFacts.
Local Open Scope N_scope.

Lemma varint_unreadable b v n e : decodeVarint b = (v, n, Some e) -> unreadable b e.
Proof.
  pose proof (decodeVarint_spec b) as S. destruct (read_varint b) eqn:E.
  - rewrite S; discriminate.
  - destruct S as [y S]; rewrite S. intros H; inversion H. apply U_end, E.
  - rewrite S. intros H; inversion H. eapply U_long, E.
Qed.
Lemma varlen_unreadable b v n e : small b -> decodeVarlen b = OK (v, n, Some e) -> unreadable b e.
Proof.
  intros Hs. pose proof (decodeVarlen_spec b Hs) as S. destruct (read_varint b) eqn:E.
  - destruct (_ <? _)%N eqn:L; rewrite S; [|discriminate]. intros H; inversion H. eapply U_length; [exact E|]. apply N.ltb_lt, L.
  - rewrite S. intros H; inversion H. apply U_end, E.
  - rewrite S. intros H; inversion H. eapply U_long, E.
Qed.
Lemma LE32_unreadable b v n e : decodeLE32 b = (v, n, Some e) -> unreadable b e.
Proof. unfold decodeLE32. destruct (_ <? _)%Z eqn:L; intros H; inversion H. apply U_fixed. unfold zlen in L. lia. Qed.
Lemma LE64_unreadable b v n e : decodeLE64 b = (v, n, Some e) -> unreadable b e.
Proof. unfold decodeLE64. destruct (_ <? _)%Z eqn:L; intros H; inversion H. apply U_fixed. unfold zlen in L. lia. Qed.

Lemma static_unreadable s b v v' n e : small b -> l_decode (static s) b v = DRet v' n (Some e) -> unreadable b e.
Proof.
  intros Hs.
  assert (P : forall w m, m <> Optional -> forall v v' n e, l_decode (static (SC w m)) b v = DRet v' n (Some e) -> unreadable b e).
  { intros w m Hm v0 v0' n0 e0 H. destruct w, m; try contradiction; cbn [static l_decode boolCodec boolRequiredCodec
      stringCodec stringRequiredCodec float32Codec float32RequiredCodec float64Codec float64RequiredCodec
      int32Codec int32RequiredCodec int64Codec int64RequiredCodec uint32Codec uint32RequiredCodec
      uint64Codec uint64RequiredCodec fixed32Codec fixed32RequiredCodec fixed64Codec fixed64RequiredCodec
      zigzag32Codec zigzag32RequiredCodec zigzag64Codec zigzag64RequiredCodec] in H;
    cbv [decodeBool decodeString decodeFloat32 decodeFloat64 decodeInt32 decodeInt64 decodeUint32
      decodeUint64 decodeFixed32 decodeFixed64 decodeZigzag32 decodeZigzag64] in H;
    try (destruct b; [inversion H; apply U_fixed; cbn; lia|]; apply wret_inv in H; destruct H as (_ & _ & He); discriminate);
    try (inv_dec H; apply wret_inv in H; destruct H as (_ & -> & He); subst;
         first [eapply varint_unreadable; eassumption | eapply LE32_unreadable; eassumption | eapply LE64_unreadable; eassumption]).
    all: inv_dec H; inv_dec H; apply wret_inv in H; destruct H as (_ & -> & He); subst;
      eapply varlen_unreadable; eassumption. }
  destruct s as [w m|].
  - destruct m; [apply P; discriminate..|]. intros H.
    assert (H' : decodeOption (l_decode (static (SC w Required))) b v = DRet v' n (Some e))
      by (destruct w; exact H).
    unfold decodeOption in H'. destruct v; try discriminate.
    destruct (l_decode (static (SC w Required)) b v) as [v1 n1 e1| |] eqn:E; try discriminate.
    cbn in H'. inversion H'; subst. eapply P; [|eassumption]. discriminate.
  - cbn. unfold decodeBytes. intros H. inv_dec H. destruct v; try discriminate.
    inversion H; subst. eapply varlen_unreadable; eassumption.
Qed.

Lemma payload_missing wt r e : payload_len wt r = inr e -> missing r wt e.
Proof.
  unfold payload_len, wt_varint, wt_varlen, wt_fixed32, wt_fixed64.
  destruct (wt =? 0)%N eqn:E0; [apply N.eqb_eq in E0; subst|destruct (wt =? 2)%N eqn:E2; [apply N.eqb_eq in E2; subst|
    destruct (wt =? 5)%N eqn:E5; [apply N.eqb_eq in E5; subst|destruct (wt =? 1)%N eqn:E1; [apply N.eqb_eq in E1; subst|]]]].
  - destruct (read_varint r) eqn:E; intros H; inversion H; [apply M_varint_end; auto|eapply M_varint_long; eauto].
  - destruct (read_varint r) eqn:E; [destruct (_ <? _)%N eqn:L|..]; intros H; inversion H;
      [eapply M_length; [exact E|lia]|apply M_varint_end; auto|eapply M_varint_long; eauto].
  - destruct (_ <? _)%nat eqn:L; intros H; inversion H. apply M_fixed32. lia.
  - destruct (_ <? _)%nat eqn:L; intros H; inversion H. apply M_fixed64. lia.
  - intros H; inversion H. apply M_unknown; lia.
Qed.
Lemma payload_there wt r n : payload_len wt r = inl n -> payload_at r wt (firstn n r).
Proof.
  unfold payload_len, wt_varint, wt_varlen, wt_fixed32, wt_fixed64.
  destruct (wt =? 0)%N eqn:E0; [apply N.eqb_eq in E0; subst|destruct (wt =? 2)%N eqn:E2; [apply N.eqb_eq in E2; subst|
    destruct (wt =? 5)%N eqn:E5; [apply N.eqb_eq in E5; subst|destruct (wt =? 1)%N eqn:E1; [apply N.eqb_eq in E1; subst|]]]].
  - destruct (read_varint r) eqn:E; intros H; inversion H; subst. eapply PA_varint; exact E.
  - destruct (read_varint r) eqn:E; [destruct (_ <? _)%N eqn:L|..]; intros H; inversion H; subst. eapply PA_length; [exact E|lia].
  - destruct (_ <? _)%nat eqn:L; intros H; inversion H; subst. apply PA_fixed32. lia.
  - destruct (_ <? _)%nat eqn:L; intros H; inversion H; subst. apply PA_fixed64. lia.
  - discriminate.
Qed.
Lemma fieldError_small fn wt e : (fn < 9223372036854775808)%N -> (wt < 8)%N -> fieldError fn wt e = UnmarshalFieldError (Z.of_N fn) (Z.of_N wt) e.
Proof. intros A B. unfold fieldError, s64. f_equal; destruct (_ <? _)%Z eqn:E; unfold Z63, Z64 in *; lia. Qed.
Lemma traced_app p b e : traced b e -> traced (p ++ b) e.
Proof.
  intros [p' q N E|p' q k E|p' q tag k r e' E F]; rewrite app_assoc; [apply TR_tag_end; assumption|eapply TR_tag_long; exact E|eapply TR_field; eassumption].
Qed.
Lemma traced_skip n b e : traced (skipn n b) e -> traced b e.
Proof. intro T. rewrite <- (firstn_skipn n b). apply traced_app, T. Qed.
Lemma tag_small b v n r : read_varint b = VOk v n r -> (v / 8 < 9223372036854775808)%N /\ (v mod 8 < 8)%N.
Proof. intro E. apply read_varint_ok in E. destruct E as [Hv _]. change (2^64)%N with 18446744073709551616%N in Hv. lia. Qed.

Section S.
Context {R I : Type}.
Variable look : R -> cbody R I.
Variable iget : I -> sinfo R.
Variable D : decls.
Let dec := Codec.dec look iget D.
Let ldecs := DecodeFacts.ldecs look iget D.

Lemma trace_causes fuel :
  (forall c b v v' n e, small b -> dec fuel c b v = DRet v' n (Some e) ->
     unreadable b e \/ exists l k inner, read_varint b = VOk l k inner /\ traced inner e) /\
  (forall i b x x' e, small b -> ldecs fuel i b x = LErr x' e -> traced b e).
Proof.
  induction fuel as [|fuel [IH1 IH2]]; [split; discriminate|]. split.
  - intros c b v v' n e Hs. unfold dec.
    destruct (look c) eqn:El.
    + rewrite dec_S, El. discriminate.
    + rewrite dec_S, El. intro H. left. eapply static_unreadable; eassumption.
    + rewrite dec_S, El. destruct v; try discriminate. cbv zeta.
      destruct (Codec.dec look iget D fuel c0 b _) as [v1 n1 e1| |] eqn:E; try discriminate.
      cbn. intros H; inversion H; subst. eapply IH1; eassumption.
    + rewrite dec_S, El. destruct v; try discriminate. cbv zeta.
      destruct (match spare with [] => _ | _ => _ end) as [|slot sp]; [discriminate|].
      destruct (Codec.dec look iget D fuel c0 b slot) as [v1 n1 [e1|]| |] eqn:E; try discriminate.
      intros H; inversion H; subst. eapply IH1; eassumption.
    + destruct v; try (rewrite dec_S, El; discriminate).
      destruct (dec_struct look iget D fuel c k i b o Hs El) as [n0 E]. rewrite E. cbv zeta.
      destruct (read_varint b) as [l0 k0 r| |] eqn:Er; [|intros H; inversion H; left; first [apply U_end; exact Er|eapply U_long; exact Er]..].
      destruct (DecodeFacts.ldecs look iget D fuel i _ _) eqn:Ed; try discriminate. intros H; inversion H; subst.
      right. exists l0, k0, r. split; [reflexivity|]. eapply IH2; [|exact Ed].
      apply read_varint_skip in Er. destruct Er as [-> _]. apply small_skipn; assumption.
    + destruct v; try (rewrite dec_S, El; discriminate).
      destruct (dec_map look iget D fuel c tag kf vf entry i b m Hs El) as [n0 E]. rewrite E. cbv zeta.
      destruct b as [|c0 b0] eqn:Eb; [discriminate|]. rewrite <- Eb in *. clear Eb.
      destruct (read_varint b) as [l0 k0 r| |] eqn:Er; [|intros H; inversion H; left; first [apply U_end; exact Er|eapply U_long; exact Er]..].
      destruct (DecodeFacts.ldecs look iget D fuel i _ _) as [x0| | |] eqn:Ed; try discriminate.
      * destruct x0 as [| | | | | | | | | | | | |[|? [|? []]]|]; discriminate.
      * intros H; inversion H; subst. right. exists l0, k0, r. split; [reflexivity|]. eapply IH2; [|exact Ed].
        apply read_varint_skip in Er. destruct Er as [-> _]. apply small_skipn; assumption.
  - intros i b x x' e Hs. unfold ldecs. cbn [DecodeFacts.ldecs]. destruct b as [|c0 b0] eqn:Eb; [discriminate|].
    rewrite <- Eb in *. assert (Hb : b <> []) by (rewrite Eb; discriminate). clear Eb. pose proof (lstep_consumes (iget i) b) as LC.
    destruct (lstep (iget i) b) as [e0|r|fn wt fd data r] eqn:El.
    + intros H; inversion H; subst. unfold lstep in El. destruct (read_varint b) as [v k r| |] eqn:Er.
      * destruct (tag_small _ _ _ _ Er) as (A & B).
        assert (F : exists e', e = fieldError (v / 8) (v mod 8) e' /\ traced_field r (v mod 8) e').
        { destruct (lookup_field (iget i) (v / 8)) as [f|].
          - destruct (negb _) eqn:Nw; [inversion El; eexists; split; [reflexivity|]; apply TF_type; lia|].
            destruct (payload_len _ r) eqn:Ep; [discriminate|]. inversion El. eexists; split; [reflexivity|]. apply TF_missing, payload_missing, Ep.
          - destruct (payload_len _ r) eqn:Ep; [discriminate|]. inversion El. eexists; split; [reflexivity|]. apply TF_missing, payload_missing, Ep. }
        destruct F as (e' & -> & F). rewrite fieldError_small by assumption. apply (TR_field [] b v k r e' Er F).
      * inversion El. apply (TR_tag_end [] b Hb Er).
      * inversion El. eapply (TR_tag_long [] b); exact Er.
    + intro H. unfold lstep in El. destruct (read_varint b) as [v k r'| |] eqn:Er; try discriminate.
      apply read_varint_skip in Er as [Er _].
      destruct (lookup_field (iget i) (v / 8)); [destruct (negb _); [discriminate|]; destruct (payload_len _ _); discriminate|].
      destruct (payload_len (v mod 8) r') as [n|] eqn:Ep; [|discriminate]. inversion El; subst r r'.
      apply (traced_skip k), (traced_skip n). eapply IH2; [|exact H]. apply small_skipn, small_skipn. assumption.
    + unfold lstep in El. destruct (read_varint b) as [v k r'| |] eqn:Er; try discriminate.
      destruct (tag_small _ _ _ _ Er) as (A & B).
      destruct (lookup_field (iget i) (v / 8)); [|destruct (payload_len _ _); discriminate].
      destruct (negb _); [discriminate|].
      destruct (payload_len (v mod 8) r') as [n|] eqn:Ep; [|discriminate]. inversion El; subst. clear El.
      destruct (get_field x (f_idx fd)) as [y|]; [|discriminate].
      assert (Sr : small r) by (apply read_varint_skip in Er as [-> _]; apply small_skipn; exact Hs).
      destruct (Codec.dec look iget D fuel (f_codec fd) (firstn n r) y) as [y' n' [e1|]| |] eqn:Ed; try discriminate.
      * intros H; inversion H; subst. rewrite fieldError_small by assumption. apply (TR_field [] b v k r e1 Er).
        pose proof (payload_there _ _ _ Ep) as Pa.
        apply IH1 in Ed; [|eapply small_le; [|exact Sr]; rewrite firstn_length; lia].
        destruct Ed as [U|(l & k' & inner & E & T)]; [eapply TF_value; eassumption|eapply TF_inside; eassumption].
      * intro H. apply read_varint_skip in Er as [-> _]. apply (traced_skip k). eapply traced_skip. eapply IH2; [|exact H].
        apply small_skipn. exact Sr.
Qed.
End S.

Lemma trace_all_proof D s k b x x' e : reachable D s -> user_key D k = true -> (zlen b < 2^63)%Z ->
  fst (Unmarshal D b (IPtr k (Some x)) s) = Returns (IPtr k (Some x'), Some e) -> traced b e.
Proof.
  intros Hr Hk Hs H. assert (Hb : b <> []) by (intros ->; discriminate).
  destruct (unmarshal_returns D s k b x _ Hr Hk Hs H Hb) as (i & s1 & R & P). apply unm_err in P. unfold hdecode in P.
  eapply (proj2 (trace_causes (hlook s1) (higet s1) D (decode_fuel D b))); [exact Hs|exact P].
Qed.

(** A path of fields and a cause. *)
Scheme traced_mut := Induction for traced Sort Prop with traced_field_mut := Induction for traced_field Sort Prop.
Lemma missing_cause r wt e : missing r wt e -> exists c, e = cause_error c.
Proof. intros []; [exists C_eof|exists C_overflow|exists C_eof|exists C_eof|exists C_eof|exists C_unknown]; reflexivity. Qed.
Lemma unreadable_cause r e : unreadable r e -> exists c, e = cause_error c.
Proof. intros []; [exists C_eof|exists C_overflow|exists C_eof|exists C_eof]; reflexivity. Qed.
Lemma traced_located b e : traced b e -> exists path c, e = located path c.
Proof.
  intro T. induction T using traced_mut with (P0 := fun _ _ e _ => exists path c, e = located path c).
  - exists [], C_eof. reflexivity.
  - exists [], C_overflow. reflexivity.
  - destruct IHT as (path & c & ->). exists ((Z.of_N (tag / 8), Z.of_N (tag mod 8)) :: path), c. reflexivity.
  - destruct (missing_cause _ _ _ m) as (c & ->). exists [], c. reflexivity.
  - exists [], (C_expected w). reflexivity.
  - destruct (unreadable_cause _ _ u) as (c & ->). exists [], c. reflexivity.
  - exact IHT.
Qed.
Lemma unmarshal_located_proof D s k b x x' e : reachable D s -> user_key D k = true -> (zlen b < 2^63)%Z ->
  fst (Unmarshal D b (IPtr k (Some x)) s) = Returns (IPtr k (Some x'), Some e) -> exists path c, e = located path c.
Proof. intros. eapply traced_located, trace_all_proof; eassumption. Qed.
