(** Facts about the decoder that hold for every codec graph: fuel, concatenation,
    truncation, unknown fields, wire type mismatch, shape of errors. *)
From Coq Require Import ZifyBool ZifyNat ZifyN.
From Verif Require Import Base Wire GoType Leaf Codec SpecWire WireFacts DecodeFacts.
Local Open Scope Z_scope.
Ltac Zify.zify_post_hook ::= Z.div_mod_to_equations.

(** ** Reading from a longer or shorter input *)
Lemma vgroup_app b g r s : vgroup b = Some (g, r) -> vgroup (b ++ s) = Some (g, r ++ s).
Proof.
  revert g r. induction b as [|c b IH]; intros g r H; [discriminate|]. cbn [vgroup app] in *.
  destruct (c <? 128)%N; [inversion H; subst; reflexivity|].
  destruct (vgroup b) as [[g' r']|]; [|discriminate]. inversion H; subst.
  rewrite (IH _ _ eq_refl). reflexivity.
Qed.
Lemma vgroup_trunc p q g r : vgroup (p ++ q) = Some (g, r) ->
  (exists r', vgroup p = Some (g, r') /\ r = r' ++ q) \/ vgroup p = None.
Proof.
  intros H. destruct (vgroup p) as [[g' r']|] eqn:E; [left|right; reflexivity].
  rewrite (vgroup_app _ _ _ q E) in H. inversion H; subst. exists r'. split; reflexivity.
Qed.

Lemma read_varint_app b v k r s : read_varint b = VOk v k r -> read_varint (b ++ s) = VOk v k (r ++ s).
Proof.
  unfold read_varint. destruct (vgroup b) as [[g r']|] eqn:E; [|discriminate].
  rewrite (vgroup_app _ _ _ s E). destruct (_ || _)%bool; [discriminate|].
  intros H; inversion H; reflexivity.
Qed.
Lemma read_varint_trunc p q v k r : read_varint (p ++ q) = VOk v k r ->
  (exists r', read_varint p = VOk v k r' /\ r = r' ++ q) \/ read_varint p = VEof.
Proof.
  unfold read_varint. destruct (vgroup (p ++ q)) as [[g r0]|] eqn:E; [|discriminate].
  destruct (vgroup_trunc _ _ _ _ E) as [(r' & E' & ->)|E'].
  - rewrite E'. destruct (_ || _)%bool; [discriminate|]. intros H; inversion H; subst.
    left. exists r'. split; reflexivity.
  - rewrite E'. right; reflexivity.
Qed.

Lemma payload_len_app wt r n s : payload_len wt r = inl n -> payload_len wt (r ++ s) = inl n.
Proof.
  unfold payload_len.
  destruct (wt =? wt_varint)%N; [|destruct (wt =? wt_varlen)%N;
    [|destruct (wt =? wt_fixed32)%N; [|destruct (wt =? wt_fixed64)%N]]].
  - destruct (read_varint r) as [v k r'| |] eqn:E; try discriminate.
    rewrite (read_varint_app _ _ _ _ s E). auto.
  - destruct (read_varint r) as [v k r'| |] eqn:E; try discriminate.
    rewrite (read_varint_app _ _ _ _ s E). rewrite app_length.
    destruct (N.ltb_spec (N.of_nat (length r')) v); [discriminate|].
    destruct (N.ltb_spec (N.of_nat (length r' + length s)) v); [lia|auto].
  - rewrite app_length. destruct (Nat.ltb_spec (length r) 4); [discriminate|].
    destruct (Nat.ltb_spec (length r + length s) 4); [lia|auto].
  - rewrite app_length. destruct (Nat.ltb_spec (length r) 8); [discriminate|].
    destruct (Nat.ltb_spec (length r + length s) 8); [lia|auto].
  - discriminate.
Qed.
Lemma payload_len_trunc wt p q n : payload_len wt (p ++ q) = inl n ->
  payload_len wt p = inl n \/ payload_len wt p = inr ErrUnexpectedEOF.
Proof.
  unfold payload_len.
  destruct (wt =? wt_varint)%N; [|destruct (wt =? wt_varlen)%N;
    [|destruct (wt =? wt_fixed32)%N; [|destruct (wt =? wt_fixed64)%N]]].
  - destruct (read_varint (p ++ q)) as [v k r'| |] eqn:E; try discriminate.
    intros H; inversion H; subst.
    destruct (read_varint_trunc _ _ _ _ _ E) as [(r'' & -> & _)| ->]; [left|right]; reflexivity.
  - destruct (read_varint (p ++ q)) as [v k r'| |] eqn:E; try discriminate.
    destruct (read_varint_trunc _ _ _ _ _ E) as [(r'' & -> & ->)| ->]; [|right; reflexivity].
    destruct (_ <? _)%N; [discriminate|]. intros H; inversion H; subst.
    destruct (_ <? _)%N; [right|left]; reflexivity.
  - destruct (Nat.ltb_spec (length (p ++ q)) 4); [discriminate|]. intros H0; inversion H0; subst.
    destruct (length p <? 4)%nat; [right|left]; reflexivity.
  - destruct (Nat.ltb_spec (length (p ++ q)) 8); [discriminate|]. intros H0; inversion H0; subst.
    destruct (length p <? 8)%nat; [right|left]; reflexivity.
  - discriminate.
Qed.

Lemma lstep_app {R} (info : sinfo R) b s :
  match lstep info b with
  | LsErr _ => True
  | LsSkip r => lstep info (b ++ s) = LsSkip (r ++ s)
  | LsDec fn wt f data r => lstep info (b ++ s) = LsDec fn wt f data (r ++ s) /\ (length data <= length r)%nat
  end.
Proof.
  unfold lstep. destruct (read_varint b) as [v k r| |] eqn:E; [|exact Logic.I|exact Logic.I].
  rewrite (read_varint_app _ _ _ _ s E).
  destruct (lookup_field info (v / 8)).
  - destruct (negb _); [exact Logic.I|]. destruct (payload_len (v mod 8) r) as [n|] eqn:En; [|exact Logic.I].
    rewrite (payload_len_app _ _ _ s En). apply payload_len_ok in En.
    split; [|rewrite firstn_length; lia]. f_equal.
    rewrite firstn_app. replace (n - length r)%nat with 0%nat by lia. rewrite firstn_O, app_nil_r. reflexivity.
  - destruct (payload_len (v mod 8) r) as [n|] eqn:En; [|exact Logic.I].
    rewrite (payload_len_app _ _ _ s En). apply payload_len_ok in En. f_equal.
    rewrite skipn_app. replace (n - length r)%nat with 0%nat by lia. reflexivity.
Qed.

Lemma lstep_trunc {R} (info : sinfo R) p q :
  (exists e, lstep info p = LsErr e /\ err_cause e = ErrUnexpectedEOF) \/
  match lstep info (p ++ q) with
  | LsErr _ => True
  | LsSkip r => exists r', lstep info p = LsSkip r' /\ r = r' ++ q
  | LsDec fn wt f data r => exists r', lstep info p = LsDec fn wt f data r' /\ r = r' ++ q
  end.
Proof.
  unfold lstep. destruct (read_varint (p ++ q)) as [v k r| |] eqn:E; [|right; exact Logic.I|right; exact Logic.I].
  destruct (read_varint_trunc _ _ _ _ _ E) as [(r' & -> & ->)| ->]; [|left; eexists; split; reflexivity].
  destruct (lookup_field info (v / 8)).
  - destruct (negb _); [right; exact Logic.I|].
    destruct (payload_len (v mod 8) (r' ++ q)) as [n|] eqn:En; [|right; exact Logic.I].
    destruct (payload_len_trunc _ _ _ _ En) as [En'|En']; rewrite En'.
    + right. exists r'. split; [|reflexivity]. apply payload_len_ok in En'. f_equal.
      rewrite firstn_app. replace (n - length r')%nat with 0%nat by lia. now rewrite firstn_O, app_nil_r.
    + left. eexists; split; reflexivity.
  - destruct (payload_len (v mod 8) (r' ++ q)) as [n|] eqn:En; [|right; exact Logic.I].
    destruct (payload_len_trunc _ _ _ _ En) as [En'|En']; rewrite En'.
    + right. exists (skipn n r'). split; [reflexivity|]. apply payload_len_ok in En'.
      rewrite skipn_app. replace (n - length r')%nat with 0%nat by lia. reflexivity.
    + left. eexists; split; reflexivity.
Qed.

(** A turn of the loop consumes at least one byte. *)
Lemma lstep_consumes {R} (info : sinfo R) b :
  match lstep info b with
  | LsErr _ => True
  | LsSkip r => (length r < length b)%nat
  | LsDec _ _ _ data r => (length data <= length r < length b)%nat
  end.
Proof.
  unfold lstep. destruct (read_varint b) as [v k r| |] eqn:E; [|exact Logic.I|exact Logic.I].
  apply read_varint_ok in E as E1. apply read_varint_skip in E as [-> _].
  destruct (lookup_field info (v / 8)).
  - destruct (negb _); [exact Logic.I|]. destruct (payload_len _ _) as [n|] eqn:En; [|exact Logic.I].
    apply payload_len_ok in En. rewrite firstn_length, skipn_length in *. lia.
  - destruct (payload_len _ _) as [n|] eqn:En; [|exact Logic.I].
    rewrite !skipn_length in *. lia.
Qed.

Section Gen.
Context {R I : Type}.
Variable look : R -> cbody R I.
Variable iget : I -> sinfo R.
Variable D : decls.
Notation dec := (dec look iget D).
Notation decs := (decs look iget D).
Notation ldecs := (ldecs look iget D).

(** ** More fuel does not change the result *)
Lemma mono_S fuel :
  (forall c b v, dec fuel c b v <> DFuel -> dec (S fuel) c b v = dec fuel c b v) /\
  (forall i b off x, decs fuel i b off x <> DFuel -> decs (S fuel) i b off x = decs fuel i b off x).
Proof.
  induction fuel as [|fuel [IH1 IH2]]; [split; intros; exfalso; apply H; reflexivity|]. split.
  - intros c b v. rewrite (dec_S look iget D (S fuel)), (dec_S look iget D fuel). cbv zeta.
    destruct (look c).
    + reflexivity.
    + reflexivity.
    + destruct v; try reflexivity. intros H. rewrite IH1; [reflexivity|].
      intros E; apply H; rewrite E; reflexivity.
    + destruct v; try reflexivity. destruct (match spare with [] => _ | _ => _ end); [reflexivity|].
      intros H. rewrite IH1; [reflexivity|]. intros E; apply H; rewrite E; reflexivity.
    + destruct v; try reflexivity. destruct (decodeVarint b) as [[u q] [e|]]; [reflexivity|].
      destruct (from_ b q); [|reflexivity].
      intros H. rewrite IH2; [reflexivity|]. intros E; apply H; rewrite E; reflexivity.
    + destruct v; try reflexivity. destruct (zlen b =? 0); [reflexivity|].
      destruct (decodeVarint b) as [[u q] [e|]]; [reflexivity|].
      destruct (from_ b q); [|reflexivity].
      intros H. rewrite IH2; [reflexivity|]. intros E; apply H; rewrite E; reflexivity.
  - intros i b off x. rewrite (decs_S look iget D (S fuel)), (decs_S look iget D fuel). cbv zeta.
    destruct (off <? zlen b); [|reflexivity]. destruct (from_ b off) as [b0|]; [|reflexivity].
    destruct (decodeTag b0) as [[[fn wt] n] [e|]]; [reflexivity|].
    destruct (lookup_field (iget i) fn) as [f|].
    + destruct (negb _); [reflexivity|]. destruct (field_data b (off + n) wt); try reflexivity.
      destruct (get_field x (f_idx f)) as [y|]; [|reflexivity].
      intros H. rewrite IH1.
      * destruct (dec fuel (f_codec f) d y) as [y' n' [e|]| |]; try reflexivity.
        apply IH2. exact H.
      * intros E; apply H; rewrite E; reflexivity.
    + destruct (skip_unknown b (off + n) wt) as [[o [e|]]|]; try reflexivity. apply IH2.
Qed.

Lemma dec_mono f f' c b v : (f <= f')%nat -> dec f c b v <> DFuel -> dec f' c b v = dec f c b v.
Proof.
  intros Hl H. induction Hl; [reflexivity|]. rewrite (proj1 (mono_S m)); [assumption|].
  rewrite IHHl. assumption.
Qed.
Lemma decs_mono f f' i b off x : (f <= f')%nat -> decs f i b off x <> DFuel -> decs f' i b off x = decs f i b off x.
Proof.
  intros Hl H. induction Hl; [reflexivity|]. rewrite (proj2 (mono_S m)); [assumption|].
  rewrite IHHl. assumption.
Qed.
Lemma ldecs_mono f f' i b x : (f <= f')%nat -> ldecs f i b x <> LFuel -> ldecs f' i b x = ldecs f i b x.
Proof.
  revert f' b x. induction f as [|f IH]; intros f' b x Hl H; [exfalso; apply H; reflexivity|].
  destruct f' as [|f']; [lia|]. cbn [DecodeFacts.ldecs] in *.
  destruct b as [|c b]; [reflexivity|].
  destruct (lstep (iget i) (c :: b)) as [e|r|fn wt fd data r]; [reflexivity|apply IH; [lia|assumption]|].
  destruct (get_field x (f_idx fd)) as [y|]; [|reflexivity].
  rewrite (dec_mono f f') by (try lia; intros E; apply H; rewrite E; reflexivity).
  destruct (dec f (f_codec fd) data y) as [y' n' [e|]| |]; try reflexivity.
  apply IH; [lia|assumption].
Qed.

(** ** Concatenation *)
Lemma small_app_l a b : small (a ++ b) -> small a.
Proof. unfold small. rewrite zlen_app. pose proof (zlen_nonneg b). lia. Qed.
Lemma small_app_r a b : small (a ++ b) -> small b.
Proof. unfold small. rewrite zlen_app. pose proof (zlen_nonneg a). lia. Qed.
Lemma small_le (a b : bytes) : (length a <= length b)%nat -> small b -> small a.
Proof. unfold small, zlen. lia. Qed.

Lemma ldecs_app f1 f2 i a b x x' r :
  small a ->
  ldecs f1 i a x = LOk x' -> ldecs f2 i b x' = r -> r <> LFuel -> ldecs (f1 + f2) i (a ++ b) x = r.
Proof.
  revert a x. induction f1 as [|f1 IH]; intros a x Hs H1 H2 Hr; [discriminate|].
  cbn [DecodeFacts.ldecs] in H1. destruct a as [|c a].
  - inversion H1; subst. apply ldecs_mono; [lia|assumption].
  - cbn [Nat.add DecodeFacts.ldecs]. change ((c :: a) ++ b) with (c :: (a ++ b)).
    pose proof (lstep_app (iget i) (c :: a) b) as L. pose proof (lstep_consumes (iget i) (c :: a)) as LC.
    destruct (lstep (iget i) (c :: a)) as [e|r'|fn wt fd data r'] eqn:E; [discriminate| |].
    + change (c :: a ++ b) with ((c :: a) ++ b). rewrite L. apply IH; try assumption.
      eapply small_le; [|eassumption]. lia.
    + destruct L as [L Ld]. change (c :: a ++ b) with ((c :: a) ++ b). rewrite L.
      destruct (get_field x (f_idx fd)) as [y|]; [|discriminate].
      assert (Hsr : small r') by (eapply small_le; [|eassumption]; lia).
      assert (Hsd : small data) by (eapply small_le; [|eassumption]; lia).
      destruct (dec f1 (f_codec fd) data y) as [y' n' [e|]| |] eqn:Ed; try discriminate.
      rewrite (dec_mono f1) by (try lia; rewrite Ed; discriminate). rewrite Ed.
      apply dec_consumes in Ed; [|assumption].
      rewrite skipn_app. replace (Z.to_nat n' - length r')%nat with 0%nat by (unfold zlen in Ed; lia).
      apply IH; try assumption. apply small_skipn. assumption.
Qed.

(** ** Truncation *)
Lemma ldecs_trunc f i p q x x' :
  small p ->
  ldecs f i (p ++ q) x = LOk x' ->
  (exists x1, ldecs f i p x = LOk x1 /\ ldecs f i q x1 = LOk x') \/
  (exists x1 e, ldecs f i p x = LErr x1 e /\ err_cause e = ErrUnexpectedEOF).
Proof.
  revert p x. induction f as [|f IH]; intros p x Hs H; [discriminate|].
  destruct p as [|c p]; [left; exists x; split; [reflexivity|exact H]|].
  cbn [DecodeFacts.ldecs] in H |- *. change ((c :: p) ++ q) with (c :: (p ++ q)) in H.
  cbn [app] in H. change (c :: p ++ q) with ((c :: p) ++ q) in H.
  pose proof (lstep_consumes (iget i) (c :: p)) as LC.
  destruct (lstep_trunc (iget i) (c :: p) q) as [(e & L & Ec)|L].
  - rewrite L. right. exists x, e. split; [reflexivity|assumption].
  - destruct (lstep (iget i) ((c :: p) ++ q)) as [e|r|fn wt fd data r] eqn:E; [discriminate| |].
    + destruct L as (r' & L & ->). rewrite L in *.
      destruct (IH r' x) as [(x1 & A & B)|]; [eapply small_le; [|eassumption]; lia|assumption| |right; assumption].
      left. exists x1. split; [assumption|].
      change (ldecs (S f) i q x1 = LOk x').
      rewrite (ldecs_mono f) by (try lia; rewrite B; discriminate). exact B. 
    + destruct L as (r' & L & ->). rewrite L in *.
      destruct (get_field x (f_idx fd)) as [y|]; [|discriminate].
      assert (Hsr : small r') by (eapply small_le; [|eassumption]; lia).
      assert (Hsd : small data) by (eapply small_le; [|eassumption]; lia).
      destruct (dec f (f_codec fd) data y) as [y' n' [e|]| |] eqn:Ed; try discriminate.
      apply dec_consumes in Ed; [|assumption].
      rewrite skipn_app in H. replace (Z.to_nat n' - length r')%nat with 0%nat in H by (unfold zlen in Ed; lia).
      destruct (IH _ _ (small_skipn _ _ Hsr) H) as [(x1 & A & B)|]; [left|right; assumption].
      exists x1. split; [assumption|]. change (ldecs (S f) i q x1 = LOk x').
      rewrite (ldecs_mono f) by (try lia; rewrite B; discriminate). exact B.
Qed.

(** ** Unknown fields *)
Lemma ldecs_unknown f i v n k r s x :
  lookup_field (iget i) (v / 8) = None ->
  read_varint (r ++ s) = VOk v k (skipn k r ++ s) -> payload_len (v mod 8) (skipn k r ++ s) = inl n ->
  n = length (skipn k r) ->
  ldecs (S f) i (r ++ s) x = ldecs f i s x.
Proof.
  intros Hl Hv Hp Hn. cbn [DecodeFacts.ldecs].
  destruct (r ++ s) as [|c0 b0] eqn:E; [apply read_varint_ok in Hv; cbn in Hv; lia|].
  unfold lstep. rewrite Hv, Hl, Hp. f_equal.
  rewrite skipn_app, Hn, skipn_all, Nat.sub_diag. reflexivity.
Qed.

(** ** Errors *)
Definition cause_ok (e : err) : Prop :=
  match err_cause e with
  | ErrUnexpectedEOF | ErrVarintOverflow | ErrWireTypeUnknown | ErrExpectedWireType _ => True
  | _ => False
  end.

Lemma decodeVarint_err b v n e : decodeVarint b = (v, n, Some e) -> cause_ok e.
Proof.
  pose proof (decodeVarint_spec b) as S. destruct (read_varint b).
  - rewrite S; discriminate.
  - destruct S as [y S]; rewrite S. intros H; inversion H; exact Logic.I.
  - rewrite S. intros H; inversion H; exact Logic.I.
Qed.
Lemma decodeVarlen_err b v n e : small b -> decodeVarlen b = OK (v, n, Some e) -> cause_ok e.
Proof.
  intros Hs. pose proof (decodeVarlen_spec b Hs) as S. destruct (read_varint b).
  - destruct (_ <? _)%N; rewrite S; [|discriminate]. intros H; inversion H; exact Logic.I.
  - rewrite S. intros H; inversion H; exact Logic.I.
  - rewrite S. intros H; inversion H; exact Logic.I.
Qed.
Lemma decodeLE32_err b v n e : decodeLE32 b = (v, n, Some e) -> cause_ok e.
Proof. unfold decodeLE32. destruct (_ <? _); intros H; inversion H; exact Logic.I. Qed.
Lemma decodeLE64_err b v n e : decodeLE64 b = (v, n, Some e) -> cause_ok e.
Proof. unfold decodeLE64. destruct (_ <? _); intros H; inversion H; exact Logic.I. Qed.

Lemma static_err s b v v' n e : small b -> l_decode (static s) b v = DRet v' n (Some e) -> cause_ok e.
Proof.
  intros Hs.
  assert (P : forall w m, m <> Optional -> forall v v' n e, l_decode (static (SC w m)) b v = DRet v' n (Some e) -> cause_ok e).
  { intros w m Hm v0 v0' n0 e0 H. destruct w, m; try contradiction; cbn [static l_decode boolCodec boolRequiredCodec
      stringCodec stringRequiredCodec float32Codec float32RequiredCodec float64Codec float64RequiredCodec
      int32Codec int32RequiredCodec int64Codec int64RequiredCodec uint32Codec uint32RequiredCodec
      uint64Codec uint64RequiredCodec fixed32Codec fixed32RequiredCodec fixed64Codec fixed64RequiredCodec
      zigzag32Codec zigzag32RequiredCodec zigzag64Codec zigzag64RequiredCodec] in H;
    cbv [decodeBool decodeString decodeFloat32 decodeFloat64 decodeInt32 decodeInt64 decodeUint32
      decodeUint64 decodeFixed32 decodeFixed64 decodeZigzag32 decodeZigzag64] in H;
    try (destruct b; [inversion H; exact Logic.I|]; apply wret_inv in H; destruct H as (_ & _ & He); discriminate);
    try (inv_dec H; apply wret_inv in H; destruct H as (_ & -> & He); subst;
         first [eapply decodeVarint_err; eassumption | eapply decodeLE32_err; eassumption | eapply decodeLE64_err; eassumption]).
    all: inv_dec H; inv_dec H; apply wret_inv in H; destruct H as (_ & -> & He); subst;
      eapply decodeVarlen_err; eassumption. }
  destruct s as [w m|].
  - destruct m; [apply P; discriminate..|]. intros H.
    assert (H' : decodeOption (l_decode (static (SC w Required))) b v = DRet v' n (Some e))
      by (destruct w; exact H).
    unfold decodeOption in H'. destruct v; try discriminate.
    destruct (l_decode (static (SC w Required)) b v) as [v1 n1 e1| |] eqn:E; try discriminate.
    cbn in H'. inversion H'; subst. eapply P; [|eassumption]. discriminate.
  - cbn. unfold decodeBytes. intros H. inv_dec H. destruct v; try discriminate.
    inversion H; subst. eapply decodeVarlen_err; eassumption.
Qed.

Lemma payload_len_err wt r e : payload_len wt r = inr e -> cause_ok e.
Proof.
  unfold payload_len.
  destruct (wt =? wt_varint)%N; [|destruct (wt =? wt_varlen)%N;
    [|destruct (wt =? wt_fixed32)%N; [|destruct (wt =? wt_fixed64)%N]]].
  - destruct (read_varint r); intros H; inversion H; exact Logic.I.
  - destruct (read_varint r); [destruct (_ <? _)%N|..]; intros H; inversion H; exact Logic.I.
  - destruct (_ <? _)%nat; intros H; inversion H; exact Logic.I.
  - destruct (_ <? _)%nat; intros H; inversion H; exact Logic.I.
  - intros H; inversion H; exact Logic.I.
Qed.

Lemma lstep_err (info : sinfo R) b e : lstep info b = LsErr e -> cause_ok e.
Proof.
  unfold lstep. destruct (read_varint b) as [v k r| |].
  - destruct (lookup_field info (v / 8)).
    + destruct (negb _); [intros H; inversion H; exact Logic.I|].
      destruct (payload_len _ r) eqn:E; [discriminate|]. intros H; inversion H; subst.
      apply payload_len_err in E. exact E.
    + destruct (payload_len _ r) eqn:E; [discriminate|]. intros H; inversion H; subst.
      apply payload_len_err in E. exact E.
  - intros H; inversion H; exact Logic.I.
  - intros H; inversion H; exact Logic.I.
Qed.

Lemma err_causes fuel :
  (forall c b v v' n e, small b -> dec fuel c b v = DRet v' n (Some e) -> cause_ok e) /\
  (forall i b x x' e, small b -> ldecs fuel i b x = LErr x' e -> cause_ok e).
Proof.
  induction fuel as [|fuel [IH1 IH2]]; [split; discriminate|]. split.
  - intros c b v v' n e Hs.
    assert (Hdv : forall u q e0, decodeVarint b = (u, q, Some e0) -> cause_ok e0) by (intros; eapply decodeVarint_err; eassumption).
    destruct (look c) eqn:El.
    + rewrite dec_S, El. discriminate.
    + rewrite dec_S, El. apply static_err. assumption.
    + rewrite dec_S, El. destruct v; try discriminate. cbv zeta.
      destruct (dec fuel c0 b _) as [v1 n1 e1| |] eqn:E; try discriminate.
      cbn. intros H; inversion H; subst. eapply IH1; eassumption.
    + rewrite dec_S, El. destruct v; try discriminate. cbv zeta.
      destruct (match spare with [] => _ | _ => _ end) as [|slot sp]; [discriminate|].
      destruct (dec fuel c0 b slot) as [v1 n1 [e1|]| |] eqn:E; try discriminate.
      intros H; inversion H; subst. eapply IH1; eassumption.
    + destruct v; try (rewrite dec_S, El; discriminate).
      destruct (dec_struct look iget D fuel c k i b o Hs El) as [n0 E]. rewrite E. cbv zeta.
      destruct (read_varint b) as [? ? r| |] eqn:Er; [|intros H; inversion H; exact Logic.I..].
      apply read_varint_skip in Er. destruct Er as [-> _].
      destruct (ldecs fuel i _ _) eqn:Ed; try discriminate. intros H; inversion H; subst.
      eapply IH2; [|eassumption]. apply small_skipn; assumption.
    + destruct v; try (rewrite dec_S, El; discriminate).
      destruct (dec_map look iget D fuel c tag kf vf entry i b m Hs El) as [n0 E]. rewrite E. cbv zeta.
      destruct b as [|c0 b0] eqn:Eb; [discriminate|]. rewrite <- Eb in *. clear Eb.
      destruct (read_varint b) as [? ? r| |] eqn:Er; [|intros H; inversion H; exact Logic.I..].
      apply read_varint_skip in Er. destruct Er as [-> _].
      destruct (ldecs fuel i _ _) as [x0| | |] eqn:Ed; try discriminate.
      * destruct x0 as [| | | | | | | | | | | | |[|? [|? []]]|]; discriminate.
      * intros H; inversion H; subst.
        eapply IH2; [|eassumption]. apply small_skipn; assumption.
  - intros i b x x' e Hs. cbn [DecodeFacts.ldecs]. destruct b as [|c0 b0] eqn:Eb; [discriminate|].
    rewrite <- Eb in *. clear Eb. pose proof (lstep_consumes (iget i) b) as LC.
    destruct (lstep (iget i) b) as [e0|r|fn wt fd data r] eqn:El.
    + intros H; inversion H; subst. eapply lstep_err; eassumption.
    + apply IH2. eapply small_le; [|eassumption]; lia.
    + destruct (get_field x (f_idx fd)); [|discriminate].
      destruct (dec fuel (f_codec fd) data v) as [y' n' [e1|]| |] eqn:Ed; try discriminate.
      * intros H; inversion H; subst. apply IH1 in Ed; [exact Ed|].
        eapply small_le; [|eassumption]; lia.
      * apply IH2. apply small_skipn. eapply small_le; [|eassumption]; lia.
Qed.

(** Where an error comes from: a record at the front of some suffix of the
    input; the error carries that record's number and type. *)
Lemma ldecs_err_pos f i b x x' e : small b -> ldecs f i b x = LErr x' e ->
  exists p q, b = p ++ q /\
  match read_varint q with
  | VEof => e = ErrUnexpectedEOF
  | VOverflow _ => e = ErrVarintOverflow
  | VOk v _ _ => exists e', e = fieldError (v / 8)%N (v mod 8)%N e'
  end.
Proof.
  revert b x. induction f as [|f IH]; intros b x Hs H; [discriminate|].
  cbn [DecodeFacts.ldecs] in H. destruct b as [|c0 b0] eqn:Eb; [discriminate|].
  rewrite <- Eb in *.
  assert (Hb : b <> []) by (rewrite Eb; discriminate). clear Eb c0 b0.
  assert (P : forall e', lstep (iget i) b = LsErr e' -> e = e' -> exists p q, b = p ++ q /\
    match read_varint q with
    | VEof => e = ErrUnexpectedEOF
    | VOverflow _ => e = ErrVarintOverflow
    | VOk v _ _ => exists e', e = fieldError (v / 8)%N (v mod 8)%N e'
    end).
  { intros e' El <-. exists [], b. split; [reflexivity|].
    unfold lstep in El. destruct (read_varint b) as [v k r| |]; [|inversion El; reflexivity..].
    destruct (lookup_field (iget i) (v / 8)).
    + destruct (negb _); [inversion El; eexists; reflexivity|].
      destruct (payload_len _ _); [discriminate|]. inversion El; eexists; reflexivity.
    + destruct (payload_len _ _); [discriminate|]. inversion El; eexists; reflexivity. }
  assert (Q : forall k, (exists p q, skipn k b = p ++ q /\
    match read_varint q with
    | VEof => e = ErrUnexpectedEOF
    | VOverflow _ => e = ErrVarintOverflow
    | VOk v _ _ => exists e', e = fieldError (v / 8)%N (v mod 8)%N e'
    end) -> exists p q, b = p ++ q /\
    match read_varint q with
    | VEof => e = ErrUnexpectedEOF
    | VOverflow _ => e = ErrVarintOverflow
    | VOk v _ _ => exists e', e = fieldError (v / 8)%N (v mod 8)%N e'
    end).
  { intros k (p & q & E & A). exists (firstn k b ++ p), q. split; [|exact A].
    rewrite <- app_assoc, <- E. symmetry. apply firstn_skipn. }
  destruct (lstep (iget i) b) as [e0|r|fn wt fd data r] eqn:El.
  - inversion H; subst. eapply P; reflexivity.
  - unfold lstep in El. destruct (read_varint b) as [v k r'| |] eqn:Er; try discriminate.
    apply read_varint_skip in Er as [Er _].
    destruct (lookup_field (iget i) (v / 8)); [destruct (negb _); [discriminate|]; destruct (payload_len _ _); discriminate|].
    destruct (payload_len (v mod 8) r') as [n|] eqn:Ep; [|discriminate]. inversion El; subst r r'.
    apply (Q (k + n)%nat). rewrite <- skipn_skipn'. eapply IH; [|eassumption].
    apply small_skipn, small_skipn. assumption.
  - unfold lstep in El. destruct (read_varint b) as [v k r'| |] eqn:Er; try discriminate.
    apply read_varint_skip in Er as Er'. destruct Er' as [Er' _].
    destruct (lookup_field (iget i) (v / 8)); [|destruct (payload_len _ _); discriminate].
    destruct (negb _); [discriminate|].
    destruct (payload_len (v mod 8) r') as [n|] eqn:Ep; [|discriminate]. inversion El; subst.
    destruct (get_field x (f_idx fd)); [|discriminate].
    destruct (dec f (f_codec fd) _ v0) as [y' n' [e1|]| |]; try discriminate.
    + inversion H; subst. exists [], b. split; [reflexivity|]. rewrite Er. eexists; reflexivity.
    + rewrite skipn_skipn' in H. eapply Q. eapply IH; [|eassumption]. apply small_skipn. assumption.
Qed.

End Gen.
