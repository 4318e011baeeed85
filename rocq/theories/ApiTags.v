(** Unknown fields, wire type mismatches and untouched fields, in terms of the
    field numbers a schema declares. The schema need not be in scope. *)
From Coq Require Import ZifyBool ZifyNat ZifyN.
From Verif Require Import Base Wire GoType Leaf Codec Tag Walker Api Resolve Typing CodecSim SpecWire SpecTag SpecMsg
  WireFacts DecodeFacts GenFacts TypingFacts WalkInv WalkSpec WalkFuel WalkSeq EncFacts MsgResolve MsgDec ApiFacts.
Local Open Scope Z_scope.
Ltac Zify.zify_post_hook ::= Z.div_mod_to_equations.

(** ** Looking up *)
Lemma lookup_tags {R} fs n : nums_ok fs = true -> nodup_N (numbers fs) = true -> forall i (l : list (sfield R)),
  map (fun f => (f_idx f, f_meta f)) l = map (fun p => (fst p, meta_of (snd p))) (spec_tags i fs) ->
  match find (fun f => (fieldNumber f =? n)%N) (rev l), find_field i fs n with
  | None, None => True
  | Some f, Some (j, t) => f_idx f = j /\ wireType f = wire_fty t
  | _, _ => False
  end.
Proof.
  induction fs as [|[t|n' f] fs IH]; intros Hn Hd i l H; cbn [spec_tags find_field map] in *.
  - destruct l; [exact Logic.I|discriminate].
  - apply IH; assumption.
  - destruct l as [|fd l]; [discriminate|]. cbn [map] in H. injection H as E1 E2 E3. cbn [fst snd] in *.
    unfold nums_ok in Hn. cbn [numbers forallb nodup_N] in Hn, Hd. apply andb_true_iff in Hn. destruct Hn as [Hn1 Hn].
    apply andb_true_iff in Hn1. destruct Hn1 as [_ Hn1]. apply num_61 in Hn1. destruct Hn1 as [_ Hn1].
    apply andb_true_iff in Hd. destruct Hd as [Hd1 Hd]. cbn [rev]. rewrite find_app.
    specialize (IH Hn Hd (S i) l E3).
    assert (F : fieldNumber fd = n' /\ wireType fd = wire_fty f).
    { unfold fieldNumber, wireType. rewrite E2. apply (field_number_of (R := R) i n' f (f_codec fd) Hn1). }
    destruct F as [F1 F2]. cbn [find]. rewrite F1.
    destruct (N.eqb_spec n' n) as [->|].
    + rewrite find_field_none in IH by (apply nodup_not_in; assumption).
      destruct (find _ (rev l)); [contradiction|]. split; assumption.
    + destruct (find _ (rev l)), (find_field (S i) fs n) as [[j t]|]; try contradiction; exact IH.
Qed.

(** ** Decoding changes no other field, and never drops elements of a slice *)
Definition extends (v v' : val) : Prop :=
  match v with
  | VSlice _ items _ => exists nn' more spare', v' = VSlice nn' (items ++ more) spare'
  | _ => True
  end.
Lemma extends_refl v : extends v v.
Proof. destruct v; cbn; auto. do 3 eexists. rewrite app_nil_r. reflexivity. Qed.
Lemma extends_trans a b c : extends a b -> extends b c -> extends a c.
Proof.
  destruct a; cbn; auto. intros (nn' & more & spare' & ->) (nn2 & more2 & spare2 & ->). rewrite <- app_assoc. eauto.
Qed.

Lemma get_set_same x i y : get_field x i <> None -> get_field (set_field x i y) i = Some y.
Proof.
  destruct x; cbn; try congruence. revert i. induction fs as [|z fs IH]; intros [|i] H; cbn in *; try congruence. apply IH. exact H.
Qed.
Lemma get_set_other x i j y : i <> j -> get_field (set_field x i y) j = get_field x j.
Proof.
  destruct x; cbn; try congruence. revert i j. induction fs as [|z fs IH]; intros [|i] [|j] H; cbn in *; try congruence. apply IH. congruence.
Qed.

Section Untouched.
Context {R I : Type}.
Variable look : R -> cbody R I.
Variable iget : I -> sinfo R.
Variable D : decls.
Notation ldecs := (ldecs look iget D).
Notation dec := (dec look iget D).

Lemma dec_extends fuel c b v v' n e : dec fuel c b v = DRet v' n e -> extends v v'.
Proof.
  destruct v as [| | | | | | | | | | nn items spare | | | |]; intros H; try exact Logic.I.
  destruct fuel as [|fuel]; [discriminate|]. rewrite dec_S in H. cbn [extends].
  destruct (look c) as [|s|t c'|t c'|k i|tag kf vf k i]; try discriminate.
  - destruct s as [w m|]; [destruct w, m|]; cbn in H;
      unfold decodeBool, decodeString, decodeFloat32, decodeFloat64, decodeInt32, decodeInt64, decodeUint32,
        decodeUint64, decodeFixed32, decodeFixed64, decodeZigzag32, decodeZigzag64, decodeBytes, wret in H; cbn in H;
      repeat match type of H with
      | context [match ?a with _ => _ end] => destruct a; try discriminate
      end; try discriminate.
    all: inversion H; exists nn, [], spare; rewrite app_nil_r; reflexivity.
  - cbv zeta in H. set (sp := match spare with [] => grow_spare t (length items) | _ :: _ => spare end) in H. destruct sp as [|slot sp]; [discriminate|].
    destruct (dec fuel c' b slot) as [x n1 [e1|]| |]; try discriminate; inversion H; subst; [|eauto].
    do 2 eexists. exists (x :: sp). rewrite <- (app_nil_r items) at 1. reflexivity.
Qed.

Definition lval (r : lres) : option val := match r with LOk x | LErr x _ => Some x | _ => None end.

(** [seen k b]: the numbers of fields of the struct [k] at which decoding may
    store something: those of a tag that starts somewhere in [b]. *)
Lemma ldecs_untouched fuel k : forall b x x', lval (ldecs fuel k b x) = Some x' ->
  (forall j, (forall tag f, occurs b tag -> lookup_field (iget k) (tag / 8) = Some f -> f_idx f <> j) -> get_field x' j = get_field x j) /\
  (forall j y, get_field x j = Some y -> exists y', get_field x' j = Some y' /\ extends y y').
Proof.
  induction fuel as [|fuel IH]; intros b x x' H; [discriminate|]. cbn [DecodeFacts.ldecs] in H.
  assert (Same : lval (LOk x) = Some x' -> (forall j, (forall tag f, occurs b tag -> lookup_field (iget k) (tag / 8) = Some f -> f_idx f <> j) -> get_field x' j = get_field x j) /\
    (forall j y, get_field x j = Some y -> exists y', get_field x' j = Some y' /\ extends y y')).
  { intros E; inversion E; subst. split; [reflexivity|]. eauto using extends_refl. }
  destruct b as [|c b]; [apply Same; exact H|]. remember (c :: b) as bb. clear Heqbb.
  unfold lstep in H. destruct (read_varint bb) as [v n r| |] eqn:Ev; try (apply Same; exact H).
  assert (Sub : forall r', (exists p, r = p ++ r') -> forall tag, occurs r' tag -> occurs bb tag).
  { intros r' (p & Hp) tag (p' & q & k' & r0 & -> & Hq). apply read_varint_ok in Ev. destruct Ev as (_ & _ & Ev & _ & _).
    assert (Eb : bb = firstn n bb ++ r) by (rewrite <- Ev; symmetry; apply firstn_skipn).
    exists (firstn n bb ++ p ++ p'), q, k', r0. split; [|exact Hq]. rewrite <- !app_assoc. rewrite Eb at 1. rewrite Hp. reflexivity. }
  destruct (lookup_field (iget k) (v / 8)) as [f|] eqn:El.
  - destruct (negb (v mod 8 =? wireType f)%N); [apply Same; exact H|].
    destruct (payload_len (v mod 8) r) as [len|e]; [|apply Same; exact H].
    destruct (get_field x (f_idx f)) as [y|] eqn:Eg; [|discriminate].
    destruct (dec fuel (f_codec f) (firstn len r) y) as [y' n' [e|]| |] eqn:Ed; try discriminate.
    + inversion H; subst. split.
      * intros j Hj. apply get_set_other. eapply Hj; [|exact El]. exists [], bb, n, r. auto.
      * intros j z Hz. destruct (Nat.eq_dec (f_idx f) j) as [<-|Hj].
        -- rewrite get_set_same by congruence. assert (z = y) by congruence. subst z. eauto using dec_extends.
        -- rewrite get_set_other by assumption. eauto using extends_refl.
    + apply IH in H. destruct H as [H1 H2]. split.
      * intros j Hj. rewrite H1.
        -- apply get_set_other. eapply Hj; [|exact El]. exists [], bb, n, r. auto.
        -- intros tag f' Ho. apply Hj. eapply Sub; [|exact Ho]. exists (firstn (Z.to_nat n') r). symmetry. apply firstn_skipn.
      * intros j z Hz. destruct (Nat.eq_dec (f_idx f) j) as [<-|Hj].
        -- assert (z = y) by congruence. subst z. destruct (H2 (f_idx f) y') as (y2 & A & B); [apply get_set_same; congruence|].
           exists y2. split; [exact A|]. eapply extends_trans; [eapply dec_extends; exact Ed|exact B].
        -- apply H2. rewrite get_set_other by assumption. exact Hz.
  - destruct (payload_len (v mod 8) r) as [len|e]; [|apply Same; exact H].
    apply IH in H. destruct H as [H1 H2]. split; [|exact H2]. intros j Hj. apply H1. intros tag f' Ho. apply Hj.
    eapply Sub; [|exact Ho]. exists (firstn len r). symmetry. apply firstn_skipn.
Qed.
End Untouched.

Section Tags.
Variable D : decls.
Variable sch : schema.
Hypothesis HP : supported D = true.
Hypothesis HI : implements D sch = true.
Hypothesis HS : schema_ok sch = true.

Lemma lookup_msg m n : (m < length D)%nat ->
  match lookup_field (piget D (SNamed m)) n, find_field 0 (msg sch m) n with
  | None, None => True
  | Some f, Some (j, t) => f_idx f = j /\ wireType f = wire_fty t
  | _, _ => False
  end.
Proof.
  intros Hm. unfold lookup_field, piget. pose proof (schema_ok_msg sch HS m) as (A & B & _).
  destruct (pinfo D (SNamed m)) as [l|] eqn:E.
  - pose proof (piget_tags D sch HI HS m l E) as T. unfold pinfo in E. destruct (pfields 0 (struct_fields D (SNamed m))); [|discriminate].
    inversion E; subst; cbn [i_fields i_index] in *. apply lookup_tags; assumption.
  - exfalso. unfold pinfo in E. cbn [struct_fields] in E. pose proof (HD_fit D HP) as HF. unfold decls_fit in HF. rewrite forallb_forall in HF.
    destruct (nth_error D m) as [gs|] eqn:Em; [|apply nth_error_None in Em; lia].
    specialize (HF gs (nth_error_In _ _ Em)). unfold struct_fits in HF. destruct (pfields 0 gs); discriminate.
Qed.

(** ** C15 *)
Lemma unknown_proof s1 s2 s3 m a r b x x1 tag k r1 p : reachable D s1 -> reachable D s2 -> reachable D s3 ->
  (m < length D)%nat -> wts D x (SNamed m) = true -> bytes_okb (a ++ r ++ b) = true -> zlen (a ++ r ++ b) < Z63 ->
  fst (Unmarshal D a (IPtr (SNamed m) (Some x)) s1) = Returns (IPtr (SNamed m) (Some x1), None) ->
  read_varint r = VOk tag k r1 -> read_payload (tag mod 8) r1 = Some (p, []) -> ~ In (tag / 8)%N (numbers (msg sch m)) ->
  fst (Unmarshal D (a ++ r ++ b) (IPtr (SNamed m) (Some x)) s2) = fst (Unmarshal D (a ++ b) (IPtr (SNamed m) (Some x)) s3).
Proof.
  intros R1 R2 R3 Hm Hx Hb Hs Ha Hr Hp Hn.
  assert (Hk : user_key D (SNamed m) = true) by (apply Nat.ltb_lt; exact Hm).
  rewrite !bytes_okb_app in Hb. apply andb_true_iff in Hb. destruct Hb as [Hba Hb]. apply andb_true_iff in Hb. destruct Hb as [Hbr Hbb].
  assert (Hab : bytes_okb (a ++ b) = true) by (rewrite bytes_okb_app, ?Hba, ?Hbb, ?Hbr; reflexivity).
  assert (Sab : small (a ++ b)) by (unfold small, zlen in *; rewrite !app_length in *; lia).
  assert (Srb : small (r ++ b)) by (unfold small, zlen in *; rewrite !app_length in *; lia).
  assert (Sb : small b) by (unfold small, zlen in *; rewrite !app_length in *; lia).
  rewrite (concat_merge_proof D HP s1 s2 s1 (SNamed m) a (r ++ b) x x1) by (try assumption; rewrite !bytes_okb_app, Hba, Hbb, Hbr; reflexivity).
  rewrite (concat_merge_proof D HP s1 s3 s1 (SNamed m) a b x x1) by assumption.
  assert (Sa : small a) by (unfold small, zlen in *; rewrite !app_length in *; lia).
  assert (Wx : wts D x1 (SNamed m) = true).
  { destruct (unmarshal_total_proof D HP s1 (SNamed m) a x R1 Hk Hx Hba Sa) as (x' & e & E & W). rewrite Ha in E. inversion E; subst. exact W. }
  assert (Hrb : bytes_okb (r ++ b) = true) by (rewrite bytes_okb_app, ?Hba, ?Hbb, ?Hbr; reflexivity).
  destruct (unmarshal_fst D HP s1 (SNamed m) (r ++ b) x1 R1 Hk Wx Hrb Srb) as [-> _].
  destruct (unmarshal_fst D HP s1 (SNamed m) b x1 R1 Hk Wx Hbb Sb) as [-> P]. f_equal.
  eapply pdecode_fuel; try eassumption; [|destruct P as [(? & -> & _)|(? & ? & -> & _)]; discriminate].
  pose proof (read_payload_len (tag mod 8) r1) as L. destruct (payload_len (tag mod 8) r1) as [len|e] eqn:El; [|congruence].
  destruct L as (p' & L & Ll). rewrite L in Hp. inversion Hp as [[E1 E2]].
  assert (Elen : len = length r1). { apply (f_equal (@length N)) in E2. rewrite skipn_length in E2. cbn in E2. lia. }
  pose proof (read_varint_ok _ _ _ _ Hr) as (_ & _ & Er & _ & _).
  unfold pdecode at 1. eapply (ldecs_unknown plook (piget D) D (decode_fuel D b) (SNamed m) tag len k).
  - pose proof (lookup_msg m (tag / 8) Hm) as Q. rewrite (find_field_none _ _ _ Hn) in Q. destruct (lookup_field _ _); [contradiction|reflexivity].
  - rewrite Er. apply read_varint_app. exact Hr.
  - rewrite Er. apply payload_len_app. exact El.
  - rewrite Er. exact Elen.
Qed.

(** ** C16 *)
Lemma mismatch_proof s1 s2 m a b x x1 tag k r j f : reachable D s1 -> reachable D s2 ->
  (m < length D)%nat -> wts D x (SNamed m) = true -> bytes_okb (a ++ b) = true -> zlen (a ++ b) < Z63 ->
  fst (Unmarshal D a (IPtr (SNamed m) (Some x)) s1) = Returns (IPtr (SNamed m) (Some x1), None) ->
  read_varint b = VOk tag k r -> nth_error (msg sch m) j = Some (Field (tag / 8) f) -> (tag mod 8)%N <> wire_fty f ->
  fst (Unmarshal D (a ++ b) (IPtr (SNamed m) (Some x)) s2) =
  Returns (IPtr (SNamed m) (Some x1), Some (UnmarshalFieldError (Z.of_N (tag / 8)) (Z.of_N (tag mod 8)) (ErrExpectedWireType (wire_fty f)))).
Proof.
  intros R1 R2 Hm Hx Hb Hs Ha Hr Hj Hw.
  assert (Hk : user_key D (SNamed m) = true) by (apply Nat.ltb_lt; exact Hm).
  rewrite (concat_merge_proof D HP s1 s2 s1 (SNamed m) a b x x1) by assumption.
  rewrite bytes_okb_app in Hb. apply andb_true_iff in Hb. destruct Hb as [Hba Hbb].
  assert (Sa : small a) by (unfold small, zlen in *; rewrite !app_length in *; lia).
  assert (Sb : small b) by (unfold small, zlen in *; rewrite !app_length in *; lia).
  assert (Wx : wts D x1 (SNamed m) = true).
  { destruct (unmarshal_total_proof D HP s1 (SNamed m) a x R1 Hk Hx Hba Sa) as (x' & e & E & W). rewrite Ha in E. inversion E; subst. exact W. }
  destruct (unmarshal_fst D HP s1 (SNamed m) b x1 R1 Hk Wx Hbb Sb) as [-> P].
  assert (E : pdecode D (SNamed m) b x1 = LErr x1 (fieldError (tag / 8)%N (tag mod 8)%N (ErrExpectedWireType (wire_fty f)))).
  { apply pdecode_fuel with (f := 1%nat); try assumption; [|discriminate]. cbn [ldecs].
    destruct b as [|c0 b0] eqn:Eb; [apply read_varint_ok in Hr; cbn in Hr; lia|]. rewrite <- Eb in *.
    unfold lstep. rewrite Hr.
    pose proof (lookup_msg m (tag / 8) Hm) as Q. pose proof (schema_ok_msg sch HS m) as (_ & Nd & _).
    assert (F : exists j', find_field 0 (msg sch m) (tag / 8) = Some (j', f)).
    { clear - Hj Nd. revert j Hj Nd. generalize 0%nat as i. induction (msg sch m) as [|[t|n' f'] fs IH]; intros i [|j] Hj Nd; cbn in *; try discriminate.
      - eapply IH; eassumption.
      - inversion Hj; subst. rewrite N.eqb_refl. eauto.
      - apply andb_true_iff in Nd. destruct Nd as [Nd1 Nd]. destruct (N.eqb_spec n' (tag / 8)); [|eapply IH; eassumption].
        exfalso. apply nodup_not_in in Nd1. apply Nd1. subst n'. clear - Hj. revert j Hj.
        induction fs as [|[t|n2 f2] fs IH]; intros [|j] Hj; cbn in *; try discriminate; [eauto|inversion Hj; auto|eauto]. }
    destruct F as (j' & F). rewrite F in Q. destruct (lookup_field _ _) as [fd|]; [|contradiction]. destruct Q as [_ ->].
    destruct (N.eqb_spec (tag mod 8) (wire_fty f)); [contradiction|]. reflexivity. }
  rewrite E. cbn [unm]. unfold fieldError. apply read_varint_ok in Hr. destruct Hr as [Hv _]. change (2^64)%N with 18446744073709551616%N in Hv.
  unfold s64. do 4 f_equal; destruct (_ <? _)%Z eqn:E2; unfold Z63, Z64 in *; lia.
Qed.

(** ** C17 *)
Lemma untouched_proof s m b x x' e : reachable D s -> (m < length D)%nat -> wts D x (SNamed m) = true -> bytes_okb b = true -> zlen b < Z63 ->
  fst (Unmarshal D b (IPtr (SNamed m) (Some x)) s) = Returns (IPtr (SNamed m) (Some x'), e) ->
  wts D x' (SNamed m) = true /\
  forall j, match nth_error (msg sch m) j with Some (Field n _) => forall tag, occurs b tag -> (tag / 8)%N <> n | _ => True end ->
            get_field x' j = get_field x j.
Proof.
  intros R Hm Hx Hb Hs H. assert (Hk : user_key D (SNamed m) = true) by (apply Nat.ltb_lt; exact Hm).
  destruct (unmarshal_fst D HP s (SNamed m) b x R Hk Hx Hb Hs) as [E P]. rewrite H in E.
  assert (Q : lval (pdecode D (SNamed m) b x) = Some x' /\ wts D x' (SNamed m) = true).
  { destruct P as [(x0 & P & W)|(x0 & e0 & P & W)]; rewrite P in *; inversion E; subst; auto. }
  destruct Q as [Q W]. split; [exact W|]. intros j Hj. apply ldecs_untouched in Q. apply (proj1 Q).
  intros tag fd Ho Hl Ej. pose proof (lookup_msg m (tag / 8) Hm) as L. rewrite Hl in L.
  destruct (find_field 0 (msg sch m) (tag / 8)) as [[j' t]|] eqn:F; [|contradiction]. destruct L as [L _].
  apply find_field_in in F. destruct F as [_ F]. rewrite Nat.sub_0_r in F.
  rewrite <- L, Ej in F. rewrite F in Hj. eapply Hj; [exact Ho|reflexivity].
Qed.
(** C31, for any input and any outcome. *)
Lemma append_only_proof s m b x x' e : reachable D s -> (m < length D)%nat -> wts D x (SNamed m) = true -> bytes_okb b = true -> zlen b < Z63 ->
  fst (Unmarshal D b (IPtr (SNamed m) (Some x)) s) = Returns (IPtr (SNamed m) (Some x'), e) ->
  forall j nn items spare, get_field x j = Some (VSlice nn items spare) ->
  exists nn' more spare', get_field x' j = Some (VSlice nn' (items ++ more) spare').
Proof.
  intros R Hm Hx Hb Hs H j nn items spare Hj. assert (Hk : user_key D (SNamed m) = true) by (apply Nat.ltb_lt; exact Hm).
  destruct (unmarshal_fst D HP s (SNamed m) b x R Hk Hx Hb Hs) as [E P]. rewrite H in E.
  assert (Q : lval (pdecode D (SNamed m) b x) = Some x').
  { destruct P as [(x0 & P & W)|(x0 & e0 & P & W)]; rewrite P in *; inversion E; subst; auto. }
  apply ldecs_untouched in Q. destruct (proj2 Q j _ Hj) as (y' & A & (nn' & more & sp' & ->)). eauto.
Qed.

(** ** C41 *)
Lemma walk_lists_proof s m : reachable D s -> (m < length D)%nat ->
  exists i s', run (cachedStructInfoOf D (walk_fuel D) (SNamed m)) s = (Done i, s') /\
    map (fun f => (f_idx f, wiretag (f_meta f))) (i_fields (higet s' i)) = declared 0 (msg sch m).
Proof.
  intros R Hm. assert (Hk : user_key D (SNamed m) = true) by (apply Nat.ltb_lt; exact Hm).
  destruct (info_pure D HP (SNamed m) s (reachable_SInv D HP s R) Hk) as (i & s' & E & _ & _ & _ & _ & L).
  exists i, s'. split; [exact E|].
  apply (f_equal (map (fun p => (fst p, wiretag (snd p))))) in L. rewrite !map_map in L. cbn [fst snd] in L. rewrite L. clear L.
  transitivity (map (fun p => (fst p, wiretag (snd p))) (map (fun f => (f_idx f, f_meta f)) (i_fields (piget D (SNamed m))))); [rewrite map_map; reflexivity|].
  unfold piget. destruct (pinfo D (SNamed m)) as [l|] eqn:Ep.
  - rewrite (piget_tags D sch HI HS m l Ep). rewrite map_map. generalize 0%nat as j. clear. induction (msg sch m) as [|[t|n f] fs IH]; intros j; cbn; f_equal; auto.
  - pose proof (lookup_msg m 0 Hm) as Q. exfalso. unfold pinfo in Ep. cbn [struct_fields] in Ep. pose proof (HD_fit D HP) as HF. unfold decls_fit in HF. rewrite forallb_forall in HF.
    destruct (nth_error D m) as [gs|] eqn:Em; [|apply nth_error_None in Em; lia].
    specialize (HF gs (nth_error_In _ _ Em)). unfold struct_fits in HF. destruct (pfields 0 gs); discriminate.
Qed.
End Tags.
