(** Encoding of every message of the types the generator makes. *)
From Coq Require Import ZifyBool ZifyNat ZifyN String.
From Verif Require Import Base Wire GoType Leaf Codec Tag Walker Api Resolve Typing SpecWire SpecTag SpecMsg SpecProto SpecOut
  WireFacts DecodeFacts TypingFacts CodecSim EncFacts TagFacts WalkSeq MsgResolve MsgEnc MsgFit MsgApi ProtoGen ProtoFacts ProtoFit.
Local Open Scope Z_scope.
Ltac Zify.zify_post_hook ::= Z.div_mod_to_equations.

Definition gives (r : bytes -> res bytes) (n : res Z) (o : out) : Prop :=
  n = OK (Z.of_N (fst o)) /\ forall b, r b = match snd o with Some t => OK (b ++ t) | None => CR Confused end.

Lemma gives_eq r r' n n' t : gives r n t -> (forall b, r' b = r b) -> n' = n -> gives r' n' t.
Proof. intros (Hn & Hr) H ->. split; [assumption|]. intros b. rewrite H. apply Hr. Qed.
Lemma gives_nil : gives (fun b => OK b) (OK 0) (just []).
Proof. split; [reflexivity|]. intros b. cbn. rewrite app_nil_r. reflexivity. Qed.
Lemma gives_just r n t : n = OK (zlen t) -> (forall b, r b = OK (b ++ t)) -> gives r n (just t).
Proof. intros Hn Hr. split; [rewrite Hn; cbn [just fst]; unfold zlen; f_equal; lia|exact Hr]. Qed.
Lemma gives_join r1 n1 t1 r2 n2 t2 : gives r1 n1 t1 -> gives r2 n2 t2 ->
  gives (fun b => b <- r1 b ;; r2 b) (x <- n1 ;; y <- n2 ;; OK (x + y)) (join t1 t2).
Proof.
  intros [-> H1] [-> H2]. split; [cbn [rbind join fst]; f_equal; lia|].
  intros b. rewrite H1. cbn [join snd]. destruct (snd t1) as [t|]; cbn [rbind]; [|reflexivity].
  rewrite H2. destruct (snd t2); [rewrite app_assoc|]; reflexivity.
Qed.
Lemma gives_chain {A} (l : list A) r n t : Forall (fun x => gives (r x) (n x) (t x)) l ->
  gives (fun b => chain_res b (map r l)) (sum_res (map n l)) (joined (map t l)).
Proof.
  induction 1 as [|x l H _ IH]; [exact gives_nil|]. unfold joined. cbn [map chain_res sum_res fold_right]. exact (gives_join _ _ _ _ _ _ H IH).
Qed.
Lemma joined_le l o : In o l -> (fst o <= fst (joined l))%N.
Proof.
  unfold joined. induction l as [|a l IH]; [intros []|]. cbn [fold_right join fst]. intros [->|H]; [lia|]. apply IH in H. lia.
Qed.

(** ** Scalars *)
Lemma wk_own s : wk_of s = wk_of (own s). Proof. destruct s; reflexivity. Qed.
Lemma own_plain s : not_sfixed (own s) = true. Proof. destruct s; reflexivity. Qed.
Lemma kind_own s : go_kind s = go_kind (own s). Proof. destruct s; reflexivity. Qed.
Lemma wk_item s : kind_wk (go_kind s) (zz_sty s) = wk_of (item s). Proof. destruct s; reflexivity. Qed.
Lemma item_plain s : not_sfixed (item s) = true. Proof. destruct s; reflexivity. Qed.
Lemma kind_item s : go_kind s = go_kind (item s). Proof. destruct s; reflexivity. Qed.

Lemma scalar_gives D s v t : not_sfixed s = true -> wt D v (TScalar (go_kind s)) = true -> (t < 2^64)%N -> scalar_small v ->
  gives (fun b => l_encode (static (SC (wk_of s) Required)) b v (meta_of t))
        (l_size (static (SC (wk_of s) Required)) v (meta_of t)) (just (vint t ++ ser_payload (pay s v))).
Proof.
  intros Hs Hw Hn Hb.
  assert (A : forall r p q, q = zlen p -> (forall b, r b = OK (b ++ p)) ->
    gives (fun b => r (appendVarint b t)) (OK (q + sizeOfVarint t)) (just (vint t ++ p))).
  { intros r p q -> Hr. apply gives_just.
    - rewrite zlen_app, sizeOfVarint_spec by exact Hn. f_equal. lia.
    - intros b. rewrite Hr, appendVarint_spec by exact Hn. rewrite app_assoc. reflexivity. }
  assert (V : forall v, (v < 2^64)%N -> gives (fun b => OK (appendVarint (appendVarint b t) v)) (OK (sizeOfVarint v + sizeOfVarint t)) (just (vint t ++ vint v))).
  { intros x L. apply (A (fun b => OK (appendVarint b x))); [apply sizeOfVarint_spec; exact L|]. intros b. rewrite appendVarint_spec by exact L. reflexivity. }
  destruct s; try discriminate Hs; cbn [go_kind wk_of wire_sty] in *; wtd v;
  cbn [static l_size l_encode boolRequiredCodec stringRequiredCodec float32RequiredCodec float64RequiredCodec int32RequiredCodec
       int64RequiredCodec uint32RequiredCodec uint64RequiredCodec fixed32RequiredCodec fixed64RequiredCodec zigzag32RequiredCodec zigzag64RequiredCodec];
  unfold sizeOfBoolRequired, encodeBoolRequired, sizeOfStringRequired, encodeStringRequired, sizeOfFloat32Required, encodeFloat32Required,
    sizeOfFloat64Required, encodeFloat64Required, sizeOfInt32Required, encodeInt32Required, sizeOfInt64Required, encodeInt64Required,
    sizeOfUint32Required, encodeUint32Required, sizeOfUint64Required, encodeUint64Required, sizeOfFixed32Required, encodeFixed32Required,
    sizeOfFixed64Required, encodeFixed64Required, sizeOfZigzag32Required, encodeZigzag32Required, sizeOfZigzag64Required, encodeZigzag64Required;
  cbn [meta_of wiretag tagsize pay ser_payload]; cbn [wt] in Hw; try (apply in_i32_range in Hw); try (apply in_i64_range in Hw);
  try (rewrite (rd_i32_ok _ Hw)); try (rewrite (rd_i64_ok _ Hw)); cbn [rd_bool rd_u32 rd_u64 rd_f32 rd_f64 rd_str mem32 mem64 of_opt rbind];
  try (rewrite (encodeZigZag64_spec _ Hw)); try (rewrite (encodeZigZag64_spec _ (i32_i64 _ Hw))).
  - apply (V (u64 z)), u64_lt.
  - apply (V (u64 z)), u64_lt.
  - apply V, (wt_u32 D), Hw.
  - apply V, (wt_u64 D), Hw.
  - apply V, zigzag_range, i32_i64, Hw.
  - apply V, zigzag_range, Hw.
  - match goal with |- context [encodeLE32 _ ?x] => apply (A (fun b => OK (encodeLE32 b x))) end; [unfold zlen; rewrite le_bytes_length; reflexivity|]. intros b. rewrite encodeLE32_spec. reflexivity.
  - match goal with |- context [encodeLE64 _ ?x] => apply (A (fun b => OK (encodeLE64 b x))) end; [unfold zlen; rewrite le_bytes_length; reflexivity|]. intros b. rewrite encodeLE64_spec. reflexivity.
  - match goal with |- context [encodeLE32 _ ?x] => apply (A (fun b => OK (encodeLE32 b x))) end; [unfold zlen; rewrite le_bytes_length; reflexivity|]. intros b. rewrite encodeLE32_spec. reflexivity.
  - match goal with |- context [encodeLE64 _ ?x] => apply (A (fun b => OK (encodeLE64 b x))) end; [unfold zlen; rewrite le_bytes_length; reflexivity|]. intros b. rewrite encodeLE64_spec. reflexivity.
  - apply (A (fun c => OK (if b then c ++ [1%N] else c ++ [0%N]))); [destruct b; reflexivity|]. intros c. destruct b; reflexivity.
  - destruct (of_nat_64 b Hb) as [E L]. unfold sizeOfVarlen. rewrite E.
    apply (A (fun c => OK (appendVarint c (N.of_nat (length b)) ++ b))); [rewrite zlen_app, sizeOfVarint_spec by exact L; lia|].
    intros c. rewrite appendVarint_spec by exact L. rewrite app_assoc. reflexivity.
Qed.
Lemma small_field D n s s' v : not_sfixed s' = true -> wt D v (TScalar (go_kind s')) = true -> (fst (field n s s' v) < 2^63)%N -> scalar_small v.
Proof.
  intros Hs Hw. destruct v; try (intros; exact Logic.I). destruct s'; try discriminate. unfold field, tagged. cbn [pay just fst ser_payload].
  rewrite !app_length. unfold scalar_small, zlen, Z63. change (2^63)%N with 9223372036854775808%N. lia.
Qed.
Lemma field_gives D n s s' v : not_sfixed s' = true -> wt D v (TScalar (go_kind s')) = true -> (n < 2^61)%N -> (fst (field n s s' v) < 2^63)%N ->
  gives (fun b => l_encode (static (SC (wk_of s') Required)) b v (meta_of (8 * n + wire_sty s)))
        (l_size (static (SC (wk_of s') Required)) v (meta_of (8 * n + wire_sty s))) (field n s s' v).
Proof.
  intros Hs Hw Hn Hb. apply (scalar_gives D); [exact Hs|exact Hw| |eapply small_field; eassumption].
  apply tag_lt; [exact Hn|destruct s; reflexivity].
Qed.

Lemma as_signed64_s64 n : (n < 2^64)%N -> s64 n = as_signed64 n.
Proof.
  change (2^64)%N with 18446744073709551616%N. intros H. unfold s64, as_signed64, Z64, Z63. change (2^63)%N with 9223372036854775808%N. change (2^64) with 18446744073709551616.
  destruct (Z.ltb_spec (Z.of_N n mod 18446744073709551616) 9223372036854775808), (N.ltb_spec n 9223372036854775808); lia.
Qed.

(** The key's codec at the value of a map entry, any key and any value. *)
Lemma any_key_size D k e x : generable_elem e = true -> wt D x (go_type e) = true -> val_small x ->
  l_size (static (SC (wk_of (item k)) Required)) x (meta_of (tag_of 2 e)) =
  match length_as_key k x with Some n => OK (Z.of_nat n + 1) | None => CR Confused end.
Proof.
  intros He Hw Hsm.
  assert (T : tagsize (meta_of (tag_of 2 e)) = 1) by (destruct e as [s|s|s|s| |m|e|k' e]; try discriminate He; try (destruct s; reflexivity); reflexivity).
  assert (Z : forall n, (n < 2^64)%N -> sizeOfVarint n = Z.of_nat (length (vint n))) by (intros n L; rewrite sizeOfVarint_spec by exact L; reflexivity).
  assert (S32 : forall n, (n < 4294967296)%N -> - Z31 <= as_signed n < Z31).
  { intros n. unfold as_signed, Z31. change (2^31)%N with 2147483648%N. change (2^32) with 4294967296. destruct (N.ltb_spec n 2147483648); lia. }
  unfold length_as_key.
  destruct (item k) eqn:Ik; try (destruct k; discriminate Ik);
    cbn [wk_of static l_size int32RequiredCodec int64RequiredCodec uint32RequiredCodec uint64RequiredCodec boolRequiredCodec stringRequiredCodec
         zigzag32RequiredCodec zigzag64RequiredCodec float32RequiredCodec float64RequiredCodec key_length];
    unfold sizeOfInt32Required, sizeOfInt64Required, sizeOfUint32Required, sizeOfUint64Required, sizeOfBoolRequired, sizeOfStringRequired,
      sizeOfZigzag32Required, sizeOfZigzag64Required, sizeOfFloat32Required, sizeOfFloat64Required, rd_i32, rd_u32, rd_i64, rd_u64;
    rewrite ?bits32_mem, ?bits64_mem, ?T; try reflexivity.
  - destruct (bits32 x) as [n|] eqn:B; [|reflexivity]. cbn [of_opt rbind]. rewrite ?T. pose proof (bits32_lt D x _ n Hw B) as L. rewrite (as_signed_s32 n L), Z by apply u64_lt. reflexivity.
  - destruct (bits64 x) as [n|] eqn:B; [|reflexivity]. cbn [of_opt rbind]. rewrite ?T. pose proof (bits64_lt D x _ n Hw B) as L. rewrite (u64_s64_any n L), Z by exact L. reflexivity.
  - destruct (bits32 x) as [n|] eqn:B; [|reflexivity]. cbn [of_opt rbind]. rewrite ?T. pose proof (bits32_lt D x _ n Hw B) as L. rewrite Z by (change (2^64)%N with 18446744073709551616%N; lia). reflexivity.
  - destruct (bits64 x) as [n|] eqn:B; [|reflexivity]. cbn [of_opt rbind]. rewrite ?T. pose proof (bits64_lt D x _ n Hw B) as L. rewrite Z by exact L. reflexivity.
  - destruct (bits32 x) as [n|] eqn:B; [|reflexivity]. cbn [of_opt rbind]. rewrite ?T. pose proof (bits32_lt D x _ n Hw B) as L.
    rewrite (as_signed_s32 n L), encodeZigZag64_spec by (apply i32_i64, S32, L). rewrite Z by (apply zigzag_range, i32_i64, S32, L). reflexivity.
  - destruct (bits64 x) as [n|] eqn:B; [|reflexivity]. cbn [of_opt rbind]. rewrite ?T. pose proof (bits64_lt D x _ n Hw B) as L.
    rewrite encodeZigZag64_spec by apply s64_range. rewrite Z by (apply zigzag_range, s64_range). rewrite (as_signed64_s64 n L). reflexivity.
  - assert (S : forall b : bytes, zlen b < Z63 -> sizeOfVarlen (zlen b) + 1 = Z.of_nat (length (ser_payload (PLen b))) + 1).
    { intros b L. unfold sizeOfVarlen. destruct (of_nat_64 b L) as [E L']. rewrite E, sizeOfVarint_spec by exact L'. cbn [ser_payload]. rewrite app_length. unfold zlen. lia. }
    destruct x as [| | | | | | |b|[b|]| | | | | |]; try reflexivity; cbn [rd_str rbind]; rewrite ?T.
    + rewrite S by exact Hsm. reflexivity.
    + rewrite S by exact Hsm. reflexivity.
Qed.

Lemma out_64 n : (n < 2^63)%N -> u64 (Z.of_N n) = n /\ (n < 2^64)%N.
Proof.
  change (2^63)%N with 9223372036854775808%N. change (2^64)%N with 18446744073709551616%N. intros H. split; [|lia].
  unfold u64, Z64. rewrite Z.mod_small by lia. apply N2Z.id.
Qed.
Lemma header_gives r n len body : (n < 2^61)%N -> (len < 2^64)%N ->
  (forall b, r b = match body with Some t => OK (b ++ t) | None => CR Confused end) ->
  forall b, r (appendVarint (appendVarint b (8 * n + 2)) len) =
  match match snd (just (header n len)), body with Some x, Some y => Some (x ++ y) | _, _ => None end with Some t => OK (b ++ t) | None => CR Confused end.
Proof.
  intros Hn Hl H b. rewrite H. cbn [just snd]. destruct body; [|reflexivity]. unfold header, tagged.
  rewrite (appendVarint_spec _ len) by exact Hl. rewrite (appendVarint_spec _ (8 * n + 2)) by (apply tag_lt; [exact Hn|reflexivity]).
  rewrite <- !app_assoc. reflexivity.
Qed.
Lemma header_len n len : (n < 2^61)%N -> (len < 2^64)%N -> Z.of_N (fst (just (header n len))) = sizeOfVarint (8 * n + 2) + sizeOfVarint len.
Proof.
  intros Hn Hl. cbn [just fst]. unfold header, tagged. rewrite app_length.
  rewrite (sizeOfVarint_spec len) by exact Hl. rewrite (sizeOfVarint_spec (8 * n + 2)) by (apply tag_lt; [exact Hn|reflexivity]). unfold zlen. lia.
Qed.

Section Out.
Variables (D : decls) (sch : schema).
Hypothesis HI : implements D sch = true.
Hypothesis HS : schema_ok sch = true.
Hypothesis HG : forallb generable_msg sch = true.
Notation sz := (sz plook (piget D)).
Notation enc := (enc plook (piget D)).
Notation output := (output sch).
Notation output_msg := (output_msg sch).

Lemma act_info m : piget D (SNamed m) = {| i_fields := act_fields 0 (msg sch m); i_index := act_fields 0 (msg sch m) |}.
Proof.
  unfold piget, pinfo. cbn [struct_fields]. pose proof (implements_nth D sch HI m) as H.
  pose proof (schema_ok_msg sch HS m) as (A & _).
  destruct (nth_error D m) as [gs|] eqn:E, (nth_error sch m) as [fs|] eqn:E2; try contradiction.
  - rewrite (msg_nth _ _ _ E2) in *. assert (C : generable_msg fs = true) by (rewrite forallb_forall in HG; apply HG; eapply nth_error_In; exact E2).
    rewrite (act_resolves gs fs 0 H A C). reflexivity.
  - unfold msg. rewrite nth_overflow; [reflexivity|]. apply nth_error_None. exact E2.
Qed.
Lemma gen_msg_nth m : generable_msg (msg sch m) = true.
Proof.
  unfold msg. destruct (nth_in_or_default m sch []) as [H|H]; [|rewrite H; reflexivity]. rewrite forallb_forall in HG. exact (HG _ H).
Qed.

Definition okay (f : fty) : bool := generable f || generable_elem f.
Definition out_ok (v : val) : Prop := forall n f, wt D v (go_type f) = true -> okay f = true -> (n < 2^61)%N ->
  (fst (output v n f) < 2^63)%N ->
  gives (fun b => enc v b (act n f) (meta_of (tag_of n f))) (sz v (act n f) (meta_of (tag_of n f))) (output v n f).

Lemma message_gives all s e : (forall i, s i = option_map (fun y => sz y) (nth_error all i)) ->
  (forall i, e i = option_map (fun y => enc y) (nth_error all i)) ->
  Forall out_ok all ->
  forall fs xs i, (forall j, nth_error all (i + j) = nth_error xs j) ->
  all2 (wt D) xs (map fld_type fs) = true -> nums_ok fs = true -> generable_msg fs = true ->
  (fst (output_msg xs fs) < 2^63)%N ->
  gives (fun b => fields_encode e b (act_fields i fs)) (fields_size s (act_fields i fs)) (output_msg xs fs).
Proof.
  intros Hs He Hall. induction fs as [|f fs IH]; intros [|x xs] i Hn Hw Hnum Hsc Hsm; try discriminate; [exact gives_nil|].
  cbn [all2 map] in Hw. apply andb_true_iff in Hw. destruct Hw as [Hx Hw].
  unfold generable_msg in Hsc. cbn [forallb] in Hsc. apply andb_true_iff in Hsc. destruct Hsc as [Hf Hsc].
  assert (Hn' : forall j, nth_error all (S i + j) = nth_error xs j) by (intros j; replace (S i + j)%nat with (i + S j)%nat by lia; apply Hn).
  destruct f as [t|n f]; cbn [SpecOut.output_msg act_fields fld_type] in *.
  - apply IH; assumption.
  - unfold nums_ok in Hnum. cbn [numbers forallb] in Hnum. apply andb_true_iff in Hnum. destruct Hnum as [Hn1 Hns].
    apply andb_true_iff in Hn1. destruct Hn1 as [_ Hn1]. apply num_61 in Hn1. destruct Hn1 as [_ Hn1].
    cbn [join fst] in Hsm.
    cbn [fields_encode fields_size mkfield f_idx f_codec f_meta].
    assert (E : nth_error all i = Some x) by (rewrite <- (Nat.add_0_r i); apply Hn).
    rewrite Hs, E. cbn [option_map].
    rewrite Forall_forall in Hall. pose proof (Hall x (nth_error_In _ _ E)) as Hxo.
    assert (Ho : okay f = true) by (unfold okay; rewrite Hf; reflexivity).
    specialize (Hxo n f Hx Ho Hn1 ltac:(lia)).
    specialize (IH xs (S i) Hn' Hw Hns Hsc ltac:(lia)).
    eapply gives_eq; [exact (gives_join _ _ _ _ _ _ Hxo IH)| |reflexivity].
    intros b. cbn beta. rewrite He, E. cbn [option_map]. reflexivity.
Qed.

Lemma output_message xs n m : output (VPtr (Some (VStruct xs))) n (FMessage m) =
  let body := output_msg xs (msg sch m) in join (just (header n (fst body))) body.
Proof. reflexivity. Qed.
Lemma act_elem_okay e n : generable_elem e = true -> act n e = act_elem e.
Proof. destruct e; try discriminate; reflexivity. Qed.
Lemma elem_okay e : generable_elem e = true -> okay e = true.
Proof. unfold okay. intros ->. apply orb_true_r. Qed.
Lemma output_small v n e : wt D v (go_type e) = true -> generable_elem e = true -> (fst (output v n e) < 2^63)%N -> val_small v.
Proof.
  intros Hw He Hs. destruct e as [s|s|s|s| |m|e|k e]; try discriminate He; cbn [go_type] in Hw.
  - assert (E : output v n (FAlways s) = field n s (item s) v) by (destruct v; reflexivity). rewrite E in Hs.
    rewrite kind_item in Hw. pose proof (small_field D n s (item s) v (item_plain s) Hw Hs) as A.
    destruct v as [| | | | | | | |[]| | | | | |]; try exact Logic.I; try exact A. destruct (item s); discriminate Hw.
  - wtd v; [|exact Logic.I]. cbn [SpecOut.output tagged just fst ser_payload] in Hs. unfold tagged in Hs. rewrite !app_length in Hs.
    cbn [val_small]. unfold zlen, Z63. change (2^63)%N with 9223372036854775808%N in Hs. lia.
  - destruct (wt_msg _ _ _ Hw) as ([x|] & -> & Hx); exact Logic.I.
Qed.
Lemma as_key_small k e x l : generable_elem e = true -> wt D x (go_type e) = true -> length_as_key k x = Some l ->
  (l <= 10)%nat \/ (N.of_nat (S l) <= fst (output x 2 e))%N.
Proof.
  intros He Hw. unfold length_as_key.
  assert (V : forall n, (n < 2^64)%N -> Some (length (vint n)) = Some l -> (l <= 10)%nat).
  { intros n H E. inversion E. apply vint_length_64. exact H. }
  assert (S32 : forall n, (n < 4294967296)%N -> - Z31 <= as_signed n < Z31).
  { intros n. unfold as_signed, Z31. change (2^31)%N with 2147483648%N. change (2^32) with 4294967296. destruct (N.ltb_spec n 2147483648); lia. }
  destruct (item k) eqn:Ik; try (destruct k; discriminate Ik); cbn [key_length]; try (intros E; inversion E; left; lia).
  - destruct (bits32 x) as [n|] eqn:B; [|discriminate]. intros E. left. revert E. apply V. apply u64_lt.
  - destruct (bits64 x) as [n|] eqn:B; [|discriminate]. intros E. left. revert E. apply V. eapply bits64_lt; eassumption.
  - destruct (bits32 x) as [n|] eqn:B; [|discriminate]. intros E. left. revert E. apply V. pose proof (bits32_lt D x _ n Hw B). change (2^64)%N with 18446744073709551616%N. lia.
  - destruct (bits64 x) as [n|] eqn:B; [|discriminate]. intros E. left. revert E. apply V. eapply bits64_lt; eassumption.
  - destruct (bits32 x) as [n|] eqn:B; [|discriminate]. intros E. left. revert E. apply V. apply zigzag_range, i32_i64, S32. eapply bits32_lt; eassumption.
  - destruct (bits64 x) as [n|] eqn:B; [|discriminate]. intros E. left. revert E. apply V. rewrite <- as_signed64_s64 by (eapply bits64_lt; eassumption). apply zigzag_range, s64_range.
  - destruct x as [| | | | | | |b|[b|]| | | | | |]; try discriminate; intros E; inversion E; [right|right|left; lia].
    + destruct e as [s|s|s|s| |m|e|k' e]; try discriminate. cbn [go_type] in Hw. destruct s; try discriminate Hw.
      cbn [SpecOut.output item own]. unfold field, tagged. cbn [just fst pay ser_payload]. rewrite !app_length.
      pose proof (vint_nonempty (8 * 2 + wire_sty Y_string)). destruct (vint (8 * 2 + wire_sty Y_string)); [contradiction|]. cbn [length]. lia.
    + destruct e as [s|s|s|s| |m|e|k' e]; try discriminate; try (destruct s; discriminate Hw).
      cbn [SpecOut.output]. unfold tagged. cbn [just fst ser_payload]. rewrite !app_length.
      pose proof (vint_nonempty (8 * 2 + 2)). destruct (vint (8 * 2 + 2)); [contradiction|]. cbn [length]. lia.
Qed.

Lemma out_spec : forall v, out_ok v.
Proof.
  induction v as [v IH] using val_ind2. intros n f Hw Hf Hn Hsm.
  destruct f as [s|s|s|s| |m|e|k e]; try discriminate Hf.
  - (* implicit *)
    cbn [go_type] in Hw.
    assert (E : output v n (FImplicit s) = if is_zero v then just [] else field n s (own s) v) by (destruct v; reflexivity).
    rewrite E in *. cbn [act]. rewrite kind_own in Hw. rewrite wk_own.
    destruct (normal_required D (own s) v (meta_of (8 * n + wire_sty s)) (own_plain s) Hw) as [E1 E2].
    destruct (is_zero v).
    + eapply gives_eq; [exact gives_nil| |]; [intros b; rewrite enc_static; apply E1|rewrite sz_static; exact E2].
    + eapply gives_eq; [eapply (field_gives D n s (own s) v); [apply own_plain|assumption..]| |]; [intros b; rewrite enc_static; apply E1|rewrite sz_static; exact E2].
  - (* optional *)
    cbn [go_type] in Hw. wtd v. cbn [wt] in Hw. cbn [act].
    destruct some.
    + rewrite kind_own in Hw. rewrite wk_own. 
      eapply gives_eq; [eapply (field_gives D n s (own s) v); [apply own_plain|assumption..]| |].
      * intros b. rewrite enc_static. unfold tag_of. cbn [wire_fty]. destruct (own s); reflexivity.
      * rewrite sz_static. unfold tag_of. cbn [wire_fty]. destruct (own s); reflexivity.
    + eapply gives_eq; [exact gives_nil| |].
      * intros b. rewrite enc_static. destruct s; reflexivity.
      * rewrite sz_static. destruct s; reflexivity.
  - (* always *)
    cbn [go_type] in Hw.
    assert (E : output v n (FAlways s) = field n s (item s) v) by (destruct v; reflexivity). rewrite E in *.
    cbn [act act_elem]. rewrite wk_item. rewrite kind_item in Hw.
    eapply gives_eq; [eapply (field_gives D n s (item s) v); [apply item_plain|assumption..]| |].
    + intros b. apply enc_static.
    + apply sz_static.
  - (* bytes *)
    cbn [go_type] in Hw. wtd v; [|exact gives_nil].
    pose proof (output_small (VBytes (Some l)) n FBytes Hw eq_refl Hsm) as L. cbn [val_small] in L.
    destruct (w_len n l Hn L) as [A B]. cbn [SpecOut.output]. rewrite ser_one in *. unfold ser_rec in *. cbn [fst snd wire_of] in *.
    apply gives_just; [exact A|exact B].
  - (* message *)
    cbn [go_type] in Hw. destruct (wt_msg _ _ _ Hw) as ([x|] & -> & Hx); [|exact gives_nil].
    destruct (wts_struct D x (SNamed m)) as (xs & -> & W); [discriminate|exact Hx|]. cbn [key_types] in W.
    rewrite (field_types_of D sch HI) in W. rewrite output_message in *. cbv zeta in Hsm. cbn [join fst] in Hsm.
    assert (Hb : (fst (output_msg xs (msg sch m)) < 2^63)%N) by lia.
    destruct (schema_ok_msg sch HS m) as (Hnum & _).
    pose proof (message_gives xs (nth_error (map (fun y => sz y) xs)) (nth_error (map (fun y => enc y) xs))
      (nth_sub _ _) (nth_sub _ _)) as M.
    destruct IH as [_ IH]. specialize (M IH (msg sch m) xs 0%nat (fun j => eq_refl) W Hnum (gen_msg_nth m) Hb).
    destruct M as [M1 M2].
    cbn [act act_elem Codec.sz Codec.enc plook]. unfold struct_size. cbn [get_field].
    rewrite act_info. cbn [i_fields].
    assert (M1' : fields_size (fun j => option_map (fun y => sz y) (nth_error xs j)) (act_fields 0 (msg sch m)) = OK (Z.of_N (fst (output_msg xs (msg sch m))))).
    { rewrite <- M1. generalize (act_fields 0 (msg sch m)) as l. intros l. induction l as [|g l IHl]; [reflexivity|].
      cbn [fields_size]. rewrite nth_sub, IHl. reflexivity. }
    rewrite M1, M1'. cbn [rbind].
    destruct (out_64 _ Hb) as [E L]. rewrite E. cbv zeta.
    unfold tag_of in *. cbn [wire_fty meta_of wiretag tagsize] in *. split.
    + f_equal. cbn [join fst]. rewrite N2Z.inj_add, header_len by assumption. lia.
    + cbn [join snd]. exact (header_gives (fun b => fields_encode (nth_error (map (fun y => enc y) xs)) b (act_fields 0 (msg sch m))) n _ _ Hn L M2).
  - (* repeated *)
    cbn [go_type] in Hw. destruct (wt_slice _ _ _ Hw) as (nn & items & spare & -> & Hi & Hsp). destruct IH as [IH _].
    assert (He : generable_elem e = true) by (unfold okay in Hf; cbn in Hf; rewrite orb_false_r in Hf; exact Hf).
    assert (T : tag_of n (FRepeated e) = tag_of n e) by reflexivity. rewrite T.
    cbn [act Codec.sz Codec.enc plook].
    assert (J : output (VSlice nn items spare) n (FRepeated e) = joined (map (fun x => output x n e) items)) by reflexivity. rewrite J in *.
    apply (gives_chain items (fun x b => enc x b (act_elem e) (meta_of (tag_of n e))) (fun x => sz x (act_elem e) (meta_of (tag_of n e))) (fun x => output x n e)).
    apply Forall_forall. intros x Hx. rewrite Forall_forall in IH. rewrite forallb_forall in *.
    rewrite <- (act_elem_okay e n He).
    apply (IH x Hx n e); auto using elem_okay.
    pose proof (joined_le (map (fun x => output x n e) items) (output x n e) (in_map _ _ _ Hx)). lia.
  - (* map *)
    cbn [go_type] in Hw. destruct (wt_map _ _ _ _ Hw) as (mm & -> & Hm). clear Hw.
    assert (He : generable_elem e = true) by (unfold okay in Hf; cbn in Hf; rewrite orb_false_r in Hf; exact Hf).
    assert (T : (8 * n + 2 < 2^64)%N) by (apply tag_lt; [exact Hn|lia]).
    assert (Empty : gives (fun b => OK (b ++ (appendVarint [] (8 * n + 2) ++ [0%N]))) (OK (sizeOfVarint (8 * n + 2) + 1)) (just (header n 0))).
    { apply gives_just; unfold header, tagged; change (vint 0) with [0%N].
      - rewrite zlen_app, sizeOfVarint_spec by exact T. reflexivity.
      - intros b. rewrite appendVarint_spec by exact T. reflexivity. }
    destruct mm as [[|kv l]|].
    + eapply gives_eq; [exact Empty| |reflexivity]. intros b. cbn [act Codec.enc map chain_res rbind]. rewrite Z.eqb_refl. reflexivity.
    + destruct Hm as [Hm _]. remember (kv :: l) as l' eqn:El.
      pose (ent := fun kv : val * val => match kv with (a, x) => entry n k x (output a 1 (FAlways k)) (output x 2 e) end).
      assert (Er : output (VMap (Some l')) n (FMap k e) = joined (map ent l')) by (rewrite El; reflexivity).
      rewrite Er in *. assert (Hne : l' <> []) by (rewrite El; discriminate). clear El kv l Er.
      pose (kp := act_elem (FAlways k)). pose (kt := tag_of 1 (FAlways k)). pose (vt := tag_of 2 e). pose (vp := act_elem e). pose (tag := (8 * n + 2)%N).
      pose (ee := fun (kv : val * val) (b : bytes) => match kv with (k, x) =>
             keySize <- sz k kp (meta_of kt) ;;
             valSize <- sz x kp (meta_of vt) ;;
             b <- enc k (appendVarint (b ++ appendVarint [] tag) (u64 (keySize + valSize))) kp (meta_of kt) ;;
             enc x b vp (meta_of vt) end).
      pose (ss := fun (kv : val * val) => match kv with (k, x) =>
             keySize <- sz k kp (meta_of kt) ;;
             valSize <- sz x vp (meta_of vt) ;;
             OK (sizeOfVarint tag + sizeOfVarint (u64 (keySize + valSize)) + keySize + valSize) end).
      assert (As : forall g, sz (VMap (Some l')) (act n (FMap k e)) g =
                 (n <- sum_res (map ss l') ;; OK (if n =? 0 then sizeOfVarint tag + 1 else n))) by reflexivity.
      assert (Ae : forall g b, enc (VMap (Some l')) b (act n (FMap k e)) g =
                 (b' <- chain_res b (map ee l') ;; OK (if zlen b' =? zlen b then b' ++ (appendVarint [] tag ++ [0%N]) else b'))) by reflexivity.
      assert (W : gives (fun b => chain_res b (map ee l')) (sum_res (map ss l')) (joined (map ent l'))).
      { apply (gives_chain l' ee ss ent).
        apply Forall_forall. intros [a x] Hin. rewrite Forall_forall in IH. destruct (IH _ Hin) as [IHa IHx]. cbn [fst snd] in IHa, IHx.
        rewrite forallb_forall in Hm. specialize (Hm _ Hin). cbn beta iota in Hm.
        apply andb_true_iff in Hm. destruct Hm as [Wa Wx].
        pose proof (joined_le (map ent l') (ent (a, x)) (in_map _ _ _ Hin)) as Le.
        assert (Le' : (fst (output a 1 (FAlways k)) + fst (output x 2 e) <= fst (ent (a, x)))%N) by (unfold ent, entry; cbn [join fst]; lia).
        destruct (IHa 1%N (FAlways k) Wa eq_refl one_61) as [A1 A2]; [lia|].
        destruct (IHx 2%N e Wx (elem_okay _ He) two_61) as [X1 X2]; [lia|].
        assert (Sx : val_small x) by (apply (output_small x 2 e Wx He); lia).
        pose proof (any_key_size D k e x He Wx Sx) as ML. pose proof (as_key_small k e x) as Ks.
        rewrite (act_elem_okay e 2 He) in X1, X2. change (act 1 (FAlways k)) with kp in A1, A2. fold kt in A1, A2. fold vp vt in X1, X2. fold vt in ML.
        unfold ee, ss, ent. remember (output a 1 (FAlways k)) as oa eqn:Ea. remember (output x 2 e) as ox eqn:Ex. 
        assert (ML' : sz x kp (meta_of vt) = match length_as_key k x with Some n => OK (Z.of_nat n + 1) | None => CR Confused end).
        { rewrite <- ML. unfold kp. cbn [act_elem]. rewrite sz_static, wk_item. reflexivity. }
        rewrite A1, X1. cbn [rbind].
        assert (Hb : (fst (join oa ox) < 2^63)%N) by (cbn [join fst]; lia).
        destruct (out_64 _ Hb) as [E L]. split.
        - rewrite <- N2Z.inj_add. change (fst oa + fst ox)%N with (fst (join oa ox)). rewrite E. f_equal.
          unfold entry. cbn [fst]. change (fst (join (just (header n (fst (join oa ox)))) (join oa ox))) with (fst (just (header n (fst (join oa ox)))) + (fst oa + fst ox))%N.
          rewrite !N2Z.inj_add, header_len by assumption. fold tag. lia.
        - intros b. rewrite ML'. unfold entry. cbn [snd]. destruct (length_as_key k x) as [lk|] eqn:Lk; [|reflexivity]. cbn [rbind].
          assert (EL : u64 (Z.of_N (fst oa) + (Z.of_nat lk + 1)) = (fst oa + N.of_nat (S lk))%N /\ (fst oa + N.of_nat (S lk) < 2^64)%N).
          { assert (P : (fst oa + N.of_nat (S lk) < 2^64)%N).
            { specialize (Ks lk He Wx eq_refl). cbn [join fst] in Hb. change (2^63)%N with 9223372036854775808%N in Hb. change (2^64)%N with 18446744073709551616%N. destruct Ks; lia. }
            split; [|exact P]. unfold u64, Z64. change (2^64)%N with 18446744073709551616%N in P. rewrite Z.mod_small by lia. lia. }
          destruct EL as [EL LL]. rewrite EL.
          assert (AA : b ++ appendVarint [] tag = appendVarint b tag) by (rewrite !(appendVarint_spec _ tag) by exact T; reflexivity). rewrite AA.
          apply (header_gives (fun b => b' <- enc a b kp (meta_of kt) ;; enc x b' vp (meta_of vt)) n (fst oa + N.of_nat (S lk)) (snd (join oa ox)) Hn LL).
          intros c. rewrite A2. cbn [join snd]. destruct (snd oa); cbn [rbind]; [|reflexivity]. rewrite X2. destruct (snd ox); [rewrite app_assoc|]; reflexivity. }
      destruct W as [W1 W2].
      assert (P : (0 < fst (joined (map ent l')))%N /\ forall t, snd (joined (map ent l')) = Some t -> t <> []).
      { destruct l' as [|[a x] l']; [contradiction|]. unfold joined. cbn [map fold_right ent]. unfold entry, header, tagged.
        pose proof (vint_nonempty (8 * n + 2)) as NE. destruct (vint (8 * n + 2)) as [|c r]; [contradiction|]. split.
        - cbn [join just fst app length]. lia.
        - cbn [join snd just]. intros t. destruct (length_as_key k x); [|discriminate]. 
          destruct (match snd (output a 1 (FAlways k)) with Some x0 => _ | None => None end); [|discriminate].
          match goal with |- match (match ?o with _ => _ end) with _ => _ end = _ -> _ => destruct o; [|discriminate] | |- match ?o with _ => _ end = _ -> _ => destruct o; [|discriminate] end. intros Q. inversion Q. discriminate. }
      destruct P as [P1 P2]. split.
      * rewrite As, W1. cbn [rbind]. destruct (Z.eqb_spec (Z.of_N (fst (joined (map ent l')))) 0); [lia|reflexivity].
      * intros b. rewrite Ae, W2. destruct (snd (joined (map ent l'))) as [t|]; [|reflexivity]. cbn [rbind].
        destruct (Z.eqb_spec (zlen (b ++ t)) (zlen b)) as [E|]; [|reflexivity]. rewrite zlen_app in E.
        destruct t as [|c t]; [destruct (P2 [] eq_refl eq_refl)|]. rewrite zlen_cons in E. pose proof (zlen_nonneg t). lia.
    + eapply gives_eq; [exact Empty| |reflexivity]. intros b. cbn [act Codec.enc map chain_res rbind]. rewrite Z.eqb_refl. reflexivity.
Qed.

Lemma struct_out m xs b : all2 (wt D) xs (field_types D m) = true -> (fst (output_msg xs (msg sch m)) < 2^63)%N ->
  struct_size plook (piget D) (SNamed m) (VStruct xs) = OK (Z.of_N (fst (output_msg xs (msg sch m)))) /\
  struct_encode plook (piget D) (SNamed m) b (VStruct xs) = match snd (output_msg xs (msg sch m)) with Some t => OK (b ++ t) | None => CR Confused end.
Proof.
  intros Hw Hsm. unfold struct_size, struct_encode. rewrite act_info. cbn [i_fields].
  destruct (schema_ok_msg sch HS m) as (Hnum & _). rewrite (field_types_of D sch HI) in Hw.
  pose proof (message_gives xs (fun j => option_map (fun y => sz y) (get_field (VStruct xs) j)) (fun j => option_map (fun y => enc y) (get_field (VStruct xs) j))
      (fun j => eq_refl) (fun j => eq_refl)) as M.
  assert (A : Forall out_ok xs) by (apply Forall_forall; intros; apply out_spec).
  destruct (M A (msg sch m) xs 0%nat (fun j => eq_refl) Hw Hnum (gen_msg_nth m) Hsm) as [M1 M2]. split; [exact M1|apply M2].
Qed.
End Out.

Lemma made_elem_generable e : made_elem e = generable_elem e.
Proof. destruct e; reflexivity. Qed.
Lemma all_made_generable sch : all_made sch = true -> forallb generable_msg sch = true.
Proof.
  unfold all_made. rewrite !forallb_forall. intros H fs Hfs. unfold generable_msg. apply forallb_forall. intros [t|n f] Hf; [reflexivity|].
  change (generable f) with (made f). apply H. unfold fields_of. apply in_flat_map. exists fs. split; [exact Hfs|].
  apply in_flat_map. exists (Field n f). split; [exact Hf|left; reflexivity].
Qed.
Lemma generable_all_made sch : forallb generable_msg sch = true -> all_made sch = true.
Proof.
  unfold all_made. rewrite !forallb_forall. intros H f. unfold fields_of. rewrite in_flat_map. intros (fs & Hfs & Hf).
  apply in_flat_map in Hf. destruct Hf as ([t|n g] & Hg & Hf); [destruct Hf|]. destruct Hf as [<-|[]].
  specialize (H _ Hfs). unfold generable_msg in H. rewrite forallb_forall in H. exact (H _ Hg).
Qed.

(** ** At the API *)
Lemma output_proof D sch : implements D sch = true -> schema_ok sch = true -> all_made sch = true -> agreeing sch = true ->
  forall s m xs, reachable D s -> wts D (VStruct xs) (SNamed m) = true ->
  let o := output_msg sch xs (msg sch m) in (fst o < 2^63)%N ->
  fst (Size D (ptr m xs) s) = Returns (Z.of_N (fst o)) /\
  fst (Marshal D (ptr m xs) s) = match snd o with Some b => Returns (Some b, None) | None => Panics Confused end.
Proof.
  intros HI HS HM HA s m xs Hr Hw o Ho. apply all_made_generable in HM.
  pose proof (gen_supported D sch HI HS HM HA) as HP.
  apply wts_msg in Hw. destruct Hw as [Hk Hw]. pose proof (reachable_SInv D HP s Hr) as HR.
  destruct (struct_out D sch HI HS HM m xs [] Hw Ho) as [E1 E2].
  destruct (size_pure D HP s (SNamed m) (Some (VStruct xs)) HR Hk) as (s1 & _ & A1).
  destruct (marshal_pure D HP s (SNamed m) (Some (VStruct xs)) HR Hk) as (s2 & _ & A2).
  rewrite A1, A2, E1, E2. split; [reflexivity|]. unfold o. destruct (snd (output_msg sch xs (msg sch m))); reflexivity.
Qed.
