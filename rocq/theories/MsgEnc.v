(** Encoding is the record-level specification. *)
From Coq Require Import ZifyBool ZifyNat ZifyN String.
From Verif Require Import Base Wire GoType Leaf Codec Tag Walker Resolve Typing SpecWire SpecTag SpecMsg
  WireFacts DecodeFacts TypingFacts CodecSim EncFacts TagFacts MsgResolve.
Local Open Scope Z_scope.
Ltac Zify.zify_post_hook ::= Z.div_mod_to_equations.

(** [r] appends [t] and [n] is its length. *)
Definition writes (r : bytes -> res bytes) (n : res Z) (t : bytes) : Prop :=
  n = OK (zlen t) /\ forall b, r b = OK (b ++ t).

Lemma writes_nil : writes (fun b => OK b) (OK 0) [].
Proof. split; [reflexivity|]. intros b. rewrite app_nil_r. reflexivity. Qed.
Lemma writes_eq r r' n n' t : writes r n t -> (forall b, r' b = r b) -> n' = n -> writes r' n' t.
Proof. intros (Hn & Hr) H ->. split; [assumption|]. intros b. rewrite H. apply Hr. Qed.

(** Sizes. *)
Lemma tag_lt n w : (n < 2^61)%N -> (w < 8)%N -> (8 * n + w < 2^64)%N.
Proof. intros Hn Hw. change (2^61)%N with 2305843009213693952%N in Hn. change (2^64)%N with 18446744073709551616%N. lia. Qed.
Lemma tag_of_lt n f : (n < 2^61)%N -> (tag_of n f < 2^64)%N.
Proof. intros H. apply tag_lt; [exact H|apply wire_fty_lt]. Qed.
Lemma of_nat_64 (d : bytes) : zlen d < Z63 -> u64 (zlen d) = N.of_nat (length d) /\ (N.of_nat (length d) < 2^64)%N.
Proof.
  intros H. pose proof (zlen_nonneg d). rewrite u64_zlen by lia. change (2^64)%N with 18446744073709551616%N.
  unfold zlen, Z63 in *. split; lia.
Qed.

Lemma ser_app a b : ser (a ++ b) = ser a ++ ser b.
Proof. unfold ser. rewrite map_app, concat_app. reflexivity. Qed.
Lemma ser_one r : ser [r] = ser_rec r.
Proof. unfold ser. cbn. apply app_nil_r. Qed.

Definition meta_tag (n w : N) : fmeta := meta_of (8 * n + w).
Lemma w_rec n w p r q : wire_of p = w -> (n < 2^61)%N -> (w < 8)%N ->
  q = zlen (ser_payload p) ->
  (forall b, r b = OK (appendVarint b (8 * n + w) ++ ser_payload p)) ->
  writes r (OK (q + sizeOfVarint (8 * n + w))) (ser [(n, p)]).
Proof.
  intros Hp Hn Hw -> Hr. rewrite ser_one. unfold ser_rec. cbn [fst snd]. rewrite Hp.
  pose proof (tag_lt n w Hn Hw) as L. split.
  - rewrite zlen_app, sizeOfVarint_spec by exact L. f_equal. lia.
  - intros b. rewrite Hr, appendVarint_spec by exact L. rewrite app_assoc. reflexivity.
Qed.
Lemma w_var n v : (n < 2^61)%N -> (v < 2^64)%N ->
  writes (fun b => OK (appendVarint (appendVarint b (8 * n + 0)) v)) (OK (sizeOfVarint v + sizeOfVarint (8 * n + 0))) (ser [(n, PVar v)]).
Proof.
  intros Hn Hv. apply w_rec; [reflexivity|exact Hn|lia|cbn [ser_payload]; rewrite sizeOfVarint_spec by exact Hv; reflexivity|].
  intros b. rewrite (appendVarint_spec _ v) by exact Hv. reflexivity.
Qed.
Lemma w_len n d : (n < 2^61)%N -> zlen d < Z63 ->
  writes (fun b => OK (appendVarint (appendVarint b (8 * n + 2)) (u64 (zlen d)) ++ d)) (OK (sizeOfVarlen (zlen d) + sizeOfVarint (8 * n + 2))) (ser [(n, PLen d)]).
Proof.
  intros Hn Hd. destruct (of_nat_64 d Hd) as [E L]. unfold sizeOfVarlen. rewrite E.
  apply w_rec; [reflexivity|exact Hn|lia|cbn [ser_payload]; rewrite sizeOfVarint_spec by exact L; rewrite zlen_app; reflexivity|].
  intros b. rewrite (appendVarint_spec _ (N.of_nat _)) by exact L. cbn [ser_payload]. rewrite <- !app_assoc. reflexivity.
Qed.
Lemma w_32 n v : (n < 2^61)%N ->
  writes (fun b => OK (encodeLE32 (appendVarint b (8 * n + 5)) v)) (OK (4 + sizeOfVarint (8 * n + 5))) (ser [(n, PFix32 v)]).
Proof.
  intros Hn. apply w_rec; [reflexivity|exact Hn|lia|cbn [ser_payload]; unfold zlen; rewrite le_bytes_length; reflexivity|].
  intros b. rewrite encodeLE32_spec. reflexivity.
Qed.
Lemma w_64 n v : (n < 2^61)%N ->
  writes (fun b => OK (encodeLE64 (appendVarint b (8 * n + 1)) v)) (OK (8 + sizeOfVarint (8 * n + 1))) (ser [(n, PFix64 v)]).
Proof.
  intros Hn. apply w_rec; [reflexivity|exact Hn|lia|cbn [ser_payload]; unfold zlen; rewrite le_bytes_length; reflexivity|].
  intros b. rewrite encodeLE64_spec. reflexivity.
Qed.
Lemma w_bool n (x : bool) : (n < 2^61)%N ->
  writes (fun b => OK (if x then appendVarint b (8 * n + 0) ++ [1%N] else appendVarint b (8 * n + 0) ++ [0%N])) (OK (1 + sizeOfVarint (8 * n + 0)))
    (ser [(n, PVar (if x then 1 else 0))]).
Proof.
  intros Hn. apply w_rec; [reflexivity|exact Hn|lia|destruct x; reflexivity|]. intros b. destruct x; reflexivity.
Qed.

(** ** Scalars *)
Definition not_sfixed (s : sty) : bool := match s with Y_sfixed32 | Y_sfixed64 => false | _ => true end.

Lemma u64_in64 z : u64 z = in64 z.
Proof. reflexivity. Qed.
Lemma in_i32_range z : in_i32 z = true -> - Z31 <= z < Z31.
Proof. unfold in_i32. lia. Qed.
Lemma in_i64_range z : in_i64 z = true -> - Z63 <= z < Z63.
Proof. unfold in_i64. lia. Qed.
Lemma i32_i64 z : - Z31 <= z < Z31 -> - Z63 <= z < Z63.
Proof. unfold Z31, Z63. lia. Qed.
Lemma rd_i32_ok z : - Z31 <= z < Z31 -> rd_i32 (VI32 z) = OK z.
Proof.
  intros H. unfold rd_i32. cbn [mem32 of_opt rbind]. f_equal. unfold u32, s32, Z32, Z31 in *.
  rewrite Z2N.id by (apply Z.mod_pos_bound; lia). rewrite Z.mod_mod by lia.
  destruct (Z_lt_le_dec z 0).
  - replace (z mod 4294967296) with (z + 4294967296) by lia.
    destruct (_ <? _) eqn:E; lia.
  - rewrite Z.mod_small by lia. destruct (_ <? _) eqn:E; lia.
Qed.
Lemma rd_i64_ok z : - Z63 <= z < Z63 -> rd_i64 (VI64 z) = OK z.
Proof. intros H. unfold rd_i64. cbn [mem64 of_opt rbind]. rewrite s64_u64 by exact H. reflexivity. Qed.

Definition scalar_small (v : val) : Prop := match v with VStr b => zlen b < Z63 | _ => True end.

Lemma always_writes D s v n : not_sfixed s = true -> wt D v (TScalar (go_kind s)) = true -> (n < 2^61)%N -> scalar_small v ->
  writes (fun b => l_encode (static (SC (wk_of s) Required)) b v (meta_of (8 * n + wire_sty s)))
         (l_size (static (SC (wk_of s) Required)) v (meta_of (8 * n + wire_sty s))) (ser [(n, pay s v)]).
Proof.
  intros Hs Hw Hn Hb.
  destruct s; try discriminate Hs; cbn [go_kind wk_of wire_sty] in *; wtd v;
  cbn [static l_size l_encode boolRequiredCodec stringRequiredCodec float32RequiredCodec float64RequiredCodec int32RequiredCodec
       int64RequiredCodec uint32RequiredCodec uint64RequiredCodec fixed32RequiredCodec fixed64RequiredCodec zigzag32RequiredCodec zigzag64RequiredCodec];
  unfold sizeOfBoolRequired, encodeBoolRequired, sizeOfStringRequired, encodeStringRequired, sizeOfFloat32Required, encodeFloat32Required,
    sizeOfFloat64Required, encodeFloat64Required, sizeOfInt32Required, encodeInt32Required, sizeOfInt64Required, encodeInt64Required,
    sizeOfUint32Required, encodeUint32Required, sizeOfUint64Required, encodeUint64Required, sizeOfFixed32Required, encodeFixed32Required,
    sizeOfFixed64Required, encodeFixed64Required, sizeOfZigzag32Required, encodeZigzag32Required, sizeOfZigzag64Required, encodeZigzag64Required;
  cbn [meta_of wiretag tagsize pay]; cbn [wt] in Hw; try (apply in_i32_range in Hw); try (apply in_i64_range in Hw);
  try (rewrite (rd_i32_ok _ Hw)); try (rewrite (rd_i64_ok _ Hw)); cbn [rd_bool rd_u32 rd_u64 rd_f32 rd_f64 rd_str mem32 mem64 of_opt rbind];
  try (rewrite (encodeZigZag64_spec _ Hw)); try (rewrite (encodeZigZag64_spec _ (i32_i64 _ Hw))).
  - apply (w_var n (u64 z)); [exact Hn|apply u64_lt].
  - apply (w_var n (u64 z)); [exact Hn|apply u64_lt].
  - apply w_var; [exact Hn|]. apply (wt_u32 D). exact Hw.
  - apply w_var; [exact Hn|]. apply (wt_u64 D). exact Hw.
  - apply w_var; [exact Hn|]. apply zigzag_range. apply i32_i64, Hw.
  - apply w_var; [exact Hn|]. apply zigzag_range. exact Hw.
  - apply w_32; exact Hn.
  - apply w_64; exact Hn.
  - apply w_32; exact Hn.
  - apply w_64; exact Hn.
  - apply w_bool; exact Hn.
  - apply w_len; [exact Hn|exact Hb].
Qed.

Lemma f32_zero n : (n < 4294967296)%N -> f32_nonzero n = negb (n =? 0)%N.
Proof.
  intros H. unfold f32_nonzero. change 2147483647%N with (N.ones 31). rewrite N.land_ones.
  destruct (N.eqb_spec n 0) as [->|E]; [reflexivity|]. cbn [negb].
  destruct (N.eqb_spec (n mod 2 ^ 31) 0) as [E1|E1]; [|reflexivity]. cbn [negb orb].
  apply N.testbit_true. change (2^31)%N with 2147483648%N in *. lia.
Qed.
Lemma f64_zero n : (n < M64)%N -> f64_nonzero n = negb (n =? 0)%N.
Proof.
  intros H. unfold f64_nonzero. change 9223372036854775807%N with (N.ones 63). rewrite N.land_ones.
  destruct (N.eqb_spec n 0) as [->|E]; [reflexivity|]. cbn [negb].
  destruct (N.eqb_spec (n mod 2 ^ 63) 0) as [E1|E1]; [|reflexivity]. cbn [negb orb].
  apply N.testbit_true. unfold M64 in H. change (2^63)%N with 9223372036854775808%N in *. lia.
Qed.
Lemma f32_zero_wt D n : wt D (VF32 n) (TScalar KFloat32) = true -> f32_nonzero n = negb (n =? 0)%N.
Proof. cbn [wt]. intros H. apply N.ltb_lt in H. apply f32_zero. exact H. Qed.
Lemma f64_zero_wt D n : wt D (VF64 n) (TScalar KFloat64) = true -> f64_nonzero n = negb (n =? 0)%N.
Proof. cbn [wt]. intros H. apply N.ltb_lt in H. apply f64_zero. exact H. Qed.

(** The normal codecs are the required ones guarded by the zero test. *)
Lemma normal_required D s v f : not_sfixed s = true -> wt D v (TScalar (go_kind s)) = true ->
  (forall b, l_encode (static (SC (wk_of s) Normal)) b v f =
     if is_zero v then OK b else l_encode (static (SC (wk_of s) Required)) b v f) /\
  l_size (static (SC (wk_of s) Normal)) v f =
     if is_zero v then OK 0 else l_size (static (SC (wk_of s) Required)) v f.
Proof.
  intros Hs Hw.
  destruct s; try discriminate Hs; cbn [go_kind wk_of wire_sty] in *; wtd v;
  cbn [static l_size l_encode boolRequiredCodec stringRequiredCodec float32RequiredCodec float64RequiredCodec int32RequiredCodec
       int64RequiredCodec uint32RequiredCodec uint64RequiredCodec fixed32RequiredCodec fixed64RequiredCodec zigzag32RequiredCodec zigzag64RequiredCodec
       boolCodec stringCodec float32Codec float64Codec int32Codec int64Codec uint32Codec uint64Codec fixed32Codec fixed64Codec zigzag32Codec zigzag64Codec];
  unfold sizeOfBoolRequired, encodeBoolRequired, sizeOfStringRequired, encodeStringRequired, sizeOfFloat32Required, encodeFloat32Required,
    sizeOfFloat64Required, encodeFloat64Required, sizeOfInt32Required, encodeInt32Required, sizeOfInt64Required, encodeInt64Required,
    sizeOfUint32Required, encodeUint32Required, sizeOfUint64Required, encodeUint64Required, sizeOfFixed32Required, encodeFixed32Required,
    sizeOfFixed64Required, encodeFixed64Required, sizeOfZigzag32Required, encodeZigzag32Required, sizeOfZigzag64Required, encodeZigzag64Required,
    sizeOfBool, encodeBool, sizeOfString, encodeString, sizeOfFloat32, encodeFloat32,
    sizeOfFloat64, encodeFloat64, sizeOfInt32, encodeInt32, sizeOfInt64, encodeInt64, sizeOfUint32, encodeUint32, sizeOfUint64, encodeUint64,
    sizeOfFixed32, encodeFixed32, sizeOfFixed64, encodeFixed64, sizeOfZigzag32, encodeZigzag32, sizeOfZigzag64, encodeZigzag64;
  cbn [is_zero]; try (rewrite (rd_i32_ok _ (in_i32_range _ Hw))); try (rewrite (rd_i64_ok _ (in_i64_range _ Hw)));
  cbn [rd_bool rd_u32 rd_u64 rd_f32 rd_f64 rd_str mem32 mem64 of_opt rbind];
  try (rewrite (f32_zero_wt D _ Hw)); try (rewrite (f64_zero_wt D _ Hw)).
  all: try (match goal with |- context [(?z =? 0)%Z] => destruct (z =? 0)%Z end; split; reflexivity).
  all: try (match goal with |- context [(?z =? 0)%N] => destruct (z =? 0)%N end; split; reflexivity).
  all: try (destruct b; split; reflexivity).
Qed.

Lemma normal_writes D s v n : not_sfixed s = true -> wt D v (TScalar (go_kind s)) = true -> (n < 2^61)%N -> scalar_small v ->
  writes (fun b => l_encode (static (SC (wk_of s) Normal)) b v (meta_of (8 * n + wire_sty s)))
         (l_size (static (SC (wk_of s) Normal)) v (meta_of (8 * n + wire_sty s)))
         (ser (if is_zero v then [] else [(n, pay s v)])).
Proof.
  intros Hs Hw Hn Hb. destruct (normal_required D s v (meta_of (8 * n + wire_sty s)) Hs Hw) as [E1 E2].
  destruct (is_zero v).
  - eapply writes_eq; [exact writes_nil|exact E1|exact E2].
  - eapply writes_eq; [eapply always_writes; eassumption|exact E1|exact E2].
Qed.

(** ** The key's codec applied to the value of a map entry (map.go:80) *)
Definition val_small (v : val) : Prop :=
  match v with VStr b => zlen b < Z63 | VBytes (Some b) => zlen b < Z63 | _ => True end.

Lemma sz_static D v s f : sz plook (piget D) v (PStatic s) f = l_size (static s) v f.
Proof. destruct v; reflexivity. Qed.
Lemma enc_static D v b s f : enc plook (piget D) v b (PStatic s) f = l_encode (static s) b v f.
Proof. destruct v; reflexivity. Qed.

Lemma len_var n v : (n < 2^61)%N -> (v < 2^64)%N ->
  zlen (ser [(n, PVar v)]) = sizeOfVarint v + sizeOfVarint (8 * n + 0).
Proof. intros Hn Hv. destruct (w_var n v Hn Hv) as [H _]. congruence. Qed.
Lemma two_61 : (2 < 2^61)%N.
Proof. reflexivity. Qed.
Lemma one_61 : (1 < 2^61)%N.
Proof. reflexivity. Qed.

Lemma bits64_mem x : mem64 x = bits64 x.
Proof. destruct x; reflexivity. Qed.
Lemma bits32_mem x : mem32 x = bits32 x.
Proof. destruct x; reflexivity. Qed.
Lemma some_inj {A} (a b : A) : Some a = Some b -> a = b.
Proof. congruence. Qed.
Lemma bits64_lt D x t n : wt D x t = true -> bits64 x = Some n -> (n < 2^64)%N.
Proof.
  intros W E. destruct x; try discriminate E; try (destruct o; try discriminate E); apply some_inj in E; subst n.
  - rewrite <- u64_in64. apply u64_lt.
  - destruct t as [[]| | | | | | |]; try discriminate W. cbn [wt] in W. apply (wt_u64 D). exact W.
  - destruct t as [[]| | | | | | |]; try discriminate W. cbn [wt] in W. apply (wt_u64 D). exact W.
  - reflexivity.
Qed.
Lemma bits32_lt D x t n : wt D x t = true -> bits32 x = Some n -> (n < 4294967296)%N.
Proof.
  intros W E. unfold bits32 in E.
  assert (A : forall n', bits64 x = Some n' -> match bits64 x with Some n => Some (n mod 2^32)%N | None => None end = Some n -> (n < 4294967296)%N).
  { intros n' Hn. rewrite Hn. intros Q. injection Q as <-. apply N.mod_lt. discriminate. }
  destruct (bits64 x) as [n'|] eqn:B.
  - destruct x; try discriminate B; eapply A; eauto.
  - destruct x; try discriminate E; try discriminate B; injection E as <-.
    + change (2^32) with 4294967296. lia.
    + destruct t as [[]| | | | | | |]; try discriminate W. cbn [wt] in W. lia.
    + destruct t as [[]| | | | | | |]; try discriminate W. cbn [wt] in W. lia.
Qed.
Lemma as_signed_s32 n : (n < 4294967296)%N -> s32 (Z.of_N n) = as_signed n.
Proof.
  intros H. unfold s32, as_signed, Z32, Z31. change (2^31)%N with 2147483648%N. change (2^32) with 4294967296. rewrite Z.mod_small by lia.
  destruct (Z.ltb_spec (Z.of_N n) 2147483648), (N.ltb_spec n 2147483648); lia.
Qed.
Lemma u64_s64_any n : (n < 2^64)%N -> u64 (s64 n) = n.
Proof. intros H. apply u64_s64. exact H. Qed.
(** What the key's codec measures at a value. *)
Lemma key_size D k e x : scope_key k = true -> scope_val e = true -> wt D x (go_type e) = true -> val_small x ->
  l_size (static (SC (wk_of k) Required)) x (meta_of (tag_of 2 e)) =
  match key_length k x with Some n => OK (Z.of_nat n + 1) | None => CR Confused end.
Proof.
  intros Hk He Hw Hsm.
  assert (T : tagsize (meta_of (tag_of 2 e)) = 1) by (destruct e as [s|s|s|s| |m|e|k' e]; try discriminate He; try (destruct s; reflexivity); reflexivity).
  assert (Z : forall n, (n < 2^64)%N -> sizeOfVarint n = Z.of_nat (length (vint n))) by (intros n L; rewrite sizeOfVarint_spec by exact L; reflexivity).
  destruct k; try discriminate Hk; cbn [wk_of static l_size int32RequiredCodec int64RequiredCodec uint32RequiredCodec uint64RequiredCodec boolRequiredCodec stringRequiredCodec key_length];
    unfold sizeOfInt32Required, sizeOfInt64Required, sizeOfUint32Required, sizeOfUint64Required, sizeOfBoolRequired, sizeOfStringRequired, rd_i32, rd_u32, rd_i64, rd_u64;
    rewrite ?bits32_mem, ?bits64_mem, ?T.
  - destruct (bits32 x) as [n|] eqn:B; [|reflexivity]. cbn [of_opt rbind]. rewrite ?T. pose proof (bits32_lt D x _ n Hw B) as L. rewrite (as_signed_s32 n L), Z by apply u64_lt. reflexivity.
  - destruct (bits64 x) as [n|] eqn:B; [|reflexivity]. cbn [of_opt rbind]. rewrite ?T. pose proof (bits64_lt D x _ n Hw B) as L. rewrite (u64_s64_any n L), Z by exact L. reflexivity.
  - destruct (bits32 x) as [n|] eqn:B; [|reflexivity]. cbn [of_opt rbind]. rewrite ?T. pose proof (bits32_lt D x _ n Hw B) as L. rewrite Z by (change (2^64)%N with 18446744073709551616%N; lia). reflexivity.
  - destruct (bits64 x) as [n|] eqn:B; [|reflexivity]. cbn [of_opt rbind]. rewrite ?T. pose proof (bits64_lt D x _ n Hw B) as L. rewrite Z by exact L. reflexivity.
  - reflexivity.
  - assert (S : forall b : bytes, zlen b < Z63 -> sizeOfVarlen (zlen b) + 1 = Z.of_nat (length (ser_payload (PLen b))) + 1).
    { intros b L. unfold sizeOfVarlen. destruct (of_nat_64 b L) as [E L']. rewrite E, sizeOfVarint_spec by exact L'. cbn [ser_payload]. rewrite app_length. unfold zlen. lia. }
    destruct x as [| | | | | | |b|[b|]| | | | | |]; try reflexivity; cbn [rd_str rbind]; rewrite ?T.
    + rewrite S by exact Hsm. reflexivity.
    + rewrite S by exact Hsm. reflexivity.
Qed.
Lemma map_len_eq D k e x sch : scope_key k = true -> scope_val e = true -> wt D x (go_type e) = true -> val_small x ->
  map_len_ok sch k e x = true -> l_size (static (SC (wk_of k) Required)) x (meta_of (tag_of 2 e)) = OK (zlen (ser (records sch x 2 e))).
Proof.
  intros Hk He Hw Hsm Hm. rewrite (key_size D) by assumption. unfold map_len_ok in Hm. destruct (key_length k x) as [n|]; [|discriminate Hm].
  apply Nat.eqb_eq in Hm. unfold zlen. rewrite <- Hm. f_equal. lia.
Qed.

(** ** All fields *)
Definition ok_elem (e : fty) : bool :=
  match e with FAlways s => not_sfixed s | FBytes | FMessage _ => true | _ => false end.
Definition ok_fty (f : fty) : bool :=
  match f with
  | FImplicit s | FOptional s | FPointer s | FAlways s => not_sfixed s
  | FBytes | FMessage _ => true
  | FRepeated e => ok_elem e
  | FMap k e => scope_key k && scope_val e
  end.
Lemma scope_ok f : scope_field f = true -> ok_fty f = true.
Proof.
  destruct f as [s|s|s|s| |m|e|k e]; cbn; auto; try (destruct s; auto; discriminate).
  destruct e as [s|s|s|s| |m|e|k e]; cbn; auto; destruct s; auto; discriminate.
Qed.
Lemma elem_ok e : ok_elem e = true -> ok_fty e = true.
Proof. destruct e; cbn; auto; discriminate. Qed.
Lemma val_ok e : scope_val e = true -> ok_fty e = true.
Proof. destruct e as [s|s|s|s| |m|e|k e]; cbn; auto; try discriminate; destruct s; auto; discriminate. Qed.

Section Enc.
Variables (D : decls) (sch : schema).
Hypothesis HI : implements D sch = true.
Hypothesis HS : schema_ok sch = true.
Hypothesis HC : in_scope sch = true.
Notation sz := (sz plook (piget D)).
Notation enc := (enc plook (piget D)).
Notation records := (records sch).
Notation message := (message sch).
Notation encodable := (encodable sch).
Notation encodable_msg := (encodable_msg sch).

Definition enc_ok (v : val) : Prop := forall n f, wt D v (go_type f) = true -> ok_fty f = true -> (n < 2^61)%N ->
  encodable v f = true -> zlen (ser (records v n f)) < Z63 ->
  writes (fun b => enc v b (pref_of n f) (meta_of (tag_of n f))) (sz v (pref_of n f) (meta_of (tag_of n f))) (ser (records v n f)).

Lemma writes_app {A} (r1 : bytes -> res bytes) (n1 : res Z) t1 (r2 : bytes -> res bytes) n2 t2 (g : Z -> Z -> A) :
  writes r1 n1 t1 -> writes r2 n2 t2 ->
  writes (fun b => b <- r1 b ;; r2 b) (x <- n1 ;; y <- n2 ;; OK (x + y)) (t1 ++ t2).
Proof.
  intros [-> H1] [-> H2]. split; [cbn [rbind]; rewrite zlen_app; reflexivity|].
  intros b. rewrite H1. cbn [rbind]. rewrite H2, app_assoc. reflexivity.
Qed.

Lemma message_writes all s e : (forall i, s i = option_map (fun y => sz y) (nth_error all i)) ->
  (forall i, e i = option_map (fun y => enc y) (nth_error all i)) ->
  Forall enc_ok all ->
  forall fs xs i, (forall j, nth_error all (i + j) = nth_error xs j) ->
  all2 (wt D) xs (map fld_type fs) = true -> nums_ok fs = true -> scope_msg fs = true -> encodable_msg xs fs = true ->
  zlen (ser (message xs fs)) < Z63 ->
  writes (fun b => fields_encode e b (spec_fields i fs)) (fields_size s (spec_fields i fs)) (ser (message xs fs)).
Proof.
  intros Hs He Hall. induction fs as [|f fs IH]; intros [|x xs] i Hn Hw Hnum Hsc Hen Hsm; try discriminate; [exact writes_nil|].
  cbn [all2 map] in Hw. apply andb_true_iff in Hw. destruct Hw as [Hx Hw].
  unfold scope_msg in Hsc. cbn [forallb] in Hsc. apply andb_true_iff in Hsc. destruct Hsc as [Hf Hsc].
  assert (Hn' : forall j, nth_error all (S i + j) = nth_error xs j) by (intros j; replace (S i + j)%nat with (i + S j)%nat by lia; apply Hn).
  destruct f as [t|n f]; cbn [SpecMsg.message spec_fields SpecMsg.encodable_msg fld_type] in *.
  - apply IH; assumption.
  - unfold nums_ok in Hnum. cbn [numbers forallb] in Hnum. apply andb_true_iff in Hnum. destruct Hnum as [Hn1 Hns].
    apply andb_true_iff in Hn1. destruct Hn1 as [_ Hn1]. apply num_61 in Hn1. destruct Hn1 as [_ Hn1].
    apply andb_true_iff in Hen. destruct Hen as [He1 Hes].
    rewrite ser_app in *. rewrite zlen_app in Hsm. pose proof (zlen_nonneg (ser (records x n f))). pose proof (zlen_nonneg (ser (message xs fs))).
    cbn [fields_encode fields_size mkfield f_idx f_codec f_meta].
    assert (E : nth_error all i = Some x) by (rewrite <- (Nat.add_0_r i); apply Hn).
    rewrite Hs, E. cbn [option_map].
    rewrite Forall_forall in Hall. pose proof (Hall x (nth_error_In _ _ E)) as Hxo.
    specialize (Hxo n f Hx (scope_ok _ Hf) Hn1 He1 ltac:(lia)).
    specialize (IH xs (S i) Hn' Hw Hns Hsc Hes ltac:(lia)).
    eapply writes_eq; [exact (writes_app _ _ _ _ _ _ Z.add Hxo IH)| |reflexivity].
    intros b. cbn beta. rewrite He, E. cbn [option_map]. reflexivity.
Qed.

Lemma records_msg xs n m : records (VPtr (Some (VStruct xs))) n (FMessage m) = [(n, PLen (ser (message xs (msg sch m))))].
Proof. reflexivity. Qed.
Lemma encodable_eq xs m : encodable (VPtr (Some (VStruct xs))) (FMessage m) = encodable_msg xs (msg sch m).
Proof. reflexivity. Qed.

Lemma ser_len_lt n d : zlen (ser [(n, PLen d)]) < Z63 -> zlen d < Z63.
Proof.
  rewrite ser_one. unfold ser_rec. cbn [fst snd ser_payload]. rewrite !zlen_app.
  pose proof (zlen_nonneg (vint (8 * n + wire_of (PLen d)))). pose proof (zlen_nonneg (vint (N.of_nat (length d)))). lia.
Qed.
Lemma flat_map_ser {A} (g : A -> list record) l : ser (flat_map g l) = concat (map (fun x => ser (g x)) l).
Proof. induction l as [|x l IH]; [reflexivity|]. cbn [flat_map map concat]. rewrite ser_app, IH. reflexivity. Qed.
Lemma concat_len (l : list bytes) x : In x l -> zlen x <= zlen (concat l).
Proof.
  induction l as [|y l IH]; [intros []|]. cbn [concat]. rewrite zlen_app. intros [->|H]; [pose proof (zlen_nonneg (concat l)); lia|].
  apply IH in H. pose proof (zlen_nonneg y). lia.
Qed.

Lemma writes_chain {A} (l : list A) r n t : Forall (fun x => writes (r x) (n x) (t x)) l ->
  writes (fun b => chain_res b (map r l)) (sum_res (map n l)) (concat (map t l)).
Proof.
  induction 1 as [|x l [Hn Hr] _ [Hn' Hr']]; [exact writes_nil|]. cbn [map chain_res sum_res concat] in *.
  rewrite Hn. cbn [rbind]. rewrite Hn'. cbn [rbind]. split; [rewrite zlen_app; reflexivity|].
  intros b. rewrite Hr. cbn [rbind]. rewrite Hr', app_assoc. reflexivity.
Qed.

Lemma small_pay s v n : not_sfixed s = true -> wt D v (TScalar (go_kind s)) = true -> zlen (ser [(n, pay s v)]) < Z63 -> scalar_small v.
Proof.
  intros Hs Hw. destruct v; try (intros; exact Logic.I). destruct s; try discriminate. cbn [pay]. apply ser_len_lt.
Qed.

Lemma nth_sub {B} (h : val -> B) fs i : nth_error (map h fs) i = option_map h (nth_error fs i).
Proof. revert i. induction fs as [|x fs IH]; intros [|i]; cbn; auto. Qed.

Lemma enc_spec : forall v, enc_ok v.
Proof.
  induction v as [v IH] using val_ind2. intros n f Hw Hf Hn He Hsm.
  destruct f as [s|s|s|s| |m|e|k e]; cbn [ok_fty] in Hf.
  - (* implicit *)
    cbn [go_type] in Hw.
    assert (E : records v n (FImplicit s) = if is_zero v then [] else [(n, pay s v)]) by (destruct v; reflexivity).
    rewrite E in *. eapply writes_eq; [eapply (normal_writes D s v n); try eassumption| |].
    + destruct v; try exact Logic.I. cbn [is_zero] in Hsm. destruct b; [reflexivity|]. eapply small_pay; eassumption.
    + intros b. apply enc_static.
    + apply sz_static.
  - (* optional *)
    cbn [go_type] in Hw. wtd v. cbn [wt] in Hw. cbn [pref_of].
    destruct some.
    + assert (Hsv : scalar_small v) by (eapply (small_pay s v n); eassumption).
      eapply writes_eq; [eapply (always_writes D s v n); eassumption| |].
      * intros b. rewrite enc_static. destruct s; reflexivity.
      * rewrite sz_static. destruct s; reflexivity.
    + eapply writes_eq; [exact writes_nil| |].
      * intros b. rewrite enc_static. destruct s; reflexivity.
      * rewrite sz_static. destruct s; reflexivity.
  - (* pointer *)
    cbn [go_type] in Hw. destruct (wt_ptr _ _ _ Hw) as ([x|] & -> & Hx); [|exact writes_nil].
    cbn [SpecMsg.records SpecMsg.encodable] in *. apply negb_true_iff in He.
    pose proof (normal_writes D s x n Hf Hx Hn (small_pay _ _ _ Hf Hx Hsm)) as W. rewrite He in W.
    eapply writes_eq; [exact W| |].
    + intros b. cbn [pref_of Codec.enc plook]. apply enc_static.
    + cbn [pref_of Codec.sz plook]. apply sz_static.
  - (* always *)
    cbn [go_type] in Hw.
    assert (E : records v n (FAlways s) = [(n, pay s v)]) by (destruct v; reflexivity). rewrite E in *.
    eapply writes_eq; [eapply (always_writes D s v n); try eassumption; eapply small_pay; eassumption| |].
    + intros b. apply enc_static.
    + apply sz_static.
  - (* bytes *)
    cbn [go_type] in Hw. wtd v.
    + cbn [SpecMsg.records] in *. apply ser_len_lt in Hsm. exact (w_len n l Hn Hsm).
    + exact writes_nil.
  - (* message *)
    cbn [go_type] in Hw. destruct (wt_msg _ _ _ Hw) as ([x|] & -> & Hx); [|exact writes_nil].
    destruct (wts_struct D x (SNamed m)) as (xs & -> & W); [discriminate|exact Hx|]. cbn [key_types] in W.
    rewrite (field_types_of D sch HI) in W. rewrite records_msg in *. rewrite encodable_eq in He. apply ser_len_lt in Hsm.
    destruct (schema_ok_msg sch HS m) as (Hnum & _).
    pose proof (message_writes xs (nth_error (map (fun y => sz y) xs)) (nth_error (map (fun y => enc y) xs))
      (nth_sub _ _) (nth_sub _ _)) as M.
    destruct IH as [_ IH]. specialize (M IH (msg sch m) xs 0%nat (fun j => eq_refl) W Hnum (scope_nth _ HC m) He Hsm).
    destruct M as [M1 M2].
    cbn [pref_of Codec.sz Codec.enc plook]. unfold struct_size. cbn [get_field].
    rewrite (piget_spec D sch HI HS HC). cbn [i_fields].
    assert (M1' : fields_size (fun j => option_map (fun y => sz y) (nth_error xs j)) (spec_fields 0 (msg sch m)) = OK (zlen (ser (message xs (msg sch m))))).
    { rewrite <- M1. generalize (spec_fields 0 (msg sch m)) as l. intros l. induction l as [|g l IHl]; [reflexivity|].
      cbn [fields_size]. rewrite nth_sub, IHl. reflexivity. }
    rewrite M1, M1'. cbn [rbind].
    destruct (of_nat_64 _ Hsm) as [E L]. rewrite E.
    pose proof (tag_of_lt n (FMessage m) Hn) as T. unfold tag_of in *. cbn [wire_fty meta_of wiretag tagsize] in *.
    eapply writes_eq; [apply (w_rec n 2 (PLen (ser (message xs (msg sch m)))) _ _ eq_refl Hn eq_refl eq_refl (fun b => eq_refl))| |].
    + intros b. rewrite M2. cbn [ser_payload]. rewrite (appendVarint_spec _ (N.of_nat _)) by exact L.
      rewrite <- !app_assoc. reflexivity.
    + f_equal. cbn [ser_payload]. rewrite zlen_app, (sizeOfVarint_spec (N.of_nat _)) by exact L. lia.
  - (* repeated *)
    cbn [go_type] in Hw. destruct (wt_slice _ _ _ Hw) as (nn & items & spare & -> & Hi & Hsp). destruct IH as [IH _].
    cbn [SpecMsg.records SpecMsg.encodable] in *. rewrite flat_map_ser in *.
    assert (T : tag_of n (FRepeated e) = tag_of n e) by reflexivity. rewrite T.
    cbn [pref_of Codec.sz Codec.enc plook].
    apply (writes_chain items (fun x b => enc x b (pref_of n e) (meta_of (tag_of n e))) (fun x => sz x (pref_of n e) (meta_of (tag_of n e))) (fun x => ser (records x n e))).
    apply Forall_forall. intros x Hx. rewrite Forall_forall in IH. rewrite forallb_forall in *.
    apply (IH x Hx n e); auto using elem_ok.
    assert (L : zlen (ser (records x n e)) <= zlen (concat (map (fun x => ser (records x n e)) items))) by (apply concat_len; apply in_map_iff; eauto). lia.
  - (* map *)
    cbn [go_type] in Hw. destruct (wt_map _ _ _ _ Hw) as (mm & -> & Hm). clear Hw.
    apply andb_true_iff in Hf. destruct Hf as [Hk Hv].
    destruct mm as [[|kv l]|]; try discriminate He.
    destruct Hm as [Hm _]. remember (kv :: l) as l' eqn:El. 
    assert (He' : forallb (fun kv => match kv with (_, x) => map_len_ok sch k e x && encodable x e end) l' = true) by (rewrite El; rewrite El in He; exact He).
    clear He. assert (Hne : l' <> []) by (rewrite El; discriminate). clear El kv l.
    pose (entry := fun kv : val * val => match kv with (a, x) => records a 1 (FAlways k) ++ records x 2 e end).
    assert (Er : records (VMap (Some l')) n (FMap k e) = flat_map (fun kv => [(n, PLen (ser (entry kv)))]) l').
    { cbn [SpecMsg.records]. apply flat_map_ext. intros [a x]. reflexivity. }
    rewrite Er in *. rewrite flat_map_ser in *.
    pose (kp := PStatic (SC (wk_of k) Required)). pose (kt := tag_of 1 (FAlways k)). pose (vt := tag_of 2 e). pose (vp := pref_of 2 e). pose (tag := (8 * n + 2)%N).
    pose (ee := fun (kv : val * val) (b : bytes) => match kv with (k, x) =>
             keySize <- sz k kp (meta_of kt) ;;
             valSize <- sz x kp (meta_of vt) ;;
             b <- enc k (appendVarint (b ++ appendVarint [] tag) (u64 (keySize + valSize))) kp (meta_of kt) ;;
             enc x b vp (meta_of vt) end).
    pose (ss := fun (kv : val * val) => match kv with (k, x) =>
             keySize <- sz k kp (meta_of kt) ;;
             valSize <- sz x vp (meta_of vt) ;;
             OK (sizeOfVarint tag + sizeOfVarint (u64 (keySize + valSize)) + keySize + valSize) end).
    assert (As : forall g, sz (VMap (Some l')) (pref_of n (FMap k e)) g =
                 (n <- sum_res (map ss l') ;; OK (if n =? 0 then sizeOfVarint tag + 1 else n))) by reflexivity.
    assert (Ae : forall g b, enc (VMap (Some l')) b (pref_of n (FMap k e)) g =
                 (b' <- chain_res b (map ee l') ;; OK (if zlen b' =? zlen b then b' ++ (appendVarint [] tag ++ [0%N]) else b'))) by reflexivity.
    assert (T : (tag < 2^64)%N) by (apply tag_lt; [exact Hn|lia]).
    assert (W : writes (fun b => chain_res b (map ee l')) (sum_res (map ss l')) (concat (map (fun kv => ser [(n, PLen (ser (entry kv)))]) l'))).
    { apply (writes_chain l' ee ss (fun kv => ser [(n, PLen (ser (entry kv)))])).
      apply Forall_forall. intros [a x] Hin. rewrite Forall_forall in IH. destruct (IH _ Hin) as [IHa IHx]. cbn [fst snd] in IHa, IHx.
      rewrite forallb_forall in Hm, He'. specialize (Hm _ Hin). specialize (He' _ Hin). cbn beta iota in Hm, He'.
      apply andb_true_iff in Hm. destruct Hm as [Wa Wx]. apply andb_true_iff in He'. destruct He' as [Ml Ex].
      assert (Hse : zlen (ser (entry (a, x))) < Z63).
      { apply (ser_len_lt n). assert (L : zlen (ser [(n, PLen (ser (entry (a, x))))]) <= zlen (concat (map (fun kv => ser [(n, PLen (ser (entry kv)))]) l'))).
        { apply concat_len. apply in_map_iff. exists (a, x). auto. } lia. }
      unfold entry in Hse. rewrite ser_app, zlen_app in Hse.
      pose proof (zlen_nonneg (ser (records a 1 (FAlways k)))). pose proof (zlen_nonneg (ser (records x 2 e))).
      assert (Ka : not_sfixed k = true) by (destruct k; try discriminate; reflexivity).
      destruct (IHa 1%N (FAlways k) Wa Ka one_61) as [A1 A2]; [destruct a; reflexivity|lia|].
      destruct (IHx 2%N e Wx (val_ok _ Hv) two_61 Ex) as [X1 X2]; [lia|].
      assert (Sx : val_small x).
      { destruct x as [| | | | | | |b|[b|]| | | | | |]; try exact Logic.I.
        - destruct e as [s|s|s|s| |m|e|k' e]; try discriminate. cbn [go_type] in Wx. destruct s; try discriminate Wx.
          cbn [SpecMsg.records pay] in *. apply (ser_len_lt 2). lia.
        - destruct e as [s|s|s|s| |m|e|k' e]; try discriminate Wx; try discriminate Hv. cbn [SpecMsg.records] in *. apply (ser_len_lt 2). lia. }
      pose proof (map_len_eq D k e x sch Hk Hv Wx Sx Ml) as ML.
      unfold ee, ss. cbn [pref_of] in A1, A2. fold kp kt in A1, A2. fold vp vt in X1, X2. fold vt in ML.
      assert (ML' : sz x kp (meta_of vt) = OK (zlen (ser (records x 2 e)))) by (unfold kp; rewrite sz_static; exact ML).
      rewrite A1, X1, ML'. cbn [rbind].
      assert (Et : u64 (zlen (ser (records a 1 (FAlways k))) + zlen (ser (records x 2 e))) = N.of_nat (length (ser (entry (a, x)))) /\
                   (N.of_nat (length (ser (entry (a, x)))) < 2^64)%N).
      { rewrite <- zlen_app. unfold entry. rewrite ser_app. apply of_nat_64. rewrite zlen_app. lia. }
      destruct Et as [Et L]. rewrite Et.
      eapply writes_eq; [apply (w_rec n 2 (PLen (ser (entry (a, x)))) _ _ eq_refl Hn eq_refl eq_refl (fun b => eq_refl))| |].
      - intros b. rewrite A2. cbn [rbind]. rewrite X2. fold tag. rewrite (appendVarint_spec _ tag), (appendVarint_spec _ (N.of_nat _)), (appendVarint_spec _ tag) by assumption.
        cbn [ser_payload app]. unfold entry at 3. rewrite ser_app, <- !app_assoc. reflexivity.
      - f_equal. cbn [ser_payload]. fold tag. rewrite zlen_app, (sizeOfVarint_spec (N.of_nat _)) by exact L.
        unfold entry at 3. rewrite ser_app, zlen_app. lia. }
    destruct W as [W1 W2].
    assert (P : 0 < zlen (concat (map (fun kv => ser [(n, PLen (ser (entry kv)))]) l'))).
    { destruct l' as [|kv l']; [contradiction|]. cbn [map concat]. rewrite zlen_app, ser_one. unfold ser_rec. rewrite zlen_app.
      pose proof (vint_nonempty (8 * fst (n, PLen (ser (entry kv))) + wire_of (snd (n, PLen (ser (entry kv)))))) as NE.
      destruct (vint _) as [|c r]; [contradiction|]. rewrite zlen_cons.
      pose proof (zlen_nonneg r). pose proof (zlen_nonneg (ser_payload (snd (n, PLen (ser (entry kv)))))).
      pose proof (zlen_nonneg (concat (map (fun kv => ser [(n, PLen (ser (entry kv)))]) l'))). lia. }
    split.
    + rewrite As, W1. cbn [rbind]. destruct (Z.eqb_spec (zlen (concat (map (fun kv => ser [(n, PLen (ser (entry kv)))]) l'))) 0); [lia|reflexivity].
    + intros b. rewrite Ae, W2. cbn [rbind].
      destruct (Z.eqb_spec (zlen (b ++ concat (map (fun kv => ser [(n, PLen (ser (entry kv)))]) l'))) (zlen b)) as [E|]; [rewrite zlen_app in E; lia|reflexivity].
Qed.

Lemma struct_enc_spec m xs b : all2 (wt D) xs (field_types D m) = true -> encodable_msg xs (msg sch m) = true ->
  zlen (ser (message xs (msg sch m))) < Z63 ->
  struct_size plook (piget D) (SNamed m) (VStruct xs) = OK (zlen (ser (message xs (msg sch m)))) /\
  struct_encode plook (piget D) (SNamed m) b (VStruct xs) = OK (b ++ ser (message xs (msg sch m))).
Proof.
  intros Hw He Hsm. unfold struct_size, struct_encode. rewrite (piget_spec D sch HI HS HC). cbn [i_fields].
  destruct (schema_ok_msg sch HS m) as (Hnum & _). rewrite (field_types_of D sch HI) in Hw.
  pose proof (message_writes xs (fun j => option_map (fun y => sz y) (get_field (VStruct xs) j)) (fun j => option_map (fun y => enc y) (get_field (VStruct xs) j))
      (fun j => eq_refl) (fun j => eq_refl)) as M.
  assert (A : Forall enc_ok xs) by (apply Forall_forall; intros; apply enc_spec).
  destruct (M A (msg sch m) xs 0%nat (fun j => eq_refl) Hw Hnum (scope_nth _ HC m) He Hsm) as [M1 M2]. split; [exact M1|apply M2].
Qed.
End Enc.
