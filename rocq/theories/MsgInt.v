(** One varint record read into an integer or bool field. *)
From Coq Require Import ZifyBool ZifyNat ZifyN.
From Verif Require Import Base Wire GoType Leaf Codec Tag Walker Api Resolve Typing CodecSim SpecWire SpecTag SpecMsg
  WireFacts DecodeFacts GenFacts TypingFacts WalkInv WalkSpec WalkSeq EncFacts MsgResolve MsgEnc MsgDec MsgRound MsgFit MsgApi ApiFacts ApiTags
  MsgMore MsgStep MsgThms.
Local Open Scope Z_scope.
Ltac Zify.zify_post_hook ::= Z.div_mod_to_equations.

(** [v] is the number [u] reduced to the width and signedness of [s]. *)
Definition int_value (s : sty) (u : N) (v : val) : Prop :=
  match s with
  | Y_int32 => exists z, v = VI32 z /\ -2^31 <= z < 2^31 /\ (Z.of_N u - z) mod 2^32 = 0
  | Y_int64 => exists z, v = VI64 z /\ -2^63 <= z < 2^63 /\ (Z.of_N u - z) mod 2^64 = 0
  | Y_uint32 => v = VU32 (u mod 2^32)
  | Y_uint64 => v = VU64 u
  | Y_bool => v = VBool (negb (u =? 0)%N)
  | _ => False
  end.

Lemma int_read s u v : (u < 2^64)%N -> read_scalar s (PVar u) = Some v ->
  match s with Y_int32 | Y_int64 | Y_uint32 | Y_uint64 | Y_bool => int_value s u v | _ => True end.
Proof.
  intros Hu. destruct s; cbn [read_scalar int_value]; intros H; inversion H; subst; auto; eexists; (split; [reflexivity|]); unfold signed;
    change (2^64)%N with 18446744073709551616%N in *; change (2^32)%N with 4294967296%N in *; change (2^(64-1))%N with 9223372036854775808%N in *;
    change (2^(32-1))%N with 2147483648%N in *; change (2^31) with 2147483648; change (2^63) with 9223372036854775808;
    change (2^64) with 18446744073709551616; change (2^32) with 4294967296; destruct (_ <? _)%N eqn:E; split; try lia.
Qed.

Section Int.
Variables (D : decls) (sch : schema).
Hypothesis HV : covers D sch = true.
Let HI := proj1 (covers_facts D sch HV).
Let HS := proj1 (proj2 (covers_facts D sch HV)).
Let HC := proj1 (proj2 (proj2 (covers_facts D sch HV))).
Let HP := proj2 (proj2 (proj2 (covers_facts D sch HV))).

Lemma find_field_nth m j n f : nth_error (msg sch m) j = Some (Field n f) -> find_field 0 (msg sch m) n = Some (j, f).
Proof.
  intros Hf. destruct (schema_ok_msg sch HS m) as (_ & Hnd & _). clear - D Hf Hnd.
  apply nth_error_split in Hf. destruct Hf as (l1 & l2 & E & <-). rewrite E in Hnd |- *.
  apply (find_field_at sch D l1 l2 n f). rewrite numbers_app in Hnd. cbn [numbers] in Hnd. eapply nodup_app_not; exact Hnd.
Qed.

(** Any encoding of the tag and of the number, not only the shortest. *)
Lemma int_proof s m ys j n sc b k r u k' : reachable D s -> wts D (VStruct ys) (SNamed m) = true -> forallb fresh ys = true ->
  bytes_okb b = true -> zlen b < Z63 -> nth_error (msg sch m) j = Some (Field n (FImplicit sc)) ->
  read_varint b = VOk (8 * n) k r -> read_varint r = VOk u k' [] ->
  match sc with Y_int32 | Y_int64 | Y_uint32 | Y_uint64 => True | Y_bool => k' = 1%nat | _ => False end ->
  exists ys' v, fst (Unmarshal D b (ptr m ys) s) = Returns (ptr m ys', None) /\ nth_error ys' j = Some v /\ int_value sc u v.
Proof.
  intros Hr Hw Hf Hb Hs Hj Er Eu Hsc. pose proof (find_field_nth m j n _ Hj) as Ff.
  pose proof (wts_msg _ _ _ Hw) as [Hk Hw']. rewrite (field_types_of D sch HI) in Hw'.
  destruct (all2_nth _ _ _ j (TScalar (go_kind sc)) Hw') as (y & Ey & Wy); [rewrite (map_nth_error fld_type _ _ Hj); reflexivity|].
  apply read_varint_ok in Eu as Eu'. destruct Eu' as (Hu & _ & Hk' & _ & Lk').
  assert (Hne : b <> []) by (intros ->; discriminate Er).
  assert (W : wire_sty sc = 0%N) by (destruct sc; try contradiction; reflexivity).
  assert (RP : read_payload ((8 * n) mod 8) r = Some (PVar u, [])).
  { replace ((8 * n) mod 8)%N with 0%N by lia. unfold read_payload. rewrite N.eqb_refl, Eu. reflexivity. }
  assert (Lr : length r = k') by (apply (f_equal (@length N)) in Hk'; rewrite skipn_length in Hk'; cbn in Hk'; lia).
  assert (T8 : ((8 * n) / 8 = n)%N) by lia. assert (M8 : ((8 * n) mod 8 = 0)%N) by lia.
  assert (P : plain sch (S (length b)) (msg sch m) b = true).
  { cbn [plain]. destruct b as [|c0 b0] eqn:Eb; [contradiction|]. rewrite <- Eb in *. clear Eb c0 b0.
    rewrite Er, RP, T8, Ff. destruct (length b); cbn [plain]; rewrite andb_true_r; cbn [plain_put length]; rewrite Nat.sub_0_r, Lr;
    (destruct sc; try contradiction; try apply orb_true_r); rewrite Hsc; apply orb_true_r. }
  pose proof (unmarshal_spec D sch HV s m ys ys b Hr Hw Hf eq_refl Hb Hs P) as U.
  destruct (read_scalar sc (PVar u)) as [v|] eqn:Rv; [|destruct sc; try contradiction; discriminate Rv].
  assert (G : merge sch (S (length b)) (msg sch m) ys b = MOk (replace ys j v)).
  { cbn [merge]. destruct b as [|c0 b0] eqn:Eb; [contradiction|]. rewrite <- Eb in *. assert (Hl : length b = S (length b0)) by (rewrite Eb; reflexivity). clear Eb.
    rewrite Er, RP, T8, Ff, M8. cbn [wire_fty]. rewrite W. cbn [N.eqb negb]. rewrite Ey. cbn [put]. rewrite Rv. cbn [of_option]. rewrite Hl. reflexivity. }
  rewrite G in U. destruct U as (ys' & U & N' & _ & W').
  pose proof (nth_replace _ _ v _ Ey) as Ez. destruct (map_norm_nth _ _ _ _ (eq_sym N') Ez) as (v' & Ev & Nv).
  apply read_scalar_scalar in Rv as Sv. apply (scalar_norm_inv v v' Sv) in Nv. subst v'.
  exists ys', v. split; [exact U|]. split; [exact Ev|]. apply int_read in Rv; [|exact Hu]. destruct sc; try contradiction; exact Rv.
Qed.
Lemma bool_proof s m ys j n b k r u : reachable D s -> wts D (VStruct ys) (SNamed m) = true -> forallb fresh ys = true ->
  bytes_okb b = true -> zlen b < Z63 -> nth_error (msg sch m) j = Some (Field n (FImplicit Y_bool)) ->
  read_varint b = VOk (8 * n) k r -> read_varint r = VOk u 1 [] ->
  exists ys' v, fst (Unmarshal D b (ptr m ys) s) = Returns (ptr m ys', None) /\ nth_error ys' j = Some v /\ int_value Y_bool u v.
Proof. intros. eapply int_proof; try eassumption. reflexivity. Qed.

(** As Marshal writes it. *)
Lemma int_wire_proof s m ys j n sc u : reachable D s -> wts D (VStruct ys) (SNamed m) = true -> forallb fresh ys = true ->
  nth_error (msg sch m) j = Some (Field n (FImplicit sc)) -> (u < 2^64)%N ->
  match sc with Y_int32 | Y_int64 | Y_uint32 | Y_uint64 => True | Y_bool => (u < 128)%N | _ => False end ->
  exists ys' v, fst (Unmarshal D (ser [(n, PVar u)]) (ptr m ys) s) = Returns (ptr m ys', None) /\ nth_error ys' j = Some v /\ int_value sc u v.
Proof.
  intros Hr Hw Hf Hj Hu Hsc. pose proof (nth_error_In _ _ Hj) as Hin.
  destruct (schema_ok_msg sch HS m) as (Hns & _ & _). destruct (msg_fields_ok sch HS HC m n _ Hin) as [_ Hn].
  change (ser [(n, PVar u)]) with ((vint (8 * n + 0) ++ vint u) ++ []). rewrite app_nil_r, N.add_0_r.
  assert (T : (8 * n < 2^64)%N) by (replace (8 * n)%N with (8 * n + 0)%N by lia; apply tag_lt; [exact Hn|lia]).
  assert (E1 : read_varint (vint (8 * n) ++ vint u) = VOk (8 * n) (length (vint (8 * n))) (vint u)) by (apply read_varint_vint; exact T).
  assert (E2 : read_varint (vint u) = VOk u (length (vint u)) []) by (rewrite <- (app_nil_r (vint u)) at 1; apply read_varint_vint; exact Hu).
  eapply int_proof; try eassumption.
  - rewrite bytes_okb_app. apply andb_true_iff. split; apply bytes_okb_ok, vint_ok.
  - pose proof (vint_length_64 _ T). pose proof (vint_length_64 _ Hu). unfold zlen. rewrite app_length.
    change Z63 with 9223372036854775808. lia.
  - destruct sc; try contradiction; try exact Hsc. rewrite vint_small by exact Hsc. reflexivity.
Qed.
End Int.

(** The payload of an integer or bool field is its value as a 64-bit number. *)
Lemma in64_bound z : (in64 z < 2^64)%N.
Proof.
  unfold in64. pose proof (Z.mod_pos_bound z (2^64) eq_refl) as B. apply N2Z.inj_lt. rewrite Z2N.id by apply B. apply B.
Qed.
Lemma in64_mod z : (Z.of_N (in64 z) - z) mod 2^64 = 0 /\ (Z.of_N (in64 z) - z) mod 2^32 = 0.
Proof.
  unfold in64. pose proof (Z.mod_pos_bound z (2^64) eq_refl) as B. rewrite Z2N.id by apply B. clear B.
  rewrite (Z.mod_eq z (2^64)) by discriminate. set (q := z / 2^64). clearbody q. split.
  - replace (z - 2^64 * q - z) with (- q * 2^64) by ring. apply Z.mod_mul. discriminate.
  - replace (z - 2^64 * q - z) with (- (2^32 * q) * 2^32) by ring. apply Z.mod_mul. discriminate.
Qed.
Lemma int_pay_proof D s v : match s with Y_int32 | Y_int64 | Y_uint32 | Y_uint64 | Y_bool => True | _ => False end ->
  wt D v (TScalar (go_kind s)) = true -> exists u, pay s v = PVar u /\ (u < 2^64)%N /\ int_value s u v.
Proof.
  intros Hs Hw. destruct s; try contradiction; cbn [go_kind] in Hw; wtd v; cbn [pay int_value]; cbn [wt] in Hw.
  - exists (in64 z). split; [reflexivity|]. split; [apply in64_bound|]. exists z. split; [reflexivity|]. split; [|apply in64_mod].
    unfold in_i32, Z31 in Hw. change (-2147483648 <= z < 2147483648). lia.
  - exists (in64 z). split; [reflexivity|]. split; [apply in64_bound|]. exists z. split; [reflexivity|]. split; [|apply in64_mod].
    unfold in_i64, Z63 in Hw. change (-9223372036854775808 <= z < 9223372036854775808). lia.
  - exists n. apply N.ltb_lt in Hw. split; [reflexivity|]. split; [apply (N.lt_trans _ (2^32)); [exact Hw|reflexivity]|]. rewrite N.mod_small by exact Hw. reflexivity.
  - exists n. apply N.ltb_lt in Hw. split; [reflexivity|]. split; [exact Hw|reflexivity].
  - exists (if b then 1%N else 0%N). split; [reflexivity|]. destruct b; split; reflexivity.
Qed.

(** A negative int32 takes ten bytes: it is written as the 64-bit number. *)
Lemma negative_proof z : -2^31 <= z < 0 -> pay Y_int32 (VI32 z) = PVar (Z.to_N (2^64 + z)) /\ length (ser_payload (pay Y_int32 (VI32 z))) = 10%nat.
Proof.
  intros H. change (2^31) with 2147483648 in H. change (2^64) with 18446744073709551616.
  assert (E : pay Y_int32 (VI32 z) = PVar (Z.to_N (18446744073709551616 + z))).
  { cbn [pay]. f_equal. unfold in64. change (2^64) with 18446744073709551616. f_equal. lia. }
  rewrite E. split; [reflexivity|]. cbn [ser_payload].
  assert (L : (length (vint (Z.to_N (18446744073709551616 + z))) <= 10)%nat) by (apply vint_length_64; change (2^64)%N with 18446744073709551616%N; lia).
  assert (G : (9 < length (vint (Z.to_N (18446744073709551616 + z))))%nat) by (apply vint_length_lb; change (128 ^ N.of_nat 9)%N with 9223372036854775808%N; lia).
  lia.
Qed.
