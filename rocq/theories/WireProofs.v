(** Proofs of the theorems of PropsWire.v. *)
From Coq Require Import ZifyBool ZifyNat ZifyN.
From Verif Require Import Base Wire SpecWire WireFacts.
Local Open Scope N_scope.
Ltac Zify.zify_post_hook ::= Z.div_mod_to_equations.

Lemma vgroup_full_min g : vgroup g = Some (g, []) -> (length (vint (vvalue g)) <= length g)%nat.
Proof.
  intros H. pose proof (vvalue_bound g). pose proof (vint_length _ _ H0).
  destruct (vgroup_length _ _ _ H) as [_ Hg]. destruct g; [contradiction|]. cbn [length] in *. lia.
Qed.

Lemma varint_roundtrip_proof : forall (v : N) (p s : bytes), v < 2^64 ->
  appendVarint p v = p ++ vint v
  /\ decodeVarint (vint v ++ s) = (v, zlen (vint v), None)
  /\ (1 <= length (vint v) <= 10)%nat
  /\ (forall g, vvalue g = v -> vgroup g = Some (g, []) -> (length (vint v) <= length g)%nat).
Proof.
  intros v p s H. repeat split.
  - apply appendVarint_spec; assumption.
  - apply decodeVarint_vint; assumption.
  - pose proof (vint_nonempty v). destruct (vint v); [contradiction|cbn; lia].
  - apply vint_length_64; assumption.
  - intros g <- Hg. apply vgroup_full_min; assumption.
Qed.

Lemma varint_size_exact_proof : forall (v : N) (b : bytes), v < 2^64 ->
  sizeOfVarint v = (zlen (appendVarint b v) - zlen b)%Z.
Proof. intros. rewrite appendVarint_len by assumption. lia. Qed.

Lemma zigzag_bijection_proof :
  (forall v : Z, (- 2^63 <= v < 2^63)%Z ->
     encodeZigZag64 v = (if v <? 0 then Z.to_N (-2 * v - 1) else Z.to_N (2 * v))%Z
     /\ encodeZigZag64 v < 2^64 /\ decodeZigZag64 (encodeZigZag64 v) = v) /\
  (forall n : N, n < 2^64 ->
     (- 2^63 <= decodeZigZag64 n < 2^63)%Z /\ encodeZigZag64 (decodeZigZag64 n) = n) /\
  (forall v : Z, (- 2^31 <= v < 2^31)%Z ->
     encodeZigZag64 v < 2^32 /\ s32 (decodeZigZag64 (encodeZigZag64 v)) = v).
Proof.
  change (2^63)%Z with Z63. change (2^31)%Z with Z31. split; [|split].
  - intros v H. rewrite encodeZigZag64_spec by assumption. split; [reflexivity|].
    pose proof (zigzag_range v H). split; [assumption|].
    rewrite decodeZigZag64_spec by assumption. apply unzigzag_zigzag.
  - intros n H. rewrite decodeZigZag64_spec by assumption.
    pose proof (unzigzag_range n H). split; [assumption|].
    rewrite encodeZigZag64_spec by assumption. apply zigzag_unzigzag.
  - intros v H. assert (H' : (- Z63 <= v < Z63)%Z) by (unfold Z31, Z63 in *; lia).
    rewrite encodeZigZag64_spec by assumption. split.
    + unfold zigzag. change (2^32) with 4294967296. unfold Z31 in H. destruct (v <? 0)%Z; lia.
    + rewrite decodeZigZag64_spec by (apply zigzag_range; assumption).
      rewrite unzigzag_zigzag. apply s32_id; assumption.
Qed.

Lemma fixed_roundtrip_proof :
  (forall (v : N) (p s : bytes), v < 2^32 ->
     length (le_bytes 4 v) = 4%nat /\ encodeLE32 p v = p ++ le_bytes 4 v
     /\ decodeLE32 (le_bytes 4 v ++ s) = (v, 4%Z, None)) /\
  (forall (v : N) (p s : bytes), v < 2^64 ->
     length (le_bytes 8 v) = 8%nat /\ encodeLE64 p v = p ++ le_bytes 8 v
     /\ decodeLE64 (le_bytes 8 v ++ s) = (v, 8%Z, None)) /\
  (forall b : bytes, (length b < 4)%nat -> decodeLE32 b = (0, 0%Z, Some ErrUnexpectedEOF)) /\
  (forall b : bytes, (length b < 8)%nat -> decodeLE64 b = (0, 0%Z, Some ErrUnexpectedEOF)).
Proof.
  assert (F : forall k v s, firstn k (le_bytes k v ++ s) = le_bytes k v).
  { intros. rewrite firstn_app, le_bytes_length, Nat.sub_diag.
    rewrite <- (le_bytes_length k v) at 1. rewrite firstn_all, firstn_O, app_nil_r. reflexivity. }
  repeat split; intros.
  - apply encodeLE32_spec.
  - rewrite decodeLE32_spec, app_length, le_bytes_length.
    destruct (Nat.ltb_spec (4 + length s) 4); [lia|]. rewrite F, le_value_bytes by exact H. reflexivity.
  - apply encodeLE64_spec.
  - rewrite decodeLE64_spec, app_length, le_bytes_length.
    destruct (Nat.ltb_spec (8 + length s) 8); [lia|]. rewrite F, le_value_bytes by exact H. reflexivity.
  - rewrite decodeLE32_spec. destruct (Nat.ltb_spec (length b) 4); [reflexivity|lia].
  - rewrite decodeLE64_spec. destruct (Nat.ltb_spec (length b) 8); [reflexivity|lia].
Qed.

Lemma tag_roundtrip_proof : forall (f t : N) (p s : bytes), 1 <= f < 2^29 -> t < 8 ->
  exists g, appendTag p f t = p ++ g /\ decodeTag (g ++ s) = (f, t, zlen g, None)
  /\ (length g <= 5)%nat
  /\ (forall f' t', 1 <= f' < 2^29 -> t' < 8 -> appendTag p f' t' = p ++ g -> f' = f /\ t' = t).
Proof.
  intros f t p s Hf Ht. change (2^29) with 536870912 in *.
  assert (E : forall f t, f < 536870912 -> t < 8 -> mktag f t = 8 * f + t /\ 8 * f + t < 2^64).
  { intros. split; [apply mktag_spec|]; try assumption; pows; lia. }
  destruct (E f t) as [E1 E2]; [lia|assumption|].
  exists (vint (8 * f + t)). unfold appendTag, decodeTag. repeat split.
  - rewrite E1, appendVarint_spec by assumption. reflexivity.
  - rewrite decodeVarint_vint by assumption. rewrite tag_number_spec, tag_type_spec.
    f_equal. f_equal. f_equal; lia.
  - apply (vint_length _ 5). change (128 ^ N.of_nat 5) with 34359738368. lia.
  - destruct (E f' t') as [E1' E2']; [lia|assumption|].
    rewrite E1', appendVarint_spec in H1 by assumption. apply app_inv_head in H1.
    apply (f_equal vvalue) in H1. rewrite !vvalue_vint in H1. lia.
  - destruct (E f' t') as [E1' E2']; [lia|assumption|].
    rewrite E1', appendVarint_spec in H1 by assumption. apply app_inv_head in H1.
    apply (f_equal vvalue) in H1. rewrite !vvalue_vint in H1. lia.
Qed.
