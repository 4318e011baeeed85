(** Property theorems about varints, zigzag, fixed-width integers and tags. *)
From Verif Require Import Base Wire SpecWire WireFacts WireProofs.
Local Open Scope N_scope.

(** C01. [v] any uint64, appended to any prefix [p], followed by any [s]. *)
Theorem varint_roundtrip : forall (v : N) (p s : bytes), v < 2^64 ->
  appendVarint p v = p ++ vint v
  /\ decodeVarint (vint v ++ s) = (v, zlen (vint v), None)
  /\ (1 <= length (vint v) <= 10)%nat
  /\ (forall g, vvalue g = v -> vgroup g = Some (g, []) -> (length (vint v) <= length g)%nat).
Proof. exact varint_roundtrip_proof. Qed.
Print Assumptions varint_roundtrip.
Example varint_roundtrip_ex :
  appendVarint [7] 300 = [7; 172; 2] /\ decodeVarint [172; 2; 255] = (300, 2%Z, None).
Proof. vm_compute. split; reflexivity. Qed.

(** C02 *)
Theorem varint_size_exact : forall (v : N) (b : bytes), v < 2^64 ->
  sizeOfVarint v = (zlen (appendVarint b v) - zlen b)%Z.
Proof. exact varint_size_exact_proof. Qed.
Print Assumptions varint_size_exact.
Example varint_size_exact_ex : map sizeOfVarint [0; 127; 128; 2^63 - 1; 2^63; 2^64 - 1]
  = [1; 1; 2; 9; 10; 10]%Z.
Proof. vm_compute. reflexivity. Qed.

(** C03. On any byte string whatsoever. *)
Theorem varint_decoder_exact : forall b : bytes,
  match read_varint b with
  | VOk v n _ => decodeVarint b = (v, Z.of_nat n, None)
  | VEof => exists y, decodeVarint b = (y, zlen b, Some ErrUnexpectedEOF)
  | VOverflow n => decodeVarint b = (0, Z.of_nat (n - 1), Some ErrVarintOverflow)
  end.
Proof. exact decodeVarint_spec. Qed.
Print Assumptions varint_decoder_exact.
Example varint_decoder_exact_ex :
  decodeVarint [129; 128; 0; 9] = (1, 3%Z, None) /\                        (* overlong *)
  decodeVarint [255; 255] = (16383, 2%Z, Some ErrUnexpectedEOF) /\
  decodeVarint [255; 255; 255; 255; 255; 255; 255; 255; 255; 2] = (0, 9%Z, Some ErrVarintOverflow).
Proof. vm_compute. repeat split. Qed.

(** C04 *)
Theorem zigzag_bijection :
  (forall v : Z, (- 2^63 <= v < 2^63)%Z ->
     encodeZigZag64 v = (if v <? 0 then Z.to_N (-2 * v - 1) else Z.to_N (2 * v))%Z
     /\ encodeZigZag64 v < 2^64 /\ decodeZigZag64 (encodeZigZag64 v) = v) /\
  (forall n : N, n < 2^64 ->
     (- 2^63 <= decodeZigZag64 n < 2^63)%Z /\ encodeZigZag64 (decodeZigZag64 n) = n) /\
  (forall v : Z, (- 2^31 <= v < 2^31)%Z ->
     encodeZigZag64 v < 2^32 /\ s32 (decodeZigZag64 (encodeZigZag64 v)) = v).
Proof. exact zigzag_bijection_proof. Qed.
Print Assumptions zigzag_bijection.
Example zigzag_bijection_ex : map encodeZigZag64 [0; -1; 1; -2; 2147483647; -2147483648]%Z
  = [0; 1; 2; 3; 4294967294; 4294967295].
Proof. vm_compute. reflexivity. Qed.

(** C05 *)
Theorem fixed_roundtrip :
  (forall (v : N) (p s : bytes), v < 2^32 ->
     length (le_bytes 4 v) = 4%nat /\ encodeLE32 p v = p ++ le_bytes 4 v
     /\ decodeLE32 (le_bytes 4 v ++ s) = (v, 4%Z, None)) /\
  (forall (v : N) (p s : bytes), v < 2^64 ->
     length (le_bytes 8 v) = 8%nat /\ encodeLE64 p v = p ++ le_bytes 8 v
     /\ decodeLE64 (le_bytes 8 v ++ s) = (v, 8%Z, None)) /\
  (forall b : bytes, (length b < 4)%nat -> decodeLE32 b = (0, 0%Z, Some ErrUnexpectedEOF)) /\
  (forall b : bytes, (length b < 8)%nat -> decodeLE64 b = (0, 0%Z, Some ErrUnexpectedEOF)).
Proof. exact fixed_roundtrip_proof. Qed.
Print Assumptions fixed_roundtrip.
Example fixed_roundtrip_ex : encodeLE32 [9] 305419896 = [9; 120; 86; 52; 18].
Proof. vm_compute. reflexivity. Qed.

(** C35. Field numbers 1..2^29-1, any wire type 0..7. *)
Theorem tag_roundtrip : forall (f t : N) (p s : bytes), 1 <= f < 2^29 -> t < 8 ->
  exists g, appendTag p f t = p ++ g /\ decodeTag (g ++ s) = (f, t, zlen g, None)
  /\ (length g <= 5)%nat
  /\ (forall f' t', 1 <= f' < 2^29 -> t' < 8 -> appendTag p f' t' = p ++ g -> f' = f /\ t' = t).
Proof. exact tag_roundtrip_proof. Qed.
Print Assumptions tag_roundtrip.
Example tag_roundtrip_ex : appendTag [] 536870911 5 = [253; 255; 255; 255; 15] /\
  decodeTag [253; 255; 255; 255; 15; 1] = (536870911, 5, 5%Z, None).
Proof. vm_compute. split; reflexivity. Qed.
