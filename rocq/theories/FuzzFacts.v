(** The fuzz targets of the repository, for all arguments. *)
From Coq Require Import String.
From Verif Require Import Base Wire GoType Leaf Codec Tag Walker Api Typing WireFacts Resolve WalkInv WalkSeq SpecWire SpecTag SpecMsg SpecExact ExactThms MsgApi Sample RepoTests.
Local Open Scope N_scope.

Local Open Scope Z_scope.
Lemma rec_len n d : (n < 100)%N -> zlen d < 2^63 -> zlen (ser [(n, PLen d)]) <= zlen d + 20.
Proof.
  intros Hn Hd. unfold ser. cbn [map concat]. rewrite app_nil_r. change (ser_rec (n, PLen d)) with (vint (8 * n + 2) ++ vint (N.of_nat (length d)) ++ d)%list. unfold zlen in *. rewrite !app_length.
  assert (A : (8 * n + 2 < 2^64)%N) by (change (2^64)%N with 18446744073709551616%N; lia).
  assert (B : (N.of_nat (length d) < 2^64)%N) by (change (2^64)%N with 18446744073709551616%N; change (2^63) with 9223372036854775808 in Hd; lia).
  pose proof (vint_length_64 _ A). pose proof (vint_length_64 _ B). lia.
Qed.
Lemma var_len n u : (n < 100)%N -> (u < 2^64)%N -> zlen (ser [(n, PVar u)]) <= 20.
Proof.
  intros Hn Hu. unfold ser. cbn [map concat]. rewrite app_nil_r. change (ser_rec (n, PVar u)) with (vint (8 * n + 0) ++ vint u)%list. unfold zlen. rewrite !app_length.
  assert (A : (8 * n + 0 < 2^64)%N) by (change (2^64)%N with 18446744073709551616%N; lia).
  pose proof (vint_length_64 _ A). pose proof (vint_length_64 _ Hu). lia.
Qed.
Lemma ser_app a b : ser (a ++ b) = (ser a ++ ser b)%list.
Proof. unfold ser. rewrite map_app, concat_app. reflexivity. Qed.
Lemma in64_64 z : (in64 z < 2^64)%N.
Proof. unfold in64. change (2^64) with 18446744073709551616. change (2^64)%N with 18446744073709551616%N. lia. Qed.

Lemma fuzz1_proof s1 s2 i j s : reachable proto2D s1 -> reachable proto2D s2 ->
  -2^31 <= i < 2^31 -> -2^63 <= j < 2^63 -> bytes_okb s = true -> zlen s < 2^62 ->
  exists b, fst (Marshal proto2D (ptr 0 (fuzz1_input i j s)) s1) = Returns (Some b, None) /\
    fst (Unmarshal proto2D b (ptr 0 (zeros (msg proto2 0))) s2) = Returns (ptr 0 (fuzz1_input i j s), None).
Proof.
  intros R1 R2 Hi Hj Hb Hl.
  assert (HV : covers proto2D proto2 = true) by (vm_compute; reflexivity).
  assert (HF : all_singular proto2 = true) by reflexivity.
  apply (roundtrip_singular_proof proto2D proto2 HV HF); try assumption; try reflexivity.
  - cbn -[in_i32 in_i64]. rewrite Hb.
    replace (in_i32 i) with true by (unfold in_i32, Z31; change (2^31) with 2147483648 in Hi; lia).
    replace (in_i64 j) with true by (unfold in_i64, Z63; change (2^63) with 9223372036854775808 in Hj; lia). reflexivity.
  - assert (E : message proto2 (fuzz1_input i j s) (msg proto2 0) = [(14%N, PLen (ser ([(1%N, PVar (in64 i))] ++ [(2%N, PVar (in64 j))] ++ [(3%N, PLen s)])))]) by reflexivity.
    rewrite E. change (2^62) with 4611686018427387904 in Hl. change (2^63) with 9223372036854775808.
    pose proof (var_len 1 (in64 i) eq_refl (in64_64 i)). pose proof (var_len 2 (in64 j) eq_refl (in64_64 j)).
    pose proof (rec_len 3 s eq_refl ltac:(change (2^63) with 9223372036854775808; lia)).
    rewrite !ser_app. set (d := (ser _ ++ ser _ ++ ser _)%list).
    assert (L : zlen d <= zlen s + 60). { unfold d, zlen in *. rewrite !app_length. lia. }
    pose proof (rec_len 14 d eq_refl ltac:(change (2^63) with 9223372036854775808; lia)). lia.
Qed.

Lemma nested_len (s d : bytes) : zlen s < 2^62 -> zlen d < 2^62 -> 
  zlen (ser ((if is_zero (VStr s) then [] else [(1%N, PLen s)]) ++ [(2%N, PLen d)])) <= zlen s + zlen d + 40.
Proof.
  intros Hs Hd. change (2^62) with 4611686018427387904 in *.
  pose proof (rec_len 1 s eq_refl ltac:(change (2^63) with 9223372036854775808; lia)).
  pose proof (rec_len 2 d eq_refl ltac:(change (2^63) with 9223372036854775808; lia)).
  rewrite ser_app. unfold zlen in *. rewrite app_length. destruct (is_zero _); [change (length (ser [])) with 0%nat|]; lia.
Qed.
Lemma fuzz_nested_proof g1 g2 s s1 s2 s3 s4 : reachable nestedD g1 -> reachable nestedD g2 ->
  forallb bytes_okb [s; s1; s2; s3; s4] = true -> zlen s + zlen s1 + zlen s2 + zlen s3 + zlen s4 < 2^61 ->
  exists b, fst (Marshal nestedD (ptr 0 (nested_input s s1 s2 s3 s4)) g1) = Returns (Some b, None) /\
    fst (Unmarshal nestedD b (ptr 0 (zeros (msg nested 0))) g2) = Returns (ptr 0 (nested_input s s1 s2 s3 s4), None).
Proof.
  intros R1 R2 Hb Hl.
  assert (HV : covers nestedD nested = true) by (vm_compute; reflexivity).
  assert (HF : all_singular nested = true) by reflexivity.
  apply (roundtrip_singular_proof nestedD nested HV HF); try assumption; try reflexivity.
  - cbn [forallb] in Hb. repeat (apply andb_true_iff in Hb; destruct Hb as [? Hb]). cbn. repeat (apply andb_true_iff; split); try assumption; reflexivity.
  - set (r := fun s : bytes => if is_zero (VStr s) then [] else [(1%N, PLen s)]).
    assert (E : message nested (nested_input s s1 s2 s3 s4) (msg nested 0) =
      (r s ++ [(2%N, PLen (ser (r s1 ++ [(2%N, PLen (ser (r s2 ++ [(2%N, PLen (ser (r s3 ++ [(2%N, PLen (ser (r s4 ++ [])))])))])))])))])%list) by reflexivity.
    rewrite E, app_nil_r. clear E. change (2^61) with 2305843009213693952 in Hl.
    pose proof (zlen_nonneg s). pose proof (zlen_nonneg s1). pose proof (zlen_nonneg s2). pose proof (zlen_nonneg s3). pose proof (zlen_nonneg s4).
    set (d4 := ser (r s4)). assert (L4 : zlen d4 <= zlen s4 + 20).
    { unfold d4, r. destruct (is_zero (VStr s4)); [cbn; lia|]. apply rec_len; [reflexivity|change (2^63) with 9223372036854775808; lia]. }
    pose proof (nested_len s3 d4 ltac:(change (2^62) with 4611686018427387904; lia) ltac:(change (2^62) with 4611686018427387904; lia)) as L3.
    fold (r s3) in L3. set (d3 := ser (r s3 ++ [(2%N, PLen d4)])) in *.
    pose proof (nested_len s2 d3 ltac:(change (2^62) with 4611686018427387904; lia) ltac:(change (2^62) with 4611686018427387904; lia)) as L2.
    fold (r s2) in L2. set (d2 := ser (r s2 ++ [(2%N, PLen d3)])) in *.
    pose proof (nested_len s1 d2 ltac:(change (2^62) with 4611686018427387904; lia) ltac:(change (2^62) with 4611686018427387904; lia)) as L1.
    fold (r s1) in L1. set (d1 := ser (r s1 ++ [(2%N, PLen d2)])) in *.
    pose proof (nested_len s d1 ltac:(change (2^62) with 4611686018427387904; lia) ltac:(change (2^62) with 4611686018427387904; lia)) as L0.
    fold (r s) in L0. change (2^63) with 9223372036854775808. lia.
Qed.

(** An empty slice that is not nil is not restored. *)
Lemma empty_slice_lost : exists D sch xs ys, covers D sch = true /\ wts D (VStruct xs) (SNamed 0) = true /\
  encodable_msg sch xs (msg sch 0) = true /\ intact_msg sch xs (msg sch 0) /\
  fst (Marshal D (ptr 0 xs) g_empty) = Returns (Some [], None) /\
  fst (Unmarshal D [] (ptr 0 (zeros (msg sch 0))) g_empty) = Returns (ptr 0 ys, None) /\ map shown ys <> map shown xs.
Proof.
  exists [[ sfield "varint,1,rep" (TSlice (TScalar KInt32)) ]], [[ Field 1 (FRepeated (FAlways Y_int32)) ]], [VSlice true [] []], [VSlice false [] []].
  repeat split; try (vm_compute; reflexivity). discriminate.
Qed.
