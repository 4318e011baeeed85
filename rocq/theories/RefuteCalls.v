(** The size of a message is computed again at every level: encoding a chain of
    messages is quadratic. *)
From Coq Require Import String ZifyBool ZifyNat ZifyN.
From Verif Require Import Base Wire GoType Leaf Codec Tag Walker Api Typing WireFacts SpecCost Calls CostFacts CallFacts Sample WalkSeq.
Local Open Scope Z_scope.

(** type M struct { A *M `protobuf:"bytes,1,opt"` } *)
Definition chainD : decls := [[sfield "bytes,1,opt" (TMsg 0)]].
Fixpoint chain (n : nat) : val := VStruct [VPtr match n with O => None | S n => Some (chain n) end].
Lemma chain_values n : values (chain n) = 2 * Z.of_nat n + 2.
Proof. induction n as [|n IH]; [reflexivity|]. cbn [chain values map]. rewrite total_cons, IH. change (total []) with 0. lia. Qed.

Section Chain.
Context {R I : Type}.
Variable look : R -> cbody R I.
Variable iget : I -> sinfo R.
Variables (c : R) (k : skey) (i : I) (f : Codec.sfield R).
Hypothesis Hc : look c = BStruct k i.
Hypothesis Hi : i_fields (iget i) = [f].
Hypothesis Hf : f_idx f = O.
Hypothesis Hfc : f_codec f = c.
Hypothesis Ht : (wiretag (f_meta f) < 2^64)%N.
Lemma chain_sizes n : sizes_calls look iget i (chain n) = Z.of_nat n + 1.
Proof.
  induction n as [|n IH].
  - unfold sizes_calls. rewrite Hi. cbn [map]. rewrite Hf, Hfc. cbn [get_field chain nth_error size_calls]. rewrite Hc. reflexivity.
  - unfold sizes_calls. rewrite Hi. cbn [map]. rewrite Hf, Hfc. cbn [get_field chain nth_error size_calls]. rewrite Hc. rewrite sizes_subs in IH. cbv zeta. fold chain.
    rewrite total_cons. change (total []) with 0. match goal with |- 1 + ?T + 0 = _ => assert (T = Z.of_nat n + 1) by exact IH end. lia.
Qed.
Lemma chain_encs n : 2 * encs_calls look iget i (chain n) = (Z.of_nat n + 1) * (Z.of_nat n + 2).
Proof.
  induction n as [|n IH].
  - unfold encs_calls. rewrite Hi. cbn [map]. rewrite Hf, Hfc. cbn [get_field chain nth_error enc_calls]. rewrite Hc. reflexivity.
  - unfold encs_calls. rewrite Hi. cbn [map]. rewrite Hf, Hfc. cbn [get_field chain nth_error enc_calls]. rewrite Hc. rewrite encs_subs in IH. cbv zeta. fold chain.
    rewrite chain_sizes. rewrite total_cons. change (total []) with 0.
    match goal with |- 2 * (1 + (_ + ?T) + 0) = _ => assert (2 * T = (Z.of_nat n + 1) * (Z.of_nat n + 2)) by exact IH end. lia.
Qed.
Lemma fields_size_ext (g h : nat -> option (R -> fmeta -> res Z)) fs : (forall j, g j = h j) -> fields_size g fs = fields_size h fs.
Proof. intros E. induction fs as [|x fs IH]; [reflexivity|]. cbn [fields_size]. rewrite E, IH. reflexivity. Qed.
Lemma fields_encode_ext (g h : nat -> option (bytes -> R -> fmeta -> res bytes)) fs : (forall j, g j = h j) -> forall b, fields_encode g b fs = fields_encode h b fs.
Proof. intros E. induction fs as [|x fs IH]; intros b; [reflexivity|]. cbn [fields_encode]. rewrite E. destruct (match h (f_idx x) with Some g0 => g0 b (f_codec x) (f_meta x) | None => CR Confused end); [apply IH|reflexivity]. Qed.
Lemma sz_msg x m : sz look iget (VPtr (Some x)) c m = (n <- struct_size look iget i x ;; OK (n + (sizeOfVarint (u64 n) + tagsize m))).
Proof.
  cbn [sz]. rewrite Hc. cbv zeta. unfold struct_size. f_equal. apply fields_size_ext. intros j.
  destruct x; cbn [get_field option_map]; try (destruct j; reflexivity). rewrite nth_error_map. reflexivity.
Qed.
Lemma enc_msg x b m : enc look iget (VPtr (Some x)) b c m =
  (n <- struct_size look iget i x ;; struct_encode look iget i (appendVarint (appendVarint b (wiretag m)) (u64 n)) x).
Proof.
  cbn [enc]. rewrite Hc. cbv zeta. destruct (struct_size look iget i x) as [n|]; [|reflexivity]. cbn [rbind]. unfold struct_encode. apply fields_encode_ext. intros j.
  destruct x; cbn [get_field option_map]; try (destruct j; reflexivity). rewrite nth_error_map. reflexivity.
Qed.
Lemma chain_struct_size n : exists z, struct_size look iget i (chain n) = OK z.
Proof.
  induction n as [|n [z IH]].
  - unfold struct_size. rewrite Hi. cbn [fields_size get_field chain nth_error]. rewrite Hf, Hfc. cbn [get_field nth_error option_map sz]. rewrite Hc. eexists. reflexivity.
  - unfold struct_size. rewrite Hi. cbn [fields_size]. rewrite Hf, Hfc. cbn [get_field chain nth_error option_map]. fold chain. rewrite sz_msg, IH. eexists. reflexivity.
Qed.
Lemma chain_encode n : forall b, exists r, struct_encode look iget i b (chain n) = OK r /\ zlen r <= zlen b + 20 * Z.of_nat n.
Proof.
  induction n as [|n IH]; intros b.
  - unfold struct_encode. rewrite Hi. cbn [fields_encode]. rewrite Hf, Hfc. cbn [get_field chain nth_error option_map enc]. rewrite Hc. eexists. split; [reflexivity|]. lia.
  - destruct (chain_struct_size n) as [z Hz]. unfold struct_encode. rewrite Hi. cbn [fields_encode]. rewrite Hf, Hfc. cbn [get_field chain nth_error option_map]. fold chain. rewrite enc_msg, Hz. cbn [rbind].
    destruct (IH (appendVarint (appendVarint b (wiretag (f_meta f))) (u64 z))) as (r & -> & L). exists r. split; [reflexivity|].
    pose proof (u64_lt z). rewrite !appendVarint_len in L by assumption. pose proof (sizeOfVarint_pos _ Ht). pose proof (sizeOfVarint_pos (u64 z) ltac:(assumption)). lia.
Qed.
End Chain.

Lemma chain_marshal n : 2 * fst (Marshal_counted chainD (SNamed 0) (chain n) g_empty) = (Z.of_nat n + 1) * (Z.of_nat n + 4) /\
  exists b, fst (Marshal chainD (IPtr (SNamed 0) (Some (chain n))) g_empty) = Returns (Some b, None) /\ zlen b <= 20 * Z.of_nat n.
Proof.
  rewrite <- marshal_same_proof. unfold Marshal_counted, with_count.
  destruct (run (cachedStructInfoOf chainD (walk_fuel chainD) (SNamed 0)) g_empty) as [r s'] eqn:E. vm_compute in E. inversion E; subst r s'. clear E.
  match goal with |- context [hlook ?S] => set (s := S) end.
  set (f := Build_sfield cref 0 {| wiretag := 10; tagsize := 1 |} (CCell 0)).
  destruct (marshal_counts (hlook s) (higet s) 0%nat (chain n)) as (C1 & C2 & C3).
  destruct (chain_struct_size (hlook s) (higet s) (CCell 0) (SNamed 0) 0%nat f eq_refl eq_refl eq_refl eq_refl n) as [z Hz].
  destruct (chain_encode (hlook s) (higet s) (CCell 0) (SNamed 0) 0%nat f eq_refl eq_refl eq_refl eq_refl eq_refl n []) as (b & Hb & L).
  rewrite Hz, Hb in *. cbn [rbind] in *. destruct (cbind _ _) as [m r]. cbn [fst snd] in *. subst r. split.
  - rewrite C3. rewrite (chain_sizes (hlook s) (higet s) (CCell 0) (SNamed 0) 0%nat f) by reflexivity.
    pose proof (chain_encs (hlook s) (higet s) (CCell 0) (SNamed 0) 0%nat f eq_refl eq_refl eq_refl eq_refl eq_refl n). lia.
  - exists b. split; [reflexivity|]. exact L.
Qed.
Lemma linear_refuted_proof : exists D k, forall K, exists x b,
  fst (Marshal D (IPtr k (Some x)) g_empty) = Returns (Some b, None) /\ fst (Marshal_counted D k x g_empty) > K * (values x + zlen b).
Proof.
  exists chainD, (SNamed 0). intros K. set (n := Z.to_nat (Z.abs K * 100)). destruct (chain_marshal n) as [W (b & H & L)].
  exists (chain n), b. split; [exact H|]. rewrite chain_values. assert (Hn : Z.of_nat n = Z.abs K * 100) by lia. rewrite Hn in *.
  pose proof (zlen_nonneg b).
  assert (K * (2 * (Z.abs K * 100) + 2 + zlen b) <= Z.abs K * (22 * (Z.abs K * 100) + 2)) by nia. nia.
Qed.
