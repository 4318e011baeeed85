(** Property theorems about the cost of encoding (C78). [Size_counted] and
    [Marshal_counted] (Calls.v) are Size and Marshal with a counter of the calls
    of size and encode functions; [values x] (SpecCost.v) is the number of values
    a message consists of and [nesting x] the number of messages and maps that lie
    within each other. All declarations, messages and histories are meant. *)
From Coq Require Import String.
From Verif Require Import Base GoType Leaf Codec Walker Api Typing SpecMsg SpecCost Calls CallFacts RefuteCalls Sample WalkSeq.
Local Open Scope Z_scope.

(** The counter changes nothing. *)
Theorem counted_size : forall D s k x, snd (Size_counted D k x s) = fst (Size D (IPtr k (Some x)) s).
Proof. exact size_same_proof. Qed.
Print Assumptions counted_size.
Theorem counted_marshal : forall D s k x, snd (Marshal_counted D k x s) = fst (Marshal D (IPtr k (Some x)) s).
Proof. exact marshal_same_proof. Qed.
Print Assumptions counted_marshal.

(** Size is linear: no value is looked at twice. *)
Theorem size_linear : forall D s k x, reachable D s -> user_key D k = true -> 0 <= fst (Size_counted D k x s) < values x.
Proof. exact size_calls_proof. Qed.
Print Assumptions size_linear.
(** Marshal looks at a value once more for each message or map it is in. *)
Theorem marshal_nesting : forall D s k x, reachable D s -> user_key D k = true -> 0 <= fst (Marshal_counted D k x s) <= (1 + nesting x) * (values x - 1).
Proof. exact marshal_calls_proof. Qed.
Print Assumptions marshal_nesting.
(** A message with a list, a map and messages in it; one with two levels; a chain of 30. *)
Example calls_ex :
  (let x := VStruct person in
   values x = 43 /\ nesting x = 3 /\ fst (Size_counted sampleD (SNamed 0) x g_empty) = 35 /\ fst (Marshal_counted sampleD (SNamed 0) x g_empty) = 92) /\
  (let x := VStruct [VPtr (Some (VStruct [VPtr None]))] in
   values x = 4 /\ nesting x = 2 /\ fst (Size_counted chainD (SNamed 0) x g_empty) = 2 /\ fst (Marshal_counted chainD (SNamed 0) x g_empty) = 5) /\
  (values (chain 30) = 62 /\ nesting (chain 30) = 31 /\ fst (Size_counted chainD (SNamed 0) (chain 30) g_empty) = 31 /\ fst (Marshal_counted chainD (SNamed 0) (chain 30) g_empty) = 527).
Proof. vm_compute. repeat split. Qed.

(** So Marshal is not linear in the message and the output: for a chain of [n]
    messages it makes about n*n/2 calls. *)
Theorem marshal_linear_refuted : exists D k, forall K, exists x b,
  fst (Marshal D (IPtr k (Some x)) g_empty) = Returns (Some b, None) /\ fst (Marshal_counted D k x g_empty) > K * (values x + zlen b).
Proof. exact linear_refuted_proof. Qed.
Print Assumptions marshal_linear_refuted.
