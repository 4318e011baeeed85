(** Property theorems about the cost of decoding (C77). [mem x] (SpecCost.v) is
    the number of bytes a message occupies, everything it points to included,
    [per_byte D] a number that depends on the declarations alone, and
    [unmarshal_work D b k x s] (Cost.v) what Unmarshal of [b] into a pointer to
    the struct [x] of type [k] does in state [s], counted by [Unmarshal_counted]: the number of calls of decode
    functions and of rounds of their loops, plus the number of bytes allocated.
    All declarations, targets, histories and inputs are meant, whatever the
    call answers. *)
From Coq Require Import String.
From Verif Require Import Base GoType Leaf Codec Walker Api Typing SpecMsg SpecCost Cost CostFacts RefuteCost Sample RefuteApi WalkSeq.
Local Open Scope Z_scope.

(** The counter changes nothing. *)
Theorem counted_unmarshal : forall D b k x s, snd (Unmarshal_counted D b k x s) = fst (Unmarshal D b (IPtr k (Some x)) s).
Proof. exact unmarshal_same_proof. Qed.
Print Assumptions counted_unmarshal.

(** The message occupies at most ten times what it did plus a constant for each
    byte of input, also when decoding stops with an error. *)
Theorem memory_linear : forall D s k b x y e, reachable D s -> user_key D k = true -> zlen b < 2^63 ->
  fst (Unmarshal D b (IPtr k (Some x)) s) = Returns (IPtr k (Some y), e) ->
  mem y <= 10 * mem x + per_byte D * zlen b.
Proof. exact memory_proof. Qed.
Print Assumptions memory_linear.
(** 500 empty messages, 1000 bytes, into an empty message: 93 bytes for each byte. *)
Example memory_linear_ex : let b := flat_map (fun _ => [34; 0]%N) (seq 0 500) in let x := VStruct (zeros (msg sample 0)) in
  zlen b = 1000 /\ mem x = 176 /\ per_byte sampleD = 2730 /\
  exists y, fst (Unmarshal sampleD b (IPtr (SNamed 0) (Some x)) g_empty) = Returns (IPtr (SNamed 0) (Some y), None) /\ mem y = 93296.
Proof.
  cbv zeta. split; [vm_compute; reflexivity|]. split; [vm_compute; reflexivity|]. split; [vm_compute; reflexivity|].
  eexists. split; vm_compute; reflexivity.
Qed.
(** Input that is cut off: the message has grown all the same. *)
Example memory_error_ex : let x := VStruct (zeros (msg sample 0)) in
  exists y e, fst (Unmarshal sampleD [34; 0; 34; 1]%N (IPtr (SNamed 0) (Some x)) g_empty) = Returns (IPtr (SNamed 0) (Some y), Some e) /\ mem x < mem y.
Proof. cbv zeta. do 2 eexists. split; [vm_compute; reflexivity|vm_compute; reflexivity]. Qed.

(** So does everything that is allocated on the way, and the time: it is
    proportional to the input and to the target. This holds of calls that panic,
    too. *)
Theorem work_linear : forall D s k b x, reachable D s -> user_key D k = true -> zlen b < 2^63 ->
  unmarshal_work D b k x s <= 10 * mem x + per_byte D * zlen b.
Proof. exact work_proof. Qed.
Print Assumptions work_linear.
Theorem work_and_memory : forall D s k b x y e, reachable D s -> user_key D k = true -> zlen b < 2^63 ->
  fst (Unmarshal D b (IPtr k (Some x)) s) = Returns (IPtr k (Some y), e) ->
  unmarshal_work D b k x s + mem y <= 10 * mem x + per_byte D * zlen b.
Proof. exact cost_proof. Qed.
Print Assumptions work_and_memory.
(** A map entry: the map with room for 10, the entry struct and the entry, 40
    bytes each, the key and the value, 3 bytes, and 8 calls and rounds. *)
Example work_linear_ex : let x := VStruct (zeros (msg sample 0)) in
  unmarshal_work sampleD [42; 7; 10; 1; 107; 18; 2; 118; 118]%N (SNamed 0) x g_empty = 10 * 40 + 40 + 40 + 3 + 8 /\
  unmarshal_work ptrfixedD [13; 1; 2; 3; 4]%N (SNamed 0) (VStruct [VPtr None]) g_empty = 2 /\
  fst (Unmarshal ptrfixedD [13; 1; 2; 3; 4]%N (IPtr (SNamed 0) (Some (VStruct [VPtr None]))) g_empty) = Panics Confused.
Proof. vm_compute. repeat split. Qed.

(** Without the target the bound would be wrong: a full slice is doubled when
    one element is added. *)
Theorem memory_additive_refuted : exists D k, forall K, exists b x y,
  fst (Unmarshal D b (IPtr k (Some x)) g_empty) = Returns (IPtr k (Some y), None) /\ mem y > mem x + K * zlen b.
Proof. exact additive_refuted_proof. Qed.
Print Assumptions memory_additive_refuted.
