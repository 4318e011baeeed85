(** Property theorems: the option that turns on field tracking. *)
From Verif Require Import Base SpecWire Tracked SpecTracked TrackedFacts.

(** C62. Options that are a message, with groups inside each other at most
    10001 deep as protobuf-go reads them: the last value of the option decides,
    wherever it is among other fields and however its varints are written;
    fields of that number inside groups do not count. *)
Theorem tracked_exact : forall b fs, bytes_ok b -> fields 10000 fs b -> isTrackedMessage b = Tracked (flag 37383685 fs).
Proof. exact tracked_proof. Qed.
Print Assumptions tracked_exact.
(** Other bytes make the plugin panic; it always ends. *)
Theorem tracked_panics : forall b, bytes_ok b -> (forall fs, ~ fields 10000 fs b) -> isTrackedMessage b = SlicePanic.
Proof. exact tracked_panics_proof. Qed.
Print Assumptions tracked_panics.
(** Off, then on, then a group with another value inside; the last tag is
    longer than needed. *)
Example tracked_ex :
  let t := vint (37383685 * 8) in let g := [43]%N ++ t ++ [0]%N ++ [44]%N in
  let long := [168; 224; 205; 142; 129; 0]%N in
  bytes_ok (t ++ [0] ++ g ++ long ++ [130; 0])%N /\ fields 10000 [(37383685, XVar 0); (5, XGroup [(37383685, XVar 0)]); (37383685, XVar 2)]%N (t ++ [0] ++ g ++ long ++ [130; 0])%N /\
  isTrackedMessage (t ++ [0] ++ g ++ long ++ [130; 0])%N = Tracked true /\ isTrackedMessage g = Tracked false /\
  isTrackedMessage (t ++ [1])%N = Tracked true /\ isTrackedMessage t = SlicePanic.
Proof.
  cbv zeta. split; [repeat constructor|]. split; [|repeat split; vm_compute; reflexivity].
  assert (V : forall b n, vgroup b = Some (b, []) -> (length b <=? 10)%nat = true -> (vvalue b =? n)%N = true -> (n <? 2^64)%N = true -> varint_bytes b n).
  { intros b n A B C D. split; [exact A|]. split; [apply Nat.leb_le, B|]. split; [apply N.eqb_eq, C|apply N.ltb_lt, D]. }
  apply (hv_cons _ _ _ 0%N (vint (37383685 * 8)) [0%N]); [split; vm_compute; congruence|apply V; reflexivity|constructor; apply V; reflexivity|].
  change (([43] ++ vint (37383685 * 8) ++ [0] ++ [44]) ++ [168; 224; 205; 142; 129; 0] ++ [130; 0])%N
    with ([43] ++ ((vint (37383685 * 8) ++ [0] ++ []) ++ [44]) ++ [168; 224; 205; 142; 129; 0] ++ [130; 0] ++ [])%N.
  apply (hv_cons _ _ _ 3%N); [split; vm_compute; congruence|apply V; reflexivity| |].
  - constructor; [discriminate| |apply V; reflexivity]. apply (hv_cons _ _ _ 0%N); [split; vm_compute; congruence|apply V; reflexivity|constructor; apply V; reflexivity|constructor].
  - apply (hv_cons _ _ _ 0%N); [split; vm_compute; congruence|apply V; reflexivity|constructor; apply V; reflexivity|constructor].
Qed.
