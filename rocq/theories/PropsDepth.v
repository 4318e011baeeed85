(** Property theorems about recursion depth (C30). [stack_unmarshal d D b k x s]
    (Depth.v) is Unmarshal of [b] into a pointer to the struct [x] of type [k] on
    a stack with room for [d] nested activations of structInfo.decode, and None
    if the stack overflows. *)
From Verif Require Import Base GoType Leaf Codec Walker Api SpecWire SpecMsg Sample MsgApi WalkSeq Depth SpecDepth DepthFacts.
Local Open Scope Z_scope.

(** Room for half as many nested messages as the input has bytes is enough, for
    all types, targets and inputs, well-formed or not. *)
Theorem depth_at_most_half : forall D b k x s d, (length b <= 2 * d)%nat ->
  stack_unmarshal d D b k x s = Some (Unmarshal D b (IPtr k (Some x)) s).
Proof. exact stack_half_proof. Qed.
Print Assumptions depth_at_most_half.
(** The bound is reached: 128 bytes, 64 nested messages. *)
Example depth_at_most_half_ex : let b := nest (repeat 4%N 64) in let x := VStruct (zeros (msg sample 0)) in
  length b = 128%nat /\ (exists y, fst (Unmarshal sampleD b (IPtr (SNamed 0) (Some x)) g_empty) = Returns (y, None)) /\
  stack_unmarshal 63 sampleD b (SNamed 0) x g_empty = None /\ stack_unmarshal 64 sampleD b (SNamed 0) x g_empty <> None.
Proof.
  cbv zeta. split; [vm_compute; reflexivity|]. split; [eexists; vm_compute; reflexivity|].
  split; [vm_compute; reflexivity|vm_compute; discriminate].
Qed.

(** A stack that is large enough makes no difference. *)
Theorem depth_stack_sound : forall D b k x s d r, stack_unmarshal d D b k x s = Some r ->
  r = Unmarshal D b (IPtr k (Some x)) s.
Proof. exact stack_sound_proof. Qed.
Print Assumptions depth_stack_sound.
Example depth_stack_sound_ex : let x := VStruct (zeros (msg sample 0)) in
  exists r, stack_unmarshal 2 sampleD (nest [4; 4]%N) (SNamed 0) x g_empty = Some r /\
    stack_unmarshal 1 sampleD (nest [4; 4]%N) (SNamed 0) x g_empty = None /\
    match fst r with Returns (IPtr _ (Some (VStruct ys)), None) => nth_error ys 3 <> nth_error (zeros (msg sample 0)) 3 | _ => False end.
Proof. cbv zeta. eexists. split; [vm_compute; reflexivity|]. split; [vm_compute; reflexivity|]. cbn. discriminate. Qed.

(** No constant depth is enough: if a message type [m] contains itself through
    the fields numbered [p] (message or repeated message fields), then for every
    [d] there is an input of at most 20 * (d + 1) * |p| bytes that Unmarshal
    accepts and that overflows a stack with room for [d] nested messages. *)
Theorem no_depth_limit : forall D sch, covers D sch = true -> forall s m p, reachable D s ->
  p <> [] -> follow sch m p = Some m -> forall d, 20 * (Z.of_nat (S d) * zlen p) < 2^63 ->
  exists b xs, zlen b <= 20 * (Z.of_nat (S d) * zlen p) /\
    fst (Unmarshal D b (ptr m (zeros (msg sch m))) s) = Returns (ptr m xs, None) /\
    stack_unmarshal d D b (SNamed m) (VStruct (zeros (msg sch m))) s = None.
Proof. exact no_depth_limit_proof. Qed.
Print Assumptions no_depth_limit.
Example no_depth_limit_ex : covers sampleD sample = true /\ follow sample 0 [4%N] = Some 0%nat.
Proof. split; vm_compute; reflexivity. Qed.
