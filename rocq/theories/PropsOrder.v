(** Property theorems about the order in which maps are visited (C21).
    [nSize]/[nMarshal D k x s r s'] (Order.v): on a pointer to [x] of type [k] in
    the state [s] of the caches, Size/Marshal may return [r], each loop over a map
    taking an order of its own. *)
From Coq Require Import Permutation String.
From Verif Require Import Base Wire GoType Leaf Codec Tag Walker Api Resolve Typing SpecWire SpecMsg SpecOrder WalkSeq MsgApi
  Order OrderFacts OrderAny OrderThms Sample RefuteMsg.
Local Open Scope N_scope.

(** Size has at most one result, whatever the declarations and the state. *)
Theorem size_any_order : forall D k x s s' n, nSize D k x s n s' <-> Size D (IPtr k (Some x)) s = (Returns n, s').
Proof. exact nsize_proof. Qed.
Print Assumptions size_any_order.
Example size_any_order_ex : exists n s', nSize sampleD (SNamed 0) (VStruct person) g_empty n s' /\ (n = 82)%Z.
Proof. exists 82%Z. eexists. split; [apply nsize_proof; vm_compute|]; reflexivity. Qed.

(** Two results of Marshal have the same length, and the same bytes in another
    order, whatever the declarations and the state. *)
Theorem marshal_same_length : forall D k x s s1 s2 b1 b2, nMarshal D k x s b1 s1 -> nMarshal D k x s b2 s2 ->
  Permutation b1 b2 /\ length b1 = length b2.
Proof. exact perm_proof. Qed.
Print Assumptions marshal_same_length.
(** Two different results of one call. *)
Example marshal_same_length_ex : exists s,
  nMarshal floatmapD (SNamed 0) pair1 g_empty [34; 4; 8; 1; 21; 7; 0; 0; 0; 34; 4; 8; 2; 21; 5; 0; 0; 0] s /\
  nMarshal floatmapD (SNamed 0) pair1 g_empty [34; 4; 8; 2; 21; 5; 0; 0; 0; 34; 4; 8; 1; 21; 7; 0; 0; 0] s.
Proof.
  exists (snd (Marshal floatmapD (IPtr (SNamed 0) (Some pair1)) g_empty)). split.
  - apply (nmarshal_all _ _ _ _ _ _ pair1); [constructor|]. vm_compute. reflexivity.
  - apply (nmarshal_all _ _ _ _ _ _ pair2); [|vm_compute; reflexivity].
    constructor. constructor; [|constructor; [constructor|constructor]]. eapply ro_map; [apply perm_swap|].
    repeat (constructor; [split; [reflexivity|constructor]|]). constructor.
Qed.

(** The results of Marshal are those of visiting all maps in the order of a list,
    for all rearrangements of the message. *)
Theorem marshal_orders : forall D, supported D = true -> forall k x s s' b, reachable D s -> user_key D k = true ->
  nMarshal D k x s b s' <-> exists y, reorder x y /\ Marshal D (IPtr k (Some y)) s = (Returns (Some b, None), s').
Proof. exact orders_proof. Qed.
Print Assumptions marshal_orders.
Example marshal_orders_ex : supported floatmapD = true /\ reorder pair1 pair2 /\ pair1 <> pair2.
Proof.
  split; [reflexivity|]. split; [|discriminate].
  constructor. constructor; [|constructor; [constructor|constructor]]. eapply ro_map; [apply perm_swap|].
  repeat (constructor; [split; [reflexivity|constructor]|]). constructor.
Qed.

(** Without a map of two or more entries there is one result. *)
Theorem marshal_deterministic : forall D, supported D = true -> forall k x s1 s2 s1' s2' b1 b2,
  reachable D s1 -> reachable D s2 -> user_key D k = true -> small x = true ->
  nMarshal D k x s1 b1 s1' -> nMarshal D k x s2 b2 s2' -> b1 = b2.
Proof. exact deterministic_proof. Qed.
Print Assumptions marshal_deterministic.
Example marshal_deterministic_ex : supported sampleD = true /\ small (VStruct kid) = true /\ small (VStruct person) = false.
Proof. repeat split. Qed.

(** Two results of Marshal differ by the order of entries of map fields, and
    Unmarshal reads messages that differ only by the order of map entries. *)
Theorem orders_decode_partial : forall D sch, covers D sch = true -> forall s1 s2 s3 s4 s1' s2' m xs b1 b2,
  reachable D s1 -> reachable D s2 -> reachable D s3 -> reachable D s4 ->
  wts D (VStruct xs) (SNamed m) = true -> encodable_msg sch xs (msg sch m) = true -> (zlen (ser (message sch xs (msg sch m))) < 2^63)%Z ->
  nMarshal D (SNamed m) (VStruct xs) s1 b1 s1' -> nMarshal D (SNamed m) (VStruct xs) s2 b2 s2' ->
  exists rs1 rs2 zs1 zs2, b1 = ser rs1 /\ b2 = ser rs2 /\ shuffle sch (msg sch m) rs1 rs2 /\
    fst (Unmarshal D b1 (ptr m (zeros (msg sch m))) s3) = Returns (ptr m zs1, None) /\
    fst (Unmarshal D b2 (ptr m (zeros (msg sch m))) s4) = Returns (ptr m zs2, None) /\
    reorder (VStruct (map norm zs1)) (VStruct (map norm zs2)).
Proof. exact orders_decode_proof. Qed.
Print Assumptions orders_decode_partial.
Example orders_decode_ex : covers sampleD sample = true /\ wts sampleD (VStruct person) (SNamed 0) = true /\
  encodable_msg sample person (msg sample 0) = true /\ zlen (ser (message sample person (msg sample 0))) = 82%Z /\
  exists b s, nMarshal sampleD (SNamed 0) (VStruct person) g_empty b s.
Proof.
  split; [vm_compute; reflexivity|]. split; [vm_compute; reflexivity|]. split; [vm_compute; reflexivity|]. split; [vm_compute; reflexivity|].
  eexists. eexists. eapply nmarshal_all; [apply ro_same|]. vm_compute. reflexivity.
Qed.
(** Map values framed with a wrong length: one order is read without error, the
    other is rejected. *)
Theorem orders_decode_refuted : exists D sch xs b1 b2 s zs y e, legal D sch xs /\
  nMarshal D (SNamed 0) (VStruct xs) g_empty b1 s /\ nMarshal D (SNamed 0) (VStruct xs) g_empty b2 s /\
  fst (Unmarshal D b1 (ptr 0 (zeros (msg sch 0))) g_empty) = Returns (ptr 0 zs, None) /\
  fst (Unmarshal D b2 (ptr 0 (zeros (msg sch 0))) g_empty) = Returns (y, Some e).
Proof. exact orders_refuted_proof. Qed.
Print Assumptions orders_decode_refuted.
