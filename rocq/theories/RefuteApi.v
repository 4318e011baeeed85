(** Witnesses against properties that do not hold in general. *)
From Coq Require Import String.
From Verif Require Import Base Wire GoType Leaf Codec Tag Walker Api Resolve Typing SpecWire SpecMsg WalkSeq Sample.
Local Open Scope N_scope.

(** map[bool]string with one value of 200 bytes. *)
Definition boolmapD : decls := [[smap "bytes,1,rep" "varint,1,opt" "bytes,2,opt" (TMap KBool (TScalar KString))]].
Definition boolmap : val := VStruct [VMap (Some [(VBool true, VStr (repeat 65 200))])].
Lemma size_refuted_proof : exists D x b n, supported D = true /\ wts D x (SNamed 0) = true /\
  fst (Marshal D (IPtr (SNamed 0) (Some x)) g_empty) = Returns (Some b, None) /\
  fst (Size D (IPtr (SNamed 0) (Some x)) g_empty) = Returns n /\ n <> zlen b.
Proof.
  exists boolmapD, boolmap. eexists. eexists. split; [reflexivity|]. split; [reflexivity|].
  split; [vm_compute; reflexivity|]. split; [vm_compute; reflexivity|]. vm_compute. discriminate.
Qed.

(** A pointer to uint32 with a fixed32 tag: accepted, then read as another type. *)
Definition ptrfixedD : decls := [[sfield "fixed32,1,opt" (TPtr (TScalar KUint32))]].
Lemma unmarshal_refuted_proof : exists D x b, wts D x (SNamed 0) = true /\ bytes_okb b = true /\
  fst (Size D (IPtr (SNamed 0) None) g_empty) = Returns 0%Z /\
  fst (Unmarshal D b (IPtr (SNamed 0) (Some x)) g_empty) = Panics Confused.
Proof.
  exists ptrfixedD, (VStruct [VPtr None]), [13; 1; 2; 3; 4]. repeat split; vm_compute; reflexivity.
Qed.

(** type A struct { X *int32 `zigzag32,1`; B *B }; type B struct { Y *int32 `varint,1` }: what B is
    encoded as depends on whether A was marshalled before. *)
Definition historyD : decls :=
  [[sfield "zigzag32,1,opt" (TPtr (TScalar KInt32)); sfield "bytes,2,opt" (TMsg 1)];
   [sfield "varint,1,opt" (TPtr (TScalar KInt32))]].
Definition historyB : val := VStruct [VPtr (Some (VI32 1))].
Lemma history_refuted_proof : exists D s1 s2 x b1 b2, reachable D s1 /\ reachable D s2 /\ wts D x (SNamed 1) = true /\
  fst (Marshal D (IPtr (SNamed 1) (Some x)) s1) = Returns (Some b1, None) /\
  fst (Marshal D (IPtr (SNamed 1) (Some x)) s2) = Returns (Some b2, None) /\ b1 <> b2.
Proof.
  exists historyD, g_empty, (snd (Marshal historyD (IPtr (SNamed 0) None) g_empty)), historyB. eexists. eexists.
  split; [constructor|]. split; [apply reach_marshal; [constructor|reflexivity]|]. split; [reflexivity|].
  split; [vm_compute; reflexivity|]. split; [vm_compute; reflexivity|]. discriminate.
Qed.
(** The same field is written in two ways inside one process: alone, and as a
    field of A. *)
Lemma nested_refuted_proof : exists D x b1 b2, wts D x (SNamed 1) = true /\
  fst (Marshal D (IPtr (SNamed 1) (Some x)) g_empty) = Returns (Some b1, None) /\
  fst (Marshal D (IPtr (SNamed 0) (Some (VStruct [VPtr None; VPtr (Some x)]))) g_empty) = Returns (Some ([18; N.of_nat (length b2)] ++ b2), None) /\ b1 <> b2.
Proof.
  exists historyD, historyB, [8; 1], [8; 2]. split; [reflexivity|].
  split; [vm_compute; reflexivity|]. split; [vm_compute; reflexivity|]. discriminate.
Qed.
