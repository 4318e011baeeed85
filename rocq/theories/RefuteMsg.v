(** Witnesses: schemas and messages on which the library deviates from the
    specification of SpecMsg.v. *)
From Coq Require Import String.
From Verif Require Import Base Wire GoType Leaf Codec Tag Walker Api Resolve Typing SpecWire SpecMsg WalkSeq MsgApi Sample.
Local Open Scope N_scope.

(** [D] are well-formed Go types for [sch], [xs] a message of type 0. *)
Definition legal (D : decls) (sch : schema) (xs : list val) : Prop :=
  implements D sch = true /\ schema_ok sch = true /\ wts D (VStruct xs) (SNamed 0) = true.
(** Marshal succeeds and writes something other than the specified records. *)
Definition miswritten (D : decls) (sch : schema) (xs : list val) : Prop :=
  legal D sch xs /\ exists b, fst (Marshal D (ptr 0 xs) g_empty) = Returns (Some b, None) /\ b <> ser (message sch xs (msg sch 0)).
(** Marshal succeeds, and Unmarshal of the result reports an error. *)
Definition unreadable (D : decls) (sch : schema) (xs : list val) : Prop :=
  legal D sch xs /\ exists b x e, fst (Marshal D (ptr 0 xs) g_empty) = Returns (Some b, None) /\
    fst (Unmarshal D b (ptr 0 (zeros (msg sch 0))) g_empty) = Returns (x, Some e).
(** Marshal and Unmarshal succeed, with another message as the result. *)
Definition altered (D : decls) (sch : schema) (xs : list val) : Prop :=
  legal D sch xs /\ exists b ys, fst (Marshal D (ptr 0 xs) g_empty) = Returns (Some b, None) /\
    fst (Unmarshal D b (ptr 0 (zeros (msg sch 0))) g_empty) = Returns (ptr 0 ys, None) /\
    map norm ys <> map norm (kept_msg sch xs (msg sch 0)).
(** Unmarshal and the specification disagree on [b]: one accepts and the other
    does not, or the results differ. *)
Definition misread (D : decls) (sch : schema) (xs : list val) (b : bytes) : Prop :=
  legal D sch xs /\ bytes_okb b = true /\
  match fst (Unmarshal D b (ptr 0 xs) g_empty), merge sch (S (length b)) (msg sch 0) xs b with
  | Returns (IPtr _ (Some (VStruct ys)), None), MOk zs => map norm ys <> map norm zs
  | Returns (_, Some _), MOk _ | Returns (_, None), MBad => True
  | _, _ => False
  end.

Ltac legals := unfold miswritten, unreadable, altered, misread, legal; split; [split; [vm_compute; reflexivity|split; vm_compute; reflexivity]|].
Ltac written := legals; eexists; split; [vm_compute; reflexivity|vm_compute; discriminate].
Ltac unread := legals; eexists; eexists; eexists; split; [vm_compute; reflexivity|vm_compute; reflexivity].
Ltac alter := legals; eexists; eexists; split; [vm_compute; reflexivity|]; split; [vm_compute; reflexivity|vm_compute; discriminate].

(** sfixed32 and sfixed64: written as varints under a fixed-width tag. *)
Definition sfixedD : decls := [[sfield "fixed32,1,opt" (TScalar KInt32); sfield "fixed64,2,opt" (TOption KInt64)]].
Definition sfixed : schema := [[Field 1 (FImplicit Y_sfixed32); Field 2 (FOptional Y_sfixed64)]].
Lemma sfixed_miswritten : exists D xs, miswritten D sfixed xs.
Proof. exists sfixedD, [VI32 5; VOpt true (VI64 1)]. written. Qed.
Lemma sfixed_unreadable : exists D xs, unreadable D sfixed xs.
Proof. exists sfixedD, [VI32 5; VOpt true (VI64 1)]. unread. Qed.
Lemma sfixed_misread : exists D xs b, misread D sfixed xs b.
Proof. exists sfixedD, [VI32 0; VOpt false (VI64 0)], [13; 5; 0; 0; 0]. legals. split; vm_compute; auto. Qed.

(** repeated fixed32: likewise. *)
Definition repfixedD : decls := [[sfield "fixed32,1,rep" (TSlice (TScalar KUint32))]].
Definition repfixed : schema := [[Field 1 (FRepeated (FAlways Y_fixed32))]].
Lemma repfixed_miswritten : exists D xs, miswritten D repfixed xs.
Proof. exists repfixedD, [VSlice true [VU32 5] []]. written. Qed.
Lemma repfixed_unreadable : exists D xs, unreadable D repfixed xs.
Proof. exists repfixedD, [VSlice true [VU32 5] []]. unread. Qed.
Lemma repfixed_misread : exists D xs b, misread D repfixed xs b.
Proof. exists repfixedD, [VSlice false [] []], [13; 5; 0; 0; 0]. legals. split; vm_compute; auto. Qed.

(** An empty map is written as one empty entry, which reads back as an entry
    with zero key and value. *)
Definition emptymapD : decls := [[smap "bytes,1,rep" "bytes,1,opt" "bytes,2,opt" (TMap KString (TScalar KString))]].
Definition emptymap : schema := [[Field 1 (FMap Y_string (FAlways Y_string))]].
Lemma emptymap_miswritten : exists D xs, miswritten D emptymap xs.
Proof. exists emptymapD, [VMap None]. written. Qed.
Lemma emptymap_altered : exists D xs, altered D emptymap xs.
Proof. exists emptymapD, [VMap None]. alter. Qed.

(** The length prefix of an entry is computed with the key's codec. *)
Definition boolmapsD : decls := [[smap "bytes,1,rep" "varint,1,opt" "bytes,2,opt" (TMap KBool (TScalar KString))]].
Definition boolmaps : schema := [[Field 1 (FMap Y_bool (FAlways Y_string))]].
Lemma boolmap_miswritten : exists D xs, miswritten D boolmaps xs.
Proof. exists boolmapsD, [VMap (Some [(VBool true, VStr [65; 66])])]. written. Qed.
Lemma boolmap_unreadable : exists D xs, unreadable D boolmaps xs.
Proof. exists boolmapsD, [VMap (Some [(VBool true, VStr [65; 66])])]. unread. Qed.

(** The zigzag of a map value is applied when writing, not when reading. *)
Definition zigmapD : decls := [[smap "bytes,1,rep" "zigzag32,1,opt" "zigzag32,2,opt" (TMap KInt32 (TScalar KInt32))]].
Definition zigmap : schema := [[Field 1 (FMap Y_sint32 (FAlways Y_sint32))]].
Lemma zigmap_altered : exists D xs, altered D zigmap xs.
Proof. exists zigmapD, [VMap (Some [(VI32 1, VI32 1)])]. alter. Qed.
Lemma zigmap_misread : exists D xs b, misread D zigmap xs b.
Proof. exists zigmapD, [VMap None], [10; 4; 8; 2; 16; 2]. legals. split; vm_compute; [reflexivity|discriminate]. Qed.

(** A pointer to zero is not written. *)
Definition ptrzeroD : decls := [[sfield "varint,1,opt" (TPtr (TScalar KInt32))]].
Definition ptrzero : schema := [[Field 1 (FPointer Y_int32)]].
Lemma ptrzero_miswritten : exists D xs, miswritten D ptrzero xs.
Proof. exists ptrzeroD, [VPtr (Some (VI32 0))]. written. Qed.
Lemma ptrzero_altered : exists D xs, altered D ptrzero xs.
Proof. exists ptrzeroD, [VPtr (Some (VI32 0))]. alter. Qed.

(** A bool whose varint takes two bytes. *)
Definition boolsD : decls := [[sfield "varint,1,opt" (TScalar KBool)]].
Definition bools : schema := [[Field 1 (FImplicit Y_bool)]].
Lemma bool_misread : exists D xs b, covers D bools = true /\ misread D bools xs b.
Proof. exists boolsD, [VBool false], [8; 128; 1]. split; [reflexivity|]. legals. split; vm_compute; auto. Qed.
(** Malformed input accepted: the second byte of the varint 128, 8 is read as
    the next tag. *)
Lemma bool_desync_proof : exists D xs b ys, covers D bools = true /\ legal D bools xs /\
  merge bools (S (length b)) (msg bools 0) xs b = MBad /\
  fst (Unmarshal D b (ptr 0 xs) g_empty) = Returns (ptr 0 ys, None).
Proof. exists boolsD, [VBool false], [8; 128; 8; 0]. eexists. split; [reflexivity|]. legals. split; vm_compute; reflexivity. Qed.

Lemma bool_of_int_proof : exists D xs b x e, covers D bools = true /\ legal D bools xs /\ b = ser [(1, pay Y_int32 (VI32 128))] /\
  fst (Unmarshal D b (ptr 0 xs) g_empty) = Returns (x, Some e).
Proof. exists boolsD, [VBool false]. eexists. eexists. eexists. split; [reflexivity|]. legals. split; [vm_compute; reflexivity|vm_compute; reflexivity]. Qed.

(** Well-formed input without a record for field 2, which changes field 2:
    the second byte of the varint 129, 16 is read as a tag. *)
Definition boolintD : decls := [[sfield "varint,1,opt" (TScalar KBool); sfield "varint,2,opt" (TScalar KInt32)]].
Definition boolint : schema := [[Field 1 (FImplicit Y_bool); Field 2 (FImplicit Y_int32)]].
Lemma bool_touches_proof : exists D sch xs b zs ys, covers D sch = true /\ legal D sch xs /\
  merge sch (S (length b)) (msg sch 0) xs b = MOk zs /\ nth_error (msg sch 0) 1 = Some (Field 2 (FImplicit Y_int32)) /\
  ~ In 2 (mentioned (S (length b)) b) /\
  fst (Unmarshal D b (ptr 0 xs) g_empty) = Returns (ptr 0 ys, None) /\ nth_error ys 1 <> nth_error xs 1.
Proof.
  exists boolintD, boolint, [VBool false; VI32 0], [8; 129; 16; 29; 8; 1; 8; 1], [VBool true; VI32 0], [VBool true; VI32 29].
  split; [reflexivity|]. legals. split; [vm_compute; reflexivity|]. split; [reflexivity|]. split; [vm_compute; intros [H|[H|[]]]; discriminate H|].
  split; [vm_compute; reflexivity|discriminate].
Qed.

(** A sint32 whose varint is 2^32 + 1. *)
Definition sintsD : decls := [[sfield "zigzag32,1,opt" (TScalar KInt32)]].
Definition sints : schema := [[Field 1 (FImplicit Y_sint32)]].
Lemma sint_misread : exists D xs b, covers D sints = true /\ misread D sints xs b.
Proof. exists sintsD, [VI32 0], [8; 129; 128; 128; 128; 16]. split; [reflexivity|]. legals. split; vm_compute; [reflexivity|discriminate]. Qed.

(** Packed repeated scalars, proto3's default, are rejected. *)
Definition packedD : decls := [[sfield "varint,1,rep,packed" (TSlice (TScalar KInt32))]].
Definition packed : schema := [[Field 1 (FRepeated (FAlways Y_int32))]].
Lemma packed_proof : exists D xs, covers D packed = true /\ legal D packed xs /\
  fst (Unmarshal D [10; 2; 1; 2] (ptr 0 xs) g_empty) = Returns (ptr 0 xs, Some (UnmarshalFieldError 1 2 (ErrExpectedWireType 0))).
Proof. exists packedD, [VSlice false [] []]. split; [reflexivity|]. legals. vm_compute. reflexivity. Qed.

(** Slots between length and capacity: two targets that differ only there. *)
Definition spareD : decls := [[sfield "bytes,1,rep" (TSlice (TMsg 1))]; [sfield "varint,1,opt" (TScalar KInt32)]].
Definition spare_sch : schema := [[Field 1 (FRepeated (FMessage 1))]; [Field 1 (FImplicit Y_int32)]].
Lemma spare_proof : exists D sch xs1 xs2 b ys1 ys2, covers D sch = true /\ legal D sch xs1 /\ legal D sch xs2 /\
  map norm xs1 = map norm xs2 /\
  fst (Unmarshal D b (ptr 0 xs1) g_empty) = Returns (ptr 0 ys1, None) /\
  fst (Unmarshal D b (ptr 0 xs2) g_empty) = Returns (ptr 0 ys2, None) /\ map norm ys1 <> map norm ys2.
Proof.
  exists spareD, spare_sch, [VSlice true [] [VPtr (Some (VStruct [VI32 7]))]], [VSlice true [] [VPtr None]], [10; 0]. eexists. eexists.
  split; [reflexivity|]. split; [split; [|split]; vm_compute; reflexivity|]. split; [split; [|split]; vm_compute; reflexivity|]. split; [reflexivity|].
  split; [vm_compute; reflexivity|]. split; [vm_compute; reflexivity|]. vm_compute. discriminate.
Qed.
(** Such a target arises from a failed call: after Unmarshal of [bad] reports
    an error, the target shows an empty slice, and yet reading the empty message
    [10; 0] into it gives a message with contents. *)
Lemma stale_proof : exists D sch xs1 e ys, covers D sch = true /\
  fst (Unmarshal D [10; 3; 8; 7; 128] (ptr 0 (zeros (msg sch 0))) g_empty) = Returns (ptr 0 xs1, Some e) /\
  map norm xs1 = map norm (zeros (msg sch 0)) /\
  fst (Unmarshal D [10; 0] (ptr 0 xs1) g_empty) = Returns (ptr 0 ys, None) /\
  map norm ys = [VSlice true [VPtr (Some (VStruct [VI32 7]))] []].
Proof.
  exists spareD, spare_sch. eexists. eexists. eexists. split; [reflexivity|].
  split; [vm_compute; reflexivity|]. split; [vm_compute; reflexivity|]. split; [vm_compute; reflexivity|vm_compute; reflexivity].
Qed.
(** Two messages with the same encoding. *)
Lemma collide_proof : exists D sch xs ys b, covers D sch = true /\ legal D sch xs /\ legal D sch ys /\
  fst (Marshal D (ptr 0 xs) g_empty) = Returns (Some b, None) /\ fst (Marshal D (ptr 0 ys) g_empty) = Returns (Some b, None) /\
  map norm (kept_msg sch xs (msg sch 0)) <> map norm (kept_msg sch ys (msg sch 0)).
Proof.
  exists ptrzeroD, ptrzero, [VPtr (Some (VI32 0))], [VPtr None]. eexists. split; [reflexivity|].
  split; [split; [|split]; vm_compute; reflexivity|]. split; [split; [|split]; vm_compute; reflexivity|].
  split; [vm_compute; reflexivity|]. split; [vm_compute; reflexivity|]. vm_compute. discriminate.
Qed.

(** map<int32, int64> with the value 2^31: the entry's length prefix is 13
    instead of 8, and swallows the next field. *)
Definition longmapD : decls := [[smap "bytes,1,rep" "varint,1,opt" "varint,2,opt" (TMap KInt32 (TScalar KInt64)); sfield "bytes,2,opt" (TScalar KString)]].
Definition longmap : schema := [[Field 1 (FMap Y_int32 (FAlways Y_int64)); Field 2 (FImplicit Y_string)]].
Lemma cut_refuted_proof : exists D sch xs p q x e, covers D sch = true /\ legal D sch xs /\
  fst (Marshal D (ptr 0 xs) g_empty) = Returns (Some (p ++ q), None) /\ q <> [] /\
  fst (Unmarshal D p (ptr 0 (zeros (msg sch 0))) g_empty) = Returns (x, Some e) /\ err_cause e <> ErrUnexpectedEOF.
Proof.
  exists longmapD, longmap, [VMap (Some [(VI32 1, VI64 2147483648)]); VStr [65; 66; 67; 68]], [10; 13; 8; 1; 16; 128; 128; 128; 128; 8; 18; 4; 65; 66; 67], [68].
  eexists. eexists. split; [reflexivity|]. split; [split; [|split]; vm_compute; reflexivity|]. split; [vm_compute; reflexivity|]. split; [discriminate|].
  split; [vm_compute; reflexivity|discriminate].
Qed.
(** An empty map becomes a map with one entry. *)
Lemma unstable_proof : exists D sch xs b x b', covers D sch = true /\ legal D sch xs /\
  fst (Marshal D (ptr 0 xs) g_empty) = Returns (Some b, None) /\
  fst (Unmarshal D b (ptr 0 (zeros (msg sch 0))) g_empty) = Returns (x, None) /\
  fst (Marshal D x g_empty) = Returns (Some b', None) /\ b <> b'.
Proof.
  exists emptymapD, emptymap, [VMap None]. eexists. eexists. eexists. split; [reflexivity|]. split; [split; [|split]; vm_compute; reflexivity|].
  split; [vm_compute; reflexivity|]. split; [vm_compute; reflexivity|]. split; [vm_compute; reflexivity|]. vm_compute. discriminate.
Qed.
