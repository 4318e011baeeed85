(** Fields that do not come back from a program with another version of the schema. *)
From Coq Require Import String.
From Verif Require Import Base Wire GoType Leaf Codec Tag Walker Api Typing WalkInv WalkSeq SpecWire SpecTag SpecMsg SpecExact SpecVersions SpecRelay Sample RefuteMsg MsgApi.
Local Open Scope N_scope.

(** An optional field and a wide one, of which the other program has a plain and a narrow one. *)
Definition wideD : decls := [[sfield "varint,1,opt" (TOption KInt32); sfield "varint,2,opt" (TScalar KInt64); sfield "varint,3,rep" (TSlice (TScalar KInt64))]].
Definition wideS : schema := [[Field 1 (FOptional Y_int32); Field 2 (FImplicit Y_int64); Field 3 (FRepeated (FAlways Y_int64))]].
Definition narrowD : decls := [[sfield "varint,1,opt" (TScalar KInt32); sfield "varint,2,opt" (TScalar KUint32); sfield "varint,3,opt" (TScalar KInt64)]].
Definition narrowS : schema := [[Field 1 (FImplicit Y_int32); Field 2 (FImplicit Y_uint32); Field 3 (FImplicit Y_int64)]].
Definition wide_bytes : list N := [8; 0; 16; 255; 255; 255; 255; 255; 255; 255; 255; 255; 1; 24; 7; 24; 8].
Definition narrow_bytes : list N := [16; 255; 255; 255; 255; 15; 24; 8].
Lemma understood_one fs fs' : forallb (fun g => forallb (fun g' => match g, g' with Field n f, Field n' f' => negb (n =? n') || compatible f f' | _, _ => true end) fs') fs = true ->
  understood [fs] [fs'].
Proof.
  intros H [|m] n f f' H1 H2; [|destruct m; destruct H1]. cbn [msg nth] in *. rewrite forallb_forall in H. specialize (H _ H1). rewrite forallb_forall in H. specialize (H _ H2).
  cbn in H. rewrite N.eqb_refl in H. exact H.
Qed.
Lemma lost : exists D sch D' sch' xs b ys b' zs rs,
  covers D sch = true /\ covers D' sch' = true /\ understood sch sch' /\ understood sch' sch /\
  wts D (VStruct xs) (SNamed 0) = true /\ encodable_msg sch xs (msg sch 0) = true /\ encodable_msg sch' ys (msg sch' 0) = true /\
  fst (Marshal D (ptr 0 xs) g_empty) = Returns (Some b, None) /\
  fst (Unmarshal D' b (ptr 0 (zeros (msg sch' 0))) g_empty) = Returns (ptr 0 ys, None) /\
  fst (Marshal D' (ptr 0 ys) g_empty) = Returns (Some b', None) /\
  fst (Unmarshal D b' (ptr 0 (zeros (msg sch 0))) g_empty) = Returns (ptr 0 zs, None) /\
  fst (Unmarshal D b (ptr 0 (zeros (msg sch 0))) g_empty) = Returns (ptr 0 rs, None) /\
  (forall n f f', In (Field n f) (msg sch 0) -> In (Field n f') (msg sch' 0) -> (n = 2 <-> returns_as f f' = true)) /\
  forall i, (i < 3)%nat -> option_map shown (nth_error zs i) <> option_map shown (nth_error rs i).
Proof.
  exists wideD, wideS, narrowD, narrowS, [VOpt true (VI32 0); VI64 (-1); VSlice true [VI64 7; VI64 8] []], wide_bytes, [VI32 0; VU32 4294967295; VI64 8], narrow_bytes,
    [VOpt false (VI32 0); VI64 4294967295; VSlice true [VI64 8] (repeat (VI64 0) 9)], [VOpt true (VI32 0); VI64 (-1); VSlice true [VI64 7; VI64 8] (repeat (VI64 0) 8)].
  split; [vm_compute; reflexivity|]. split; [vm_compute; reflexivity|].
  split; [apply understood_one; vm_compute; reflexivity|]. split; [apply understood_one; vm_compute; reflexivity|].
  do 8 (split; [vm_compute; reflexivity|]). split.
  - intros n f f' H H'. cbn in H, H'.
    repeat (destruct H as [H|H]; [injection H as <- <-; repeat (destruct H' as [H'|H']; [try discriminate H'; injection H' as <-; cbn; split; congruence|]); destruct H'|]). destruct H.
  - intros [|[|[|i]]] Hi; try (vm_compute; discriminate). exfalso. clear - Hi. lia.
Qed.
