(** Property theorems about fields that go through a program with another version of the schema. *)
From Coq Require Import String.
From Verif Require Import Base Wire GoType Leaf Codec Tag Walker Api Typing WalkInv WalkSeq SpecWire SpecTag SpecMsg SpecExact SpecVersions SpecRelay Sample RefuteMsg MsgApi RelayThms RelaySample.
Local Open Scope N_scope.

(** C88. One program writes [xs], another reads it and writes what it has, [ys]; the
    first then reads [zs]. If it reads what it wrote itself it has [rs]. *)
Theorem field_returns_partial : forall D sch D' sch', covers D sch = true -> covers D' sch' = true -> understood sch sch' -> understood sch' sch ->
  forall s s' s2' s2 s3 m xs b ys b' zs rs, reachable D s -> reachable D' s' -> reachable D' s2' -> reachable D s2 -> reachable D s3 -> (m < List.length D')%nat ->
  wts D (VStruct xs) (SNamed m) = true -> encodable_msg sch xs (msg sch m) = true -> (zlen (ser (message sch xs (msg sch m))) < 2^63)%Z ->
  encodable_msg sch' ys (msg sch' m) = true -> (zlen (ser (message sch' ys (msg sch' m))) < 2^63)%Z ->
  fst (Marshal D (ptr m xs) s) = Returns (Some b, None) ->
  fst (Unmarshal D' b (ptr m (zeros (msg sch' m))) s') = Returns (ptr m ys, None) ->
  fst (Marshal D' (ptr m ys) s2') = Returns (Some b', None) ->
  fst (Unmarshal D b' (ptr m (zeros (msg sch m))) s2) = Returns (ptr m zs, None) ->
  fst (Unmarshal D b (ptr m (zeros (msg sch m))) s3) = Returns (ptr m rs, None) ->
  forall i j n f f' x t', nth_error (msg sch m) i = Some (Field n f) -> nth_error (msg sch' m) j = Some (Field n f') -> nth_error xs i = Some x ->
  returns_as f f' = true -> scalars f' = Some t' -> (forall y, In y (sends f x) -> has_it D' t' y) ->
  option_map shown (nth_error zs i) = option_map shown (nth_error rs i).
Proof. exact back_proof. Qed.
Print Assumptions field_returns_partial.
(** The other program has the fields in another order and with other types. All four
    come back; the fifth is optional and 0, and plain in the other program, so it
    comes back absent; the sixth is too large for it. *)
Example field_returns_ex :
  let D := [[sfield "varint,1,opt" (TScalar KInt32); sfield "varint,2,opt" (TOption KUint64); sfield "varint,3,rep" (TSlice (TScalar KInt64)); sfield "bytes,4,opt" TBytes;
             sfield "varint,5,opt" (TOption KInt32); sfield "varint,6,opt" (TScalar KInt64)]] in
  let sch := [[Field 1 (FImplicit Y_int32); Field 2 (FOptional Y_uint64); Field 3 (FRepeated (FAlways Y_int64)); Field 4 FBytes; Field 5 (FOptional Y_int32); Field 6 (FImplicit Y_int64)]] in
  let D' := [[sfield "varint,3,rep" (TSlice (TScalar KInt32)); sfield "bytes,4,rep" (TSlice (TScalar KString)); sfield "varint,2,rep" (TSlice (TScalar KInt64)); sfield "varint,1,opt" (TOption KInt64);
              sfield "varint,5,opt" (TScalar KInt32); sfield "varint,6,opt" (TScalar KUint32)]] in
  let sch' := [[Field 3 (FRepeated (FAlways Y_int32)); Field 4 (FRepeated (FAlways Y_string)); Field 2 (FRepeated (FAlways Y_int64)); Field 1 (FOptional Y_int64);
                Field 5 (FImplicit Y_int32); Field 6 (FImplicit Y_uint32)]] in
  let xs := [VI32 (-1); VOpt true (VU64 0); VSlice true [VI64 7; VI64 (-9)] []; VBytes (Some []); VOpt true (VI32 0); VI64 (-1)] in
  covers D sch = true /\ covers D' sch' = true /\
  forallb (fun g => forallb (fun g' => match g, g' with Field n f, Field n' f' => negb (n =? n') || compatible f f' && compatible f' f | _, _ => true end)
    (msg sch' 0)) (msg sch 0) = true /\
  wts D (VStruct xs) (SNamed 0) = true /\ encodable_msg sch xs (msg sch 0) = true /\
  map (fun ff => returns_as (fst ff) (snd ff)) [(FImplicit Y_int32, FOptional Y_int64); (FOptional Y_uint64, FRepeated (FAlways Y_int64));
    (FRepeated (FAlways Y_int64), FRepeated (FAlways Y_int32)); (FBytes, FRepeated (FAlways Y_string)); (FOptional Y_int32, FImplicit Y_int32)] = [true; true; true; true; false] /\
  match fst (Marshal D (ptr 0 xs) g_empty) with
  | Returns (Some b, None) => match fst (Unmarshal D' b (ptr 0 (zeros (msg sch' 0))) g_empty) with
    | Returns (IPtr _ (Some (VStruct ys)), None) => encodable_msg sch' ys (msg sch' 0) = true /\ match fst (Marshal D' (ptr 0 ys) g_empty) with
      | Returns (Some b', None) => match fst (Unmarshal D b' (ptr 0 (zeros (msg sch 0))) g_empty) with
        | Returns (IPtr _ (Some (VStruct zs)), None) =>
          map shown zs = [VI32 (-1); VOpt true (VU64 0); VSlice true [VI64 7; VI64 (-9)] []; VBytes (Some []); VOpt false (VI32 0); VI64 4294967295]
        | _ => False end
      | _ => False end
    | _ => False end
  | _ => False end.
Proof. cbv zeta. do 6 (split; [vm_compute; reflexivity|]). vm_compute. repeat split. Qed.
(** The conditions are needed: of two programs that understand each other, an optional
    field that is 0 comes back absent from a field without presence, a list as its last
    element from a singular field, and a number changed from a field without it. *)
Theorem field_returns_refuted : exists D sch D' sch' xs b ys b' zs rs,
  covers D sch = true /\ covers D' sch' = true /\ understood sch sch' /\ understood sch' sch /\
  wts D (VStruct xs) (SNamed 0) = true /\ encodable_msg sch xs (msg sch 0) = true /\ encodable_msg sch' ys (msg sch' 0) = true /\
  fst (Marshal D (ptr 0 xs) g_empty) = Returns (Some b, None) /\
  fst (Unmarshal D' b (ptr 0 (zeros (msg sch' 0))) g_empty) = Returns (ptr 0 ys, None) /\
  fst (Marshal D' (ptr 0 ys) g_empty) = Returns (Some b', None) /\
  fst (Unmarshal D b' (ptr 0 (zeros (msg sch 0))) g_empty) = Returns (ptr 0 zs, None) /\
  fst (Unmarshal D b (ptr 0 (zeros (msg sch 0))) g_empty) = Returns (ptr 0 rs, None) /\
  (forall n f f', In (Field n f) (msg sch 0) -> In (Field n f') (msg sch' 0) -> (n = 2 <-> returns_as f f' = true)) /\
  forall i, (i < 3)%nat -> option_map shown (nth_error zs i) <> option_map shown (nth_error rs i).
Proof. exact lost. Qed.
Print Assumptions field_returns_refuted.
