(** A message written with another version of the schema is merged into what is there. *)
From Coq Require Import String.
From Verif Require Import Base Wire GoType Leaf Codec Tag Walker Api Typing WalkInv WalkSeq SpecWire SpecTag SpecMsg SpecExact SpecVersions SpecJoin SpecAbsorb Sample RefuteMsg MsgApi AbsorbThms.
Local Open Scope N_scope.

(** C84. [same m m'] says that message [m'] of the reader is a version of the writer's [m]; [accepted] says that in such
    messages fields with the same number have compatible types or turn from a list of messages into one message; [absorb_msg] is the merge of the two messages (SpecAbsorb.v). *)
Theorem absorb_partial : forall D sch D' sch' same, covers D sch = true -> covers D' sch' = true -> accepted same sch sch' ->
  forall s s' m m' xs ys, same m m' = true -> reachable D s -> reachable D' s' -> wts D' (VStruct xs) (SNamed m') = true -> forallb fresh xs = true -> forallb tidy xs = true ->
  wts D (VStruct ys) (SNamed m) = true -> encodable_msg sch ys (msg sch m) = true -> (zlen (ser (message sch ys (msg sch m))) < 2^63)%Z ->
  exists b zs, fst (Marshal D (ptr m ys) s) = Returns (Some b, None) /\
    fst (Unmarshal D' b (ptr m' xs) s') = Returns (ptr m' zs, None) /\
    map shown zs = map norm (absorb_msg sch sch' xs ys (msg sch m) (msg sch' m')) /\ wts D' (VStruct zs) (SNamed m') = true.
Proof. exact absorb_proof. Qed.
Print Assumptions absorb_partial.
(** Lists become one value: the last number, the merge of all messages. A number that is cut to 0 still replaces. *)
Example absorb_ex :
  let D : decls :=
    [[ sfield "bytes,1,rep" (TSlice (TMsg 1)); sfield "varint,2,opt" (TScalar KInt64); sfield "varint,3,rep" (TSlice (TScalar KInt32)) ];
     [ sfield "varint,1,opt" (TScalar KInt32); sfield "bytes,2,opt" TBytes ]] in
  let sch :=
    [[ Field 1 (FRepeated (FMessage 1)); Field 2 (FImplicit Y_int64); Field 3 (FRepeated (FAlways Y_int32)) ];
     [ Field 1 (FImplicit Y_int32); Field 2 FBytes ]] in
  let D' : decls :=
    [[ sfield "bytes,2,rep" (TSlice (TScalar KString)); sfield "varint,1,opt" (TScalar KInt64) ];
     [ sfield "varint,3,opt" (TOption KInt64); sfield "bytes,1,opt" (TMsg 0); sfield "varint,2,opt" (TScalar KInt32); sfield "varint,9,opt" (TScalar KBool) ]] in
  let sch' :=
    [[ Field 2 (FRepeated (FAlways Y_string)); Field 1 (FImplicit Y_int64) ];
     [ Field 3 (FOptional Y_int64); Field 1 (FMessage 0); Field 2 (FImplicit Y_int32); Field 9 (FImplicit Y_bool) ]] in
  let same := fun m m' => match m, m' with 0%nat, 1%nat | 1%nat, 0%nat => true | _, _ => false end in
  let xs := [VOpt false (VI64 0); VPtr (Some (VStruct [VSlice true [VStr [65]] []; VI64 5])); VI32 7; VBool true] in
  let ys := [VSlice true [VPtr (Some (VStruct [VI32 1; VBytes (Some [66])])); VPtr (Some (VStruct [VI32 0; VBytes (Some [67])]))] [];
    VI64 4294967296; VSlice true [VI32 3; VI32 4] []] in
  covers D sch = true /\ covers D' sch' = true /\ same 0%nat 1%nat = true /\
  forallb (fun m => forallb (fun m' => negb (same m m') ||
    forallb (fun g => forallb (fun g' => match g, g' with Field n f, Field n' f' => negb (n =? n') || accepts same f f' | _, _ => true end)
    (msg sch' m')) (msg sch m)) [0%nat; 1%nat]) [0%nat; 1%nat] = true /\
  wts D' (VStruct xs) (SNamed 1) = true /\ forallb fresh xs = true /\ forallb tidy xs = true /\
  wts D (VStruct ys) (SNamed 0) = true /\ encodable_msg sch ys (msg sch 0) = true /\
  absorb_msg sch sch' xs ys (msg sch 0) (msg sch' 1) =
    [VOpt true (VI64 4); VPtr (Some (VStruct [VSlice true [VStr [65]; VStr [66]; VStr [67]] []; VI64 1])); VI32 0; VBool true] /\
  match fst (Marshal D (ptr 0 ys) g_empty) with
  | Returns (Some b, None) => match fst (Unmarshal D' b (ptr 1 xs) g_empty) with
    | Returns (IPtr _ (Some (VStruct zs)), None) => map shown zs = map norm (absorb_msg sch sch' xs ys (msg sch 0) (msg sch' 1))
    | _ => False end
  | _ => False end.
Proof. vm_compute. repeat split. Qed.
(** Field by field: what the writer does not know stays as it was. *)
Theorem absorb_fields_partial : forall D sch D' sch' same, covers D sch = true -> covers D' sch' = true -> accepted same sch sch' ->
  forall s s' m m' xs ys b zs, same m m' = true -> reachable D s -> reachable D' s' -> wts D' (VStruct xs) (SNamed m') = true -> forallb fresh xs = true -> forallb tidy xs = true ->
  wts D (VStruct ys) (SNamed m) = true -> encodable_msg sch ys (msg sch m) = true -> (zlen (ser (message sch ys (msg sch m))) < 2^63)%Z ->
  fst (Marshal D (ptr m ys) s) = Returns (Some b, None) -> fst (Unmarshal D' b (ptr m' xs) s') = Returns (ptr m' zs, None) ->
  forall j n f', nth_error (msg sch' m') j = Some (Field n f') -> exists x, nth_error xs j = Some x /\
    (forall i f y, nth_error (msg sch m) i = Some (Field n f) -> nth_error ys i = Some y ->
      option_map shown (nth_error zs j) = Some (norm (absorb sch sch' x y f f'))) /\
    (~ In n (numbers (msg sch m)) -> option_map shown (nth_error zs j) = Some (norm x)).
Proof. exact absorb_fields_proof. Qed.
Print Assumptions absorb_fields_partial.
(** In an empty message this is what C80 says, *)
Theorem absorb_empty : forall D sch D' sch', covers D sch = true -> covers D' sch' = true -> understood sch sch' ->
  forall m ys, wts D (VStruct ys) (SNamed m) = true -> encodable_msg sch ys (msg sch m) = true -> (zlen (ser (message sch ys (msg sch m))) < 2^63)%Z ->
  map norm (absorb_msg sch sch' (zeros (msg sch' m)) ys (msg sch m) (msg sch' m)) = map norm (translate_msg sch sch' ys (msg sch m) (msg sch' m)).
Proof. exact absorb_empty_proof. Qed.
Print Assumptions absorb_empty.
(** and with one version what C83 says. *)
Theorem absorb_same : forall D sch, covers D sch = true ->
  forall m xs ys, wts D (VStruct xs) (SNamed m) = true -> wts D (VStruct ys) (SNamed m) = true ->
  encodable_msg sch ys (msg sch m) = true -> (zlen (ser (message sch ys (msg sch m))) < 2^63)%Z ->
  map norm (absorb_msg sch sch xs ys (msg sch m) (msg sch m)) = map norm (joined_msg sch xs ys (msg sch m)).
Proof. exact absorb_same_proof. Qed.
Print Assumptions absorb_same.
(** Messages with a nil map are excluded: they are written with an empty entry. *)
Theorem absorb_refuted : exists D sch D' sch' m xs ys b zs, covers D sch = true /\ covers D' sch' = true /\ accepted Nat.eqb sch sch' /\
  wts D' (VStruct xs) (SNamed m) = true /\ forallb fresh xs = true /\ forallb tidy xs = true /\ wts D (VStruct ys) (SNamed m) = true /\
  fst (Marshal D (ptr m ys) g_empty) = Returns (Some b, None) /\ fst (Unmarshal D' b (ptr m xs) g_empty) = Returns (ptr m zs, None) /\
  absorb_msg sch sch' xs ys (msg sch m) (msg sch' m) = xs /\ map norm zs <> map norm xs.
Proof. exact nil_map_absorbed. Qed.
Print Assumptions absorb_refuted.
