(** Property theorems about which changes of the kind of a field are compatible. *)
From Verif Require Import Base Wire GoType Leaf Codec Tag Walker Api Typing SpecWire SpecMsg WalkSeq MsgApi ProtoGen SpecProto SpecEvolve SpecTight TightThms TightOpt TightList.
Local Open Scope N_scope.

(** C87. One program is generated from a file with one field of kind [k], the other
    from the file in which that field is of kind [k']. *)
Theorem kinds_exact : forall k k', scalar_kind k = true -> scalar_kind k' = true ->
  let D := generate (sole k) in let D' := generate (sole k') in
  let sch := schema_of (sole k) in let sch' := schema_of (sole k') in
  (kind_compatible k k' = true <->
   forall s s' v vs, reachable D s -> reachable D' s' ->
   wts D (VStruct (v :: vs)) (SNamed 0) = true -> (zlen (ser (message sch (v :: vs) (msg sch 0))) < 2^63)%Z ->
   exists b w ws, fst (Marshal D (ptr 0 (v :: vs)) s) = Returns (Some b, None) /\
     fst (Unmarshal D' b (ptr 0 (zeros (msg sch' 0))) s') = Returns (ptr 0 (w :: ws), None) /\ arrived k' v w = true).
Proof. exact kinds_exact_proof. Qed.
Print Assumptions kinds_exact.
(** -1 of an int32 is a large uint64 with the same lower 32 bits, and 2^40 + 7 of a
    sint64 is 7 in a sint32: both have arrived; 300 of an int64 does not arrive in a
    bool, and 1 of an int32 not in a sint32 or a fixed32. A sfixed32 is not read by the
    program that wrote it. *)
Example kinds_exact_ex :
  let sent k k' v :=
    match fst (Marshal (generate (sole k)) (ptr 0 [v; VOther 0]) g_empty) with
    | Returns (Some b, None) =>
      match fst (Unmarshal (generate (sole k')) b (ptr 0 (zeros (msg (schema_of (sole k')) 0))) g_empty) with
      | Returns (IPtr _ (Some (VStruct (w :: _))), None) => Some (w, arrived k' v w)
      | _ => None
      end
    | _ => None
    end in
  kind_compatible Int32Kind Uint64Kind = true /\ sent Int32Kind Uint64Kind (VI32 (-1)) = Some (VU64 18446744073709551615, true) /\
  kind_compatible Sint64Kind Sint32Kind = true /\ sent Sint64Kind Sint32Kind (VI64 1099511627783) = Some (VI32 7, true) /\
  kind_compatible BoolKind Int64Kind = true /\ sent BoolKind Int64Kind (VBool true) = Some (VI64 1, true) /\
  kind_compatible Int64Kind BoolKind = false /\ sent Int64Kind BoolKind (VI64 300) = None /\
  kind_compatible Int32Kind Sint32Kind = false /\ sent Int32Kind Sint32Kind (VI32 1) = Some (VI32 (-1), false) /\
  kind_compatible Int32Kind Fixed32Kind = false /\ sent Int32Kind Fixed32Kind (VI32 1) = None /\ sent Int32Kind Fixed32Kind (VI32 0) = Some (VU32 0, true) /\
  kind_compatible Sfixed32Kind Sfixed32Kind = false /\ sent Sfixed32Kind Sfixed32Kind (VI32 1) = None.
Proof. cbv zeta. do 14 (split; [vm_compute; reflexivity|]). vm_compute. reflexivity. Qed.
(** The same changes for a field with presence, which is set if and only if it was. *)
Theorem optional_kinds_exact : forall k k', scalar_kind k = true -> scalar_kind k' = true ->
  let D := generate (sole_optional k) in let D' := generate (sole_optional k') in
  let sch := schema_of (sole_optional k) in let sch' := schema_of (sole_optional k') in
  (kind_compatible k k' = true <->
   forall s s' v vs, reachable D s -> reachable D' s' ->
   wts D (VStruct (v :: vs)) (SNamed 0) = true -> (zlen (ser (message sch (v :: vs) (msg sch 0))) < 2^63)%Z ->
   exists b w ws, fst (Marshal D (ptr 0 (v :: vs)) s) = Returns (Some b, None) /\
     fst (Unmarshal D' b (ptr 0 (zeros (msg sch' 0))) s') = Returns (ptr 0 (w :: ws), None) /\
     (held v = None <-> held w = None) /\ forall x y, held v = Some x -> held w = Some y -> arrived k' x y = true).
Proof. exact optional_exact_proof. Qed.
Print Assumptions optional_kinds_exact.
(** An optional string that is empty arrives as empty bytes, which are not nil; an
    absent int32 as an absent uint64; false as 0; and 1 of a double not in a float. *)
Example optional_kinds_exact_ex :
  let sent k k' v :=
    match fst (Marshal (generate (sole_optional k)) (ptr 0 [v; VOther 0]) g_empty) with
    | Returns (Some b, None) =>
      match fst (Unmarshal (generate (sole_optional k')) b (ptr 0 (zeros (msg (schema_of (sole_optional k')) 0))) g_empty) with
      | Returns (IPtr _ (Some (VStruct (w :: _))), None) => Some w
      | _ => None
      end
    | _ => None
    end in
  kind_compatible StringKind BytesKind = true /\ sent StringKind BytesKind (VOpt true (VStr [])) = Some (VBytes (Some [])) /\
  kind_compatible Int32Kind Uint64Kind = true /\ sent Int32Kind Uint64Kind (VOpt false (VI32 0)) = Some (VOpt false (VU64 0)) /\
  kind_compatible BoolKind Int32Kind = true /\ sent BoolKind Int32Kind (VOpt true (VBool false)) = Some (VOpt true (VI32 0)) /\
  kind_compatible DoubleKind FloatKind = false /\ sent DoubleKind FloatKind (VOpt true (VF64 4607182418800017408)) = None.
Proof. cbv zeta. do 7 (split; [vm_compute; reflexivity|]). vm_compute. reflexivity. Qed.
(** And for lists, where fixed32 and fixed64 are not compatible with themselves. *)
Theorem list_kinds_exact : forall k k', scalar_kind k = true -> scalar_kind k' = true ->
  let D := generate (sole_repeated k) in let D' := generate (sole_repeated k') in
  let sch := schema_of (sole_repeated k) in let sch' := schema_of (sole_repeated k') in
  (list_compatible k k' = true <->
   forall s s' v vs, reachable D s -> reachable D' s' ->
   wts D (VStruct (v :: vs)) (SNamed 0) = true -> (zlen (ser (message sch (v :: vs) (msg sch 0))) < 2^63)%Z ->
   exists b w ws, fst (Marshal D (ptr 0 (v :: vs)) s) = Returns (Some b, None) /\
     fst (Unmarshal D' b (ptr 0 (zeros (msg sch' 0))) s') = Returns (ptr 0 (w :: ws), None) /\
     Forall2 (fun x y => arrived k' x y = true) (elements v) (elements w)).
Proof. exact list_exact_proof. Qed.
Print Assumptions list_kinds_exact.
(** Numbers and strings arrive one by one, a nil element of a list of bytes is left out,
    and a list of one fixed32 is not read by the program that wrote it. *)
Example list_kinds_exact_ex :
  let sent k k' l :=
    match fst (Marshal (generate (sole_repeated k)) (ptr 0 [VSlice true l []]) g_empty) with
    | Returns (Some b, None) =>
      match fst (Unmarshal (generate (sole_repeated k')) b (ptr 0 (zeros (msg (schema_of (sole_repeated k')) 0))) g_empty) with
      | Returns (IPtr _ (Some (VStruct (w :: _))), None) => Some (elements w)
      | _ => None
      end
    | _ => None
    end in
  list_compatible Int32Kind Uint64Kind = true /\ sent Int32Kind Uint64Kind [VI32 0; VI32 (-1)] = Some [VU64 0; VU64 18446744073709551615] /\
  list_compatible Sint64Kind Sint32Kind = true /\ sent Sint64Kind Sint32Kind [VI64 1099511627783; VI64 (-2)] = Some [VI32 7; VI32 (-2)] /\
  list_compatible BytesKind StringKind = true /\ sent BytesKind StringKind [VBytes (Some [104]); VBytes None; VBytes (Some [])] = Some [VStr [104]; VStr []] /\
  list_compatible Int32Kind Sint32Kind = false /\ sent Int32Kind Sint32Kind [VI32 1] = Some [VI32 (-1)] /\
  list_compatible Fixed32Kind Fixed32Kind = false /\ kind_compatible Fixed32Kind Fixed32Kind = true /\ sent Fixed32Kind Fixed32Kind [VU32 1] = None.
Proof. cbv zeta. do 10 (split; [vm_compute; reflexivity|]). vm_compute. reflexivity. Qed.
