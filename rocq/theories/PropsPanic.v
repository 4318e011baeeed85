(** Property theorems about what calls on types without codec panic with. *)
From Coq Require Import String.
From Verif Require Import Base GoType Tag Walker Api Typing WalkSeq ArgText PanicText SpecReject SpecPanic Sample RefuteConc PanicFacts.
Local Open Scope string_scope.

(** C76. For all declarations and in all states: the text with which a call panics
    is that of a fault of a field of the struct type or of a struct in it. *)
Theorem panic_names_fault : forall D name others k s e,
  panic_text D name others k s = Some e -> faulty D name others k nowhere e.
Proof. exact panic_fault. Qed.
Print Assumptions panic_names_fault.
(** There is a text exactly if building codecs panics: then every call on the type
    does, and else Size of a nil pointer does not. *)
Theorem panics_with_text : forall D name others k s,
  match panic_text D name others k s with
  | Some _ => forall p b x, b <> [] ->
      fst (Size D (IPtr k p) s) = Panics Unsupported /\ fst (Marshal D (IPtr k p) s) = Panics Unsupported /\
      fst (Unmarshal D b (IPtr k (Some x)) s) = Panics Unsupported
  | None => user_key D k = true -> fst (Size D (IPtr k None) s) = Returns 0%Z
  end.
Proof. exact panics_proof. Qed.
Print Assumptions panics_with_text.
(** A type without faults is accepted in every state. *)
Theorem no_fault_accepted : forall D name others k s, user_key D k = true ->
  (forall e, ~ faulty D name others k nowhere e) -> fst (Size D (IPtr k None) s) = Returns 0%Z.
Proof. exact no_fault_proof. Qed.
Print Assumptions no_fault_accepted.
(** A field that makes its struct unusable (see [rejected_always]) is a fault; a
    struct with one panics with a text in every reachable state, and if all its
    faults are put alike it is theirs. *)
Theorem hopeless_is_fault : forall name o f, hopeless_field f = true -> exists e, field_fault name o f = Some e.
Proof. exact hopeless_fault. Qed.
Print Assumptions hopeless_is_fault.
Theorem only_fault_named : forall D name others sid fs f s, nth_error D sid = Some fs -> In f fs -> hopeless_field f = true -> reachable D s ->
  (exists e, panic_text D name others (SNamed sid) s = Some e) /\
  forall e, (forall e', faulty D name others (SNamed sid) nowhere e' -> e' = e) -> panic_text D name others (SNamed sid) s = Some e.
Proof. exact only_fault_proof. Qed.
Print Assumptions only_fault_named.
(** Each kind of fault, in eight structs; the fault of the first is in a part. *)
Example panic_text_ex :
  let name := fun sid => if Nat.eqb sid 1 then "pb.Inner" else "pb.Outer" in
  let others := fun sid j => if Nat.eqb j 0 then {| o_text := "pb.Point"; o_struct := true |} else {| o_text := "chan int"; o_struct := false |} in
  let D := [[ sfield "varint,1,opt" (TScalar KInt32); sfield "bytes,2,opt" (TMsg 1) ];
            [ sfield "bytes,1,opt" TOther ];
            [ sfield "bytes,1,rep" (TSlice TOther) ];
            [ sfield "varint,1,opt" (TScalar KInt32); sfield "bytes,2,rep" (TPtr (TPtr TOther)) ];
            [ sfield "bytes,1,rep" (TSlice (TSlice (TMsg 1))) ];
            [ sfield "bytes,1,rep" (TPtr (TMap KString (TMsg 1))) ];
            [ sfield "group,1,opt" (TScalar KInt32) ];
            [ sfield "varint,1,opt" (TPtr (TOption KFloat32)); sfield "varint,2,opt" (TOption KFloat32) ]] in
  map (fun sid => panic_text D name others (SNamed sid) g_empty) (seq 0 8) =
  [ Some "reflect: Elem of invalid type pb.Point"; Some "reflect: Elem of invalid type pb.Point";
    Some "nested message must be pointer:pb.Point"; Some "unsupported type: chan int"; Some "unsupported type: []*pb.Inner";
    Some "reflect: Key of non-map type *map[string]*pb.Inner";
    Some ("unsupported wire type in struct tag " ++ StructTag.Quote "group,1,opt" ++ ": group");
    Some "reflect: Elem of invalid type proto.Option[float32]" ] /\
  hopeless_field (sfield "bytes,1,opt" TOther) = true /\ In (sfield "bytes,1,opt" TOther) (nth 1 D []).
Proof. vm_compute. intuition. Qed.
