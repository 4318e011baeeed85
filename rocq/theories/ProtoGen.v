(** Model of the protoc plugin (internal/generator/main.go): the Go struct that
    is generated for a message. The input are descriptors as the protogen
    library hands them to the plugin; the output are field declarations as
    reflect shows them to the library (GoType.v). Tags as text are in
    StructTag.v, the declarations of a file in GenFile.v, getters in
    GenGetter.v. Not modelled: comments, the list of imports, extensions
    (collected in init.go:95-107 and never used). *)
From Coq Require Import String DecimalString.
From Verif Require Import Base GoType.
Local Open Scope string_scope.

(** protoreflect.Kind, as listed in main.go:364-390. *)
Inductive pkind :=
| BoolKind | EnumKind
| Int32Kind | Sint32Kind | Uint32Kind | Int64Kind | Sint64Kind | Uint64Kind
| Sfixed32Kind | Fixed32Kind | FloatKind | Sfixed64Kind | Fixed64Kind | DoubleKind
| StringKind | BytesKind | MessageKind | GroupKind.

(** protoreflect.Cardinality, main.go:422-429 *)
Inductive cardinality := CardOptional | CardRequired | CardRepeated.

(** The parts of protogen.Field that are used: Desc.Number(), Desc.Kind(),
    Desc.Cardinality(), Desc.HasPresence(), Desc.IsWeak(), the position of
    Message in the list of all messages, the position of Oneof in the message's
    list of oneofs. *)
Record pfield_desc := {
  d_number : N;
  d_kind : pkind;
  d_card : cardinality;
  d_presence : bool;
  d_weak : bool;
  d_message : nat;
  d_oneof : option nat
}.
(** protogen.Message: Desc.IsMapEntry(), Fields, and for each of Oneofs
    Desc.IsSynthetic(). *)
Record pmessage := {
  m_entry : bool;
  m_fields : list pfield_desc;
  m_oneofs : list bool
}.
(** The messages of all files, nested ones and map entries included
    (init.go:73-107). *)
Notation descriptors := (list pmessage).

Definition no_message : pmessage := {| m_entry := false; m_fields := []; m_oneofs := [] |}.
(** Field.Message *)
Definition message_of (F : descriptors) (fd : pfield_desc) : pmessage := nth (d_message fd) F no_message.

(** protoreflect's FieldDescriptor.IsMap and IsList (library). *)
Definition is_map (F : descriptors) (fd : pfield_desc) : bool :=
  match d_kind fd with MessageKind => m_entry (message_of F fd) | _ => false end.
Definition is_list (F : descriptors) (fd : pfield_desc) : bool :=
  match d_card fd with CardRepeated => negb (is_map F fd) | _ => false end.

(** main.go:362-390: the Go type of the kind, whether Option is kept, whether
    comparable. Enum types are aliases of int32 (main.go:173-174). *)
Definition kindGoType (fd : pfield_desc) : gotype * bool * bool :=
  let p := d_presence fd in
  match d_kind fd with
  | BoolKind => (TScalar KBool, p, true)
  | EnumKind => (TScalar KInt32, p, true)
  | Int32Kind | Sint32Kind | Sfixed32Kind => (TScalar KInt32, p, true)
  | Uint32Kind | Fixed32Kind => (TScalar KUint32, p, true)
  | Int64Kind | Sint64Kind | Sfixed64Kind => (TScalar KInt64, p, true)
  | Uint64Kind | Fixed64Kind => (TScalar KUint64, p, true)
  | FloatKind => (TScalar KFloat32, p, true)
  | DoubleKind => (TScalar KFloat64, p, true)
  | StringKind => (TScalar KString, p, true)
  | BytesKind => (TBytes, false, false)
  | MessageKind | GroupKind => (TMsg (d_message fd), false, true)
  end.
(** main.go:357-400 for a field that is no map. *)
Definition plainGoType (F : descriptors) (fd : pfield_desc) : gotype * bool * bool :=
  if d_weak fd then (TOther, false, true)
  else
    let '(t, p, c) := kindGoType fd in
    if is_list F fd then (TSlice t, false, false) else (t, p, c).
(** main.go:357-400. The recursive calls are for the two fields of a map entry,
    which are no maps themselves. *)
Definition fieldGoType (F : descriptors) (fd : pfield_desc) : gotype * bool * bool :=
  if d_weak fd then (TOther, false, true)
  else if is_map F fd then
    match m_fields (message_of F fd) with
    | kf :: vf :: _ =>
      match fst (fst (plainGoType F kf)) with
      | TScalar k => (TMap k (fst (fst (plainGoType F vf))), false, false)
      | _ => (TOther, false, false)
      end
    | _ => (TOther, false, false)
    end
  else plainGoType F fd.

(** strconv.Itoa of a field number. *)
Definition itoa (n : N) : string := NilZero.string_of_uint (N.to_uint n).
(** main.go:405-420 *)
Definition kindTag (k : pkind) : string :=
  match k with
  | BoolKind | EnumKind | Int32Kind | Uint32Kind | Int64Kind | Uint64Kind => "varint"
  | Sint32Kind => "zigzag32"
  | Sint64Kind => "zigzag64"
  | Sfixed32Kind | Fixed32Kind | FloatKind => "fixed32"
  | Sfixed64Kind | Fixed64Kind | DoubleKind => "fixed64"
  | StringKind | BytesKind | MessageKind => "bytes"
  | GroupKind => "group"
  end.
(** main.go:422-429 *)
Definition cardTag (c : cardinality) : string :=
  match c with CardOptional => "opt" | CardRequired => "req" | CardRepeated => "rep" end.
(** main.go:402-431 *)
Definition fieldProtobufTagValue (fd : pfield_desc) : string :=
  kindTag (d_kind fd) ++ "," ++ itoa (d_number fd) ++ "," ++ cardTag (d_card fd).

(** The oneof of a field unless synthetic (main.go:238). *)
Definition real_oneof (m : pmessage) (fd : pfield_desc) : option nat :=
  match d_oneof fd with
  | Some o => if nth o (m_oneofs m) false then None else Some o
  | None => None
  end.
Definition in_oneof (o : nat) (fd : pfield_desc) : bool :=
  match d_oneof fd with Some o' => Nat.eqb o o' | None => false end.

(** main.go:237-297. [before]: the fields of the message that come earlier;
    oneof.Fields[0] is the first field of the message in that oneof. The second
    component is the conjunct for f.comparable. Names are capitalised by
    protogen, so that the fields are exported. The struct tag is given by its
    three lookups; gotrackTags (main.go:250-252,285-287) does not affect them. *)
Definition genMessageField (F : descriptors) (m : pmessage) (before : list pfield_desc) (fd : pfield_desc) : option gofield * bool :=
  match real_oneof m fd with
  | Some o =>
    if existsb (in_oneof o) before then (None, true)
    else (Some {| gf_exported := true; gf_tag := None; gf_key := ""; gf_val := ""; gf_type := TOther |}, true)
  | None =>
    let '(t, option, comp) := fieldGoType F fd in
    let t := if option then match t with TScalar k => TOption k | _ => TOther end else t in
    let '(key, val) :=
      if is_map F fd then
        match m_fields (message_of F fd) with
        | kf :: vf :: _ => (fieldProtobufTagValue kf, fieldProtobufTagValue vf)
        | _ => ("", "")
        end
      else ("", "") in
    (Some {| gf_exported := true; gf_tag := Some (fieldProtobufTagValue fd); gf_key := key; gf_val := val; gf_type := t |}, comp)
  end.
(** main.go:226-235: the fields, and [_ [0]func()] when all are comparable. *)
Fixpoint genFields (F : descriptors) (m : pmessage) (before l : list pfield_desc) (comparable : bool) : list gofield :=
  match l with
  | [] =>
    if comparable then [{| gf_exported := false; gf_tag := None; gf_key := ""; gf_val := ""; gf_type := TOther |}] else []
  | fd :: l =>
    let '(g, comp) := genMessageField F m before fd in
    let rest := genFields F m (before ++ [fd]) l (comparable && comp) in
    match g with Some g => g :: rest | None => rest end
  end.
(** main.go:207-224; nothing is generated for map entries, whose positions in
    the list of structs are kept empty. *)
Definition genMessage (F : descriptors) (m : pmessage) : list gofield :=
  if m_entry m then [] else genFields F m [] (m_fields m) true.
(** main.go:53-75: the structs of all messages. *)
Definition generate (F : descriptors) : decls := map (genMessage F) F.
