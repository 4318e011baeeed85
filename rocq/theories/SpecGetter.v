(** What getters of oneof members should return, and when Go structs can be
    compared; independent of the plugin. *)
From Coq Require Import String.
From Verif Require Import Base GoType Typing ProtoGen SpecProto GenGetter.
Local Open Scope list_scope.

(** protobuf's default of a kind: zero, empty, false, no message, or the first
    value of the enum. *)
Definition kind_default (y : getter_field) : val :=
  match d_kind (y_desc y) with
  | BoolKind => VBool false
  | EnumKind => VI32 (hd 0%Z (y_enum y))
  | Int32Kind | Sint32Kind | Sfixed32Kind => VI32 0
  | Int64Kind | Sint64Kind | Sfixed64Kind => VI64 0
  | Uint32Kind | Fixed32Kind => VU32 0
  | Uint64Kind | Fixed64Kind => VU64 0
  | FloatKind => VF32 0
  | DoubleKind => VF64 0
  | StringKind => VStr []
  | BytesKind => VBytes None
  | MessageKind | GroupKind => VPtr None
  end.
(** The default of a field: the one declared, or that of its kind. *)
Definition field_default (y : getter_field) : val :=
  match y_declared y with Some v => v | None => kind_default y end.
(** A field of a oneof as protoc admits it: not repeated, not weak, and enums
    have values that fit. *)
Definition member_ok (F : descriptors) (y : getter_field) : bool :=
  match d_card (y_desc y) with CardOptional => true | _ => false end &&
  negb (d_weak (y_desc y)) && negb (is_map F (y_desc y)) &&
  match d_kind (y_desc y) with EnumKind => match y_enum y with z :: _ => in_i32 z | [] => false end | _ => true end.
(** The oneof a field is a member of. *)
Definition member_of (m : getter_message) (i : nat) (o : nat) : Prop :=
  exists y, nth_error (y_fields m) i = Some y /\ d_oneof (y_desc y) = Some o /\ nth o (y_oneofs m) false = false.
(** The member set in a message: the position, and the value unless the wrapper
    is a nil pointer. *)
Definition holds (x : receiver) (o i : nat) (p : option val) : Prop :=
  exists fields, x = Some fields /\ fields o = Wrapper i p.

(** Go's == is defined for a type. *)
Definition comparable_type (t : gotype) : bool := match t with TBytes | TSlice _ | TMap _ _ => false | _ => true end.
(** The field of type [0]func() that the plugin adds (the library never looks
    at fields that are not exported; such a type is not comparable in Go). *)
Definition marker_field : gofield := {| gf_exported := false; gf_tag := None; gf_key := ""; gf_val := ""; gf_type := TOther |}.
(** A struct has a field that == is not defined for. *)
Definition incomparable (fields : list gofield) : Prop :=
  In marker_field fields \/ exists g, In g fields /\ comparable_type (gf_type g) = false.
