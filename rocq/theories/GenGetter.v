(** Model of the methods that the protoc plugin generates for oneofs
    (internal/generator/main.go:303-352, 433-459): what they return. *)
From Coq Require Import String.
From Verif Require Import Base GoType ProtoGen.
Local Open Scope list_scope.

(** A field for which a getter is generated: its descriptor, the numbers of the
    values of its enum in order (field.Enum.Values, main.go:446), and the
    default declared for it in a proto2 file (Desc.Default(), which the plugin
    never asks for). *)
Record getter_field := { y_desc : pfield_desc; y_enum : list Z; y_declared : option val }.
(** A message with such fields. *)
Record getter_message := { y_fields : list getter_field; y_oneofs : list bool }.
Definition y_message (m : getter_message) : pmessage :=
  {| m_entry := false; m_fields := map y_desc (y_fields m); m_oneofs := y_oneofs m |}.

(** The value of a oneof's field, of interface type (main.go:259-260): nil, or a
    pointer to the wrapper struct of the member at the given position
    (main.go:474-490). Such a pointer can be nil itself. *)
Inductive oneof_value := NilInterface | Wrapper (member : nat) (p : option val).
(** The receiver: a nil pointer, or a struct, given by its oneof fields. *)
Definition receiver := option (nat -> oneof_value).

(** Getter for the oneof, main.go:308-317. *)
Definition getOneof (x : receiver) (o : nat) : oneof_value :=
  match x with None => NilInterface | Some fields => fields o end.

(** fieldDefaultValue, main.go:433-459: the expression. An enum value is given
    by its number (its name stands for the same number, main.go:182-184). *)
Inductive literal := L_false | L_empty | L_nil | L_zero | L_enum (z : Z) | L_missing.
Definition fieldDefaultValue (F : descriptors) (y : getter_field) : literal :=
  if is_list F (y_desc y) then L_nil
  else match d_kind (y_desc y) with
       | BoolKind => L_false
       | StringKind => L_empty
       | MessageKind | GroupKind | BytesKind => L_nil
       | EnumKind => match y_enum y with z :: _ => L_enum z | [] => L_missing end
       | _ => L_zero
       end.
(** The value of that expression where a type is expected (Go's rules for
    untyped constants and nil); [None]: does not compile. *)
Definition literal_value (l : literal) (t : gotype) : option val :=
  match l, t with
  | L_false, TScalar KBool => Some (VBool false)
  | L_empty, TScalar KString => Some (VStr [])
  | L_nil, TBytes => Some (VBytes None)
  | L_nil, TSlice _ => Some (VSlice false [] [])
  | L_nil, TMap _ _ => Some (VMap None)
  | L_nil, TMsg _ => Some (VPtr None)
  | L_zero, TScalar KInt32 => Some (VI32 0)
  | L_zero, TScalar KInt64 => Some (VI64 0)
  | L_zero, TScalar KUint32 => Some (VU32 0)
  | L_zero, TScalar KUint64 => Some (VU64 0)
  | L_zero, TScalar KFloat32 => Some (VF32 0)
  | L_zero, TScalar KFloat64 => Some (VF64 0)
  | L_enum z, TScalar KInt32 => Some (VI32 z)
  | _, _ => None
  end.

(** What a call of a getter does. *)
Inductive got := Got (v : val) | NilDereference.
(** Getter for the field at position [i], main.go:319-333: [None] if there is
    none, [Some None] if it does not compile. *)
Definition getMember (F : descriptors) (m : getter_message) (i : nat) (x : receiver) : option (option got) :=
  match nth_error (y_fields m) i with
  | None => None
  | Some y =>
    match real_oneof (y_message m) (y_desc y) with
    | None => None
    | Some o =>
      match literal_value (fieldDefaultValue F y) (fst (fst (fieldGoType F (y_desc y)))) with
      | None => Some None
      | Some default =>
        Some (Some (match getOneof x o with
                    | Wrapper j p => if Nat.eqb j i then match p with Some v => Got v | None => NilDereference end else Got default
                    | NilInterface => Got default
                    end))
      end
    end
  end.
