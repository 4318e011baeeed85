(** Which faults of struct types make a call panic, and how they are put. *)
From Coq Require Import String.
From Verif Require Import Base GoType Tag Walker ArgText PanicText.
Local Open Scope string_scope.

Section Fault.
Variable D : decls.
Variable name : nat -> string.
Variable others : nat -> nat -> other.

(** How Go spells a type; [o]: the part of it that is no type of Walker.v. *)
Definition spell_scalar (k : skind) : string :=
  match k with
  | KBool => "bool" | KInt32 => "int32" | KInt64 => "int64" | KUint32 => "uint32"
  | KUint64 => "uint64" | KFloat32 => "float32" | KFloat64 => "float64" | KString => "string"
  end.
Fixpoint text (o : other) (t : gotype) : string :=
  match t with
  | TScalar k => spell_scalar k
  | TBytes => "[]uint8"
  | TOption k => "proto.Option[" ++ spell_scalar k ++ "]"
  | TSlice e => "[]" ++ text o e
  | TMap k v => "map[" ++ spell_scalar k ++ "]" ++ text o v
  | TPtr e => "*" ++ text o e
  | TMsg sid => "*" ++ name sid
  | TOther => o_text o
  end.
(** That part in field [j] of struct [k]; made structs have that of the map. *)
Definition within (k : skey) (o : other) (j : nat) : other :=
  match k with SNamed sid => others sid j | SEntry _ _ _ _ | SOpt _ => o end.

(** A type without codec, by itself or at the end of pointers; [elem]: as an
    element of a list or value of a map. *)
Fixpoint type_fault (o : other) (elem : bool) (t : gotype) : option string :=
  let value := if elem then "nested message must be pointer:" ++ text o t else "reflect: Elem of invalid type " ++ text o t in
  match t with
  | TScalar _ | TBytes | TMsg _ | TPtr (TOption _) => None
  | TSlice _ | TMap _ _ => Some ("unsupported type: " ++ text o t)
  | TOption _ => Some value
  | TOther => Some (if o_struct o then value else "unsupported type: " ++ text o t)
  | TPtr e => type_fault o elem e
  end.
(** A fault of one field of a struct; fields that are unexported or without tag
    have none. *)
Definition field_fault (o : other) (f : gofield) : option string :=
  match gf_exported f, gf_tag f with
  | true, Some tag =>
    match tag_text tag with
    | Some e => Some e
    | None =>
      match static_choice (fst (parseStructTag tag)) (gf_type f) with
      | Some _ => None
      | None =>
        match gf_type f, baseTypeOf (gf_type f) with
        | TSlice e, _ => type_fault o true e
        | TMap _ v, _ => type_fault o true v
        | TPtr e, (TSlice _ | TBytes) => type_fault o true e
        | TPtr e, TMap _ _ => Some ("reflect: Key of non-map type *" ++ text o e)
        | t, _ => type_fault o false t
        end
      end
    end
  | _, _ => None
  end.
(** The struct types met in a field type: a message, an element, a value; the
    structs made for the entries of a map. *)
Fixpoint leads (t : gotype) (k : skey) : Prop :=
  match t with
  | TMsg sid => k = SNamed sid
  | TSlice e | TPtr e => leads e k
  | TMap key v => leads v k \/ exists kt vt, k = SEntry key v kt vt
  | _ => False
  end.
(** Somewhere in a struct type there is a fault put as [e]. *)
Inductive faulty : skey -> other -> string -> Prop :=
| faulty_here k o j f e : nth_error (struct_fields D k) j = Some f ->
    field_fault (within k o j) f = Some e -> faulty k o e
| faulty_part k o j f k' e : nth_error (struct_fields D k) j = Some f -> gf_exported f = true -> gf_tag f <> None ->
    leads (gf_type f) k' -> faulty k' (within k o j) e -> faulty k o e.
End Fault.
