(** Struct types that can never be used. *)
From Coq Require Import String.
From Verif Require Import Base GoType Leaf Tag Walker.

(** Types no codec exists for, in whatever position: other kinds (chan, func,
    int, plain structs, ...), Option by value as an element, and pointers to these. *)
Fixpoint hopeless (t : gotype) : bool :=
  match t with
  | TOther => true
  | TOption _ => true
  | TPtr (TOption _) => false
  | TPtr e => hopeless e
  | _ => false
  end.
(** Fields that make a struct type unusable: an exported field with a tag that
    cannot be parsed, or no tag-specific codec and a hopeless type, element or
    map value, or a pointer to a map. *)
Definition hopeless_type (ty : gotype) : bool :=
  match ty with
  | TSlice e => hopeless e
  | TMap _ v => hopeless v
  | TPtr _ => match baseTypeOf ty with TMap _ _ => true | TSlice _ | TBytes => false | _ => hopeless ty end
  | _ => hopeless ty
  end.
Definition hopeless_field (f : gofield) : bool :=
  match gf_exported f, gf_tag f with
  | true, Some tag =>
    match parseStructTag tag with
    | (_, Some _) => true
    | (t, None) => match static_choice t (gf_type f) with Some _ => false | None => hopeless_type (gf_type f) end
    end
  | _, _ => false
  end.
