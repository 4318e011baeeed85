(** For C88: which fields of scalars come back as they were from a program with
    another version of the schema. *)
From Verif Require Import Base GoType Typing SpecTag SpecMsg SpecVersions.

(** The other program has a list, or it has presence if the field has it, and the
    field is not a list otherwise. *)
Definition returns_as (f f' : fty) : bool :=
  match f, f' with
  | _, FRepeated _ => true
  | FRepeated _, _ => false
  | (FImplicit _ | FAlways _), _ => true
  | _, (FOptional _ | FPointer _ | FBytes) => true
  | _, _ => false
  end.
(** The type [s] of the other program has the number that [x] is. *)
Definition has_it (D : decls) (s : sty) (x : val) : Prop :=
  exists w, wt D w (TScalar (go_kind s)) = true /\ number w = number x.
