(** Vocabulary for C24 and C22: struct types that a rejected type cannot affect. *)
From Coq Require Import String.
From Verif Require Import Base GoType Leaf Codec Tag Walker Api Resolve Typing SpecReject WalkSeq.

(** The struct types a type refers to. *)
Fixpoint mentions (t : gotype) (m : nat) : bool :=
  match t with
  | TMsg m' => Nat.eqb m m'
  | TPtr e | TSlice e | TMap _ e => mentions e m
  | _ => false
  end.
Definition tagged (f : gofield) : bool :=
  match gf_exported f, gf_tag f with true, Some _ => true | _, _ => false end.

(** A struct type is [broken] if one of its fields can have no codec, or if one
    of its fields refers to a broken struct type. *)
Inductive broken (D : decls) : nat -> Prop :=
| broken_field m fs f : nth_error D m = Some fs -> In f fs -> hopeless_field f = true -> broken D m
| broken_ref m fs f m' : nth_error D m = Some fs -> In f fs -> tagged f = true -> mentions (gf_type f) m' = true ->
    broken D m' -> broken D m.

(** Every field that is not hopeless has a codec that does not depend on what
    the walker has seen before. (Excluded are slices of slices, pointers to
    slices, and maps of these, which are accepted after the inner slice type was
    seen and rejected before.) *)
Definition field_tame (f : gofield) : bool :=
  match gf_exported f, gf_tag f with
  | true, Some tag =>
    hopeless_field f ||
    match parseStructTag tag with
    | (t, None) =>
      match pfield t f with
      | Some (PMap _ kt vt key val _ _) => match pfields 0 (entry_fields key val kt vt) with Some _ => true | None => false end
      | Some _ => true
      | None => false
      end
    | (_, Some _) => false
    end
  | _, _ => true
  end.
Definition tame (D : decls) : bool := forallb (forallb field_tame) D.

(** What the walker remembers by Go type alone, field by field, also for the
    struct types that are rejected in the end. *)
Definition field_asks (f : gofield) : list (gotype * pref) :=
  match gf_exported f, gf_tag f with
  | true, Some tag =>
    match parseStructTag tag with
    | (t, None) => match pfield t f with Some p => pref_visits (gf_type f) p ++ entry_visits p | None => [] end
    | (_, Some _) => []
    end
  | _, _ => []
  end.
(** No Go type is used with different codecs where the walker remembers it. *)
Definition coherent (D : decls) : bool := functional (flat_map (flat_map field_asks) D).

(** Histories in which no call panicked. *)
Definition calm {A} (r : api A) : Prop := match r with Panics _ => False | _ => True end.
Inductive quiet (D : decls) : gstate -> Prop :=
| quiet_init : quiet D g_empty
| quiet_size s v : quiet D s -> iface_ok D v = true -> calm (fst (Size D v s)) -> quiet D (snd (Size D v s))
| quiet_marshal s v : quiet D s -> iface_ok D v = true -> calm (fst (Marshal D v s)) -> quiet D (snd (Marshal D v s))
| quiet_unmarshal s b v : quiet D s -> iface_ok D v = true -> calm (fst (Unmarshal D b v s)) -> quiet D (snd (Unmarshal D b v s)).
