(** Vocabulary for statements about any declarations: what happens after the
    first use of a type. *)
From Verif Require Import Base GoType Leaf Walker Api WalkSeq.

(** [s'] is the state of the caches after any calls made from [s] on, with any
    arguments of declared types and whatever their outcome. *)
Inductive later (D : decls) (s : gstate) : gstate -> Prop :=
| later_here : later D s s
| later_size s' v : later D s s' -> iface_ok D v = true -> later D s (snd (Size D v s'))
| later_marshal s' v : later D s s' -> iface_ok D v = true -> later D s (snd (Marshal D v s'))
| later_unmarshal s' b v : later D s s' -> iface_ok D v = true -> later D s (snd (Unmarshal D b v s')).

(** Some call with the type [k] returned (with or without an error): started
    in [s], it left [s']. *)
Inductive used (D : decls) (k : skey) (s s' : gstate) : Prop :=
| used_size p n : Size D (IPtr k p) s = (Returns n, s') -> used D k s s'
| used_marshal p r : Marshal D (IPtr k p) s = (Returns r, s') -> used D k s s'
| used_unmarshal b x r : b <> [] -> Unmarshal D b (IPtr k (Some x)) s = (Returns r, s') -> used D k s s'.
