(** Terms in which the concurrency properties are stated. *)
From Verif Require Import Base GoType Walker Api Conc WalkSeq Typing.

(** A type that does not contain itself: unfolding its pointers, elements and
    fields ends. The program has used some struct types before, those in [used]:
    unfolding stops at these. *)
Inductive finite_upto (D : decls) (used : skey -> Prop) : gotype -> Prop :=
| fu_scalar k : finite_upto D used (TScalar k)
| fu_bytes : finite_upto D used TBytes
| fu_option k : finite_upto D used (TOption k)
| fu_other : finite_upto D used TOther
| fu_slice t : finite_upto D used t -> finite_upto D used (TSlice t)
| fu_ptr t : finite_upto D used t -> finite_upto D used (TPtr t)
| fu_map k t : finite_upto D used t -> finite_upto D used (TMap k t)
| fu_used sid : used (SNamed sid) -> finite_upto D used (TMsg sid)
| fu_msg sid : (forall fs f, nth_error D sid = Some fs -> In f fs -> finite_upto D used (gf_type f)) ->
    finite_upto D used (TMsg sid).
Definition ready_key (D : decls) (used : skey -> Prop) (k : skey) : Prop :=
  used k \/
  match k with
  | SNamed sid => finite_upto D used (TMsg sid)
  | SEntry _ v _ _ => finite_upto D used v
  | SOpt _ => True
  end.

(** The type of the argument of a call. *)
Definition arg_type (c : call) : option skey :=
  match c with
  | CSize (IPtr k _) | CMarshal (IPtr k _) | CUnmarshal _ (IPtr k _) => Some k
  | _ => None
  end.

(** The states in which no goroutine is inside a call, of a program whose calls
    are made one after the other or by several goroutines at the same time. *)
Inductive quiet (D : decls) : gstate -> Prop :=
| q_reachable s : reachable D s -> quiet D s
| q_phase s css ans s' : quiet D s ->
    Forall (Forall (fun c => match arg_type c with Some k => user_key D k = true | None => True end)) css ->
    csteps (map (p_calls D) css, s) (map Ret ans, s') -> quiet D s'.
