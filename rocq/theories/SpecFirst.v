(** For C79: the size of declarations, and the memory that caches hold. *)
From Verif Require Import Base Wire GoType Leaf Codec Tag Walker Api Conc Typing WalkSeq SpecConc SpecAny.
Local Open Scope nat_scope.

(** How many types a type is written with. *)
Fixpoint nodes (t : gotype) : nat :=
  match t with
  | TScalar _ | TBytes | TMsg _ | TOther => 1
  | TOption _ => 2
  | TSlice e | TPtr e => 1 + nodes e
  | TMap _ v => 2 + nodes v
  end.
(** How many types the fields of declared structs are written with. *)
Definition written (fs : list gofield) : nat := list_sum (map (fun f => nodes (gf_type f)) fs).
Definition declared (D : decls) : nat := list_sum (map written D).

(** Codecs and structInfos ever allocated, and entries of the three caches. *)
Definition memory (s : gstate) : nat :=
  length (g_cells s) + length (g_infos s) + length (g_infoCache s) + length (g_codecCache s) + length (g_sliceMap s).
(** Is there a structInfo for the type? *)
Definition cached (s : gstate) (k : skey) : Prop := exists i, In (k, i) (g_infoCache s).

(** Memory after any sequence of calls that return, with or without an error,
    with arguments of declared types. Calls that do not look at caches are left out. *)
Inductive answered (D : decls) : gstate -> Prop :=
| answered_start : answered D g_empty
| answered_call s s' k : answered D s -> user_key D k = true -> used D k s s' -> answered D s'.

(** Memory after any number of phases, in each of which up to [G] goroutines make
    any numbers of calls that all return. *)
Definition declared_args (D : decls) (css : list (list call)) : Prop :=
  Forall (Forall (fun c => match arg_type c with Some k => user_key D k = true | None => True end)) css.
Inductive shared (D : decls) (G : nat) : gstate -> Prop :=
| shared_start : shared D G g_empty
| shared_phase s css ans s' : shared D G s -> length css <= G -> declared_args D css ->
    csteps (map (p_calls D) css, s) (map Ret ans, s') -> shared D G s'.
