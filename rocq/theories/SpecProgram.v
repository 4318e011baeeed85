(** The Go types of a program made from generated files. *)
From Coq Require Import String.
From Verif Require Import Base GoType ProtoGen GenText GenDesc SpecGo SpecDesc.

(** [D] are the struct types of a program with files of the given texts: the
    struct of message [i] is the one of its name that Go reads in the text of
    the file of the message, where no name is declared twice. Entries of maps
    have no struct; their places in [D] are empty. *)
Record compiles (X : list nmessage) (scope : string -> entity) (files : list (nfile * string)) (D : decls) : Prop := {
  one_each : length D = length X;
  no_entry : forall i m, nth_error X i = Some m -> nm_entry m = true -> nth_error D i = Some [];
  declared : forall i m, nth_error X i = Some m -> nm_entry m = false ->
    exists f text ss fs, In (f, text) files /\ In m (nx_messages f) /\ go_structs scope text = Some ss /\ NoDup (map fst ss) /\
      In (nm_ident m, fs) ss /\ nth_error D i = Some (map snd fs) }.

(** The names of the structs a file should declare. *)
Definition struct_idents (f : nfile) : list string :=
  flat_map (fun m => if nm_entry m then [] else nm_ident m :: map nf_ident (wrapped_fields m)) (nx_messages f).
