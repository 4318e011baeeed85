(** What a generated file should declare, independent of the order in which the
    plugin goes through the file. *)
From Coq Require Import String.
From Verif Require Import Base GenFile.
Local Open Scope list_scope.

(** A message of a file, at any depth. *)
Inductive inside (f : pfile) : pmsg -> Prop :=
| inside_top m : In m (f_messages f) -> inside f m
| inside_nested p m : inside f p -> In m (g_nested p) -> inside f m.
(** An enum of a file. *)
Inductive enum_of (f : pfile) (e : penum) : Prop :=
| enum_top : In e (f_enums f) -> enum_of f e
| enum_nested m : inside f m -> In e (g_enums m) -> enum_of f e.
(** A message with everything below it. *)
Fixpoint subtree (m : pmsg) : list pmsg :=
  m :: (fix all (l : list pmsg) : list pmsg := match l with [] => [] | x :: l => subtree x ++ all l end) (g_nested m).
Definition tree (f : pfile) : list pmsg := concat (map subtree (f_messages f)).

(** The declarations a file is responsible for. *)
Inductive declares (f : pfile) : gdecl -> Prop :=
| D_enum e : enum_of f e -> declares f {| g_tok := Type_; g_ident := e_name e; g_expr := Ident "int32" |}
| D_value e n z : enum_of f e -> In (n, z) (e_values e) -> declares f {| g_tok := Const_; g_ident := n; g_expr := Literal z |}
| D_message m : inside f m -> g_entry m = false -> declares f {| g_tok := Type_; g_ident := g_name m; g_expr := Struct |}
| D_oneof m o : inside f m -> g_entry m = false -> In o (g_oneofs m) -> o_synthetic o = false ->
    declares f {| g_tok := Type_; g_ident := String.append "is" (o_name o); g_expr := Interface |}
| D_member m o n : inside f m -> g_entry m = false -> In o (g_oneofs m) -> o_synthetic o = false -> In n (o_members o) ->
    declares f {| g_tok := Type_; g_ident := n; g_expr := Struct |}.

(** Imports go to earlier files. *)
Definition ordered (files : list pfile) : Prop :=
  forall i f imp, nth_error files i = Some f -> In imp (f_imports f) -> (i_file imp < i)%nat.
(** Declarations forwarded for a file that is imported publicly from another
    package: the exported ones, under the same name. *)
Inductive forwards (files : list pfile) (f : pfile) : gdecl -> Prop :=
| F_public imp g d : In imp (f_imports f) -> i_public imp = true -> nth_error files (i_file imp) = Some g -> f_package g <> f_package f ->
    declares g d -> upper (g_ident d) = true -> g_ident d <> f_descriptor g ->
    forwards files f {| g_tok := g_tok d; g_ident := g_ident d; g_expr := Selector (f_package g) (g_ident d) |}.
(** Reached by one or more public imports. *)
Inductive public (files : list pfile) : nat -> nat -> Prop :=
| public_one i f imp : nth_error files i = Some f -> In imp (f_imports f) -> i_public imp = true -> public files i (i_file imp)
| public_more i j k : public files i j -> public files j k -> public files i k.

(** The names a file declares, once each. *)
Definition enum_names (e : penum) : list string := e_name e :: map fst (e_values e).
Definition oneof_names (o : poneof) : list string := if o_synthetic o then [] else String.append "is" (o_name o) :: o_members o.
Definition message_names (m : pmsg) : list string := if g_entry m then [] else g_name m :: concat (map oneof_names (g_oneofs m)).
Definition own_names (f : pfile) : list string :=
  concat (map enum_names (f_enums f ++ concat (map g_enums (tree f)))) ++ concat (map message_names (tree f)).
(** The names one import adds. *)
Definition import_names (files : list pfile) (f : pfile) (imp : pimport) : list string :=
  match nth_error files (i_file imp) with
  | Some g => if i_public imp && negb (String.eqb (f_package g) (f_package f))
              then filter (fun n => upper n && negb (String.eqb n (f_descriptor g))) (own_names g) else []
  | None => []
  end.
