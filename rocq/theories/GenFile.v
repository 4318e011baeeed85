(** Model of the protoc plugin at the level of files (internal/generator/init.go
    and main.go): which enums and messages of a file get declarations, which
    names the generated file declares, and which names a public import forwards.
    Not modelled: the package clause, the list of imports, comments,
    annotations, methods (they are no part of the names forwarded), extensions
    (collected, never used), and errors of the Go parser on the generated text. *)
From Coq Require Import String Ascii.
From Verif Require Import Base.
Local Open Scope string_scope.
Local Open Scope list_scope.

(** protogen.Enum: GoIdent.GoName, and GoIdent.GoName and Desc.Number() of each
    of Values (main.go:168-187). *)
Record penum := { e_name : string; e_values : list (string * Z) }.
(** protogen.Oneof: Desc.IsSynthetic(), GoIdent.GoName, and the GoIdent.GoName
    of Fields, which are the wrapper types (main.go:461-495). *)
Record poneof := { o_synthetic : bool; o_name : string; o_members : list string }.
(** protogen.Message: GoIdent.GoName, Desc.IsMapEntry(), Oneofs, Enums and
    Messages (init.go:79-107, main.go:207-224). *)
Inductive pmsg := PMsg (name : string) (entry : bool) (oneofs : list poneof) (enums : list penum) (nested : list pmsg).
Definition g_name (m : pmsg) : string := let 'PMsg n _ _ _ _ := m in n.
Definition g_entry (m : pmsg) : bool := let 'PMsg _ e _ _ _ := m in e.
Definition g_oneofs (m : pmsg) : list poneof := let 'PMsg _ _ o _ _ := m in o.
Definition g_enums (m : pmsg) : list penum := let 'PMsg _ _ _ e _ := m in e.
Definition g_nested (m : pmsg) : list pmsg := let 'PMsg _ _ _ _ l := m in l.
(** An import: the imported file (gen.FilesByPath; a position that is not in
    the list of files stands for an unknown path) and IsPublic (main.go:88-107).
    IsWeak decides only about the list of imports. *)
Record pimport := { i_file : nat; i_public : bool }.
(** protogen.File: GoImportPath, GoDescriptorIdent.GoName, Desc.Imports(),
    Enums, Messages (main.go:53-75, init.go:73-107). *)
Record pfile := { f_package : string; f_descriptor : string; f_imports : list pimport; f_enums : list penum; f_messages : list pmsg }.

(** walkMessages, init.go:78-84, where [f] appends to a list. *)
Fixpoint walkMessage {A} (f : pmsg -> list A) (m : pmsg) : list A :=
  f m ++ (fix walk (ms : list pmsg) : list A := match ms with [] => [] | m :: ms => walkMessage f m ++ walk ms end) (g_nested m).
Definition walkMessages {A} (f : pmsg -> list A) (ms : list pmsg) : list A := flat_map (walkMessage f) ms.
(** newFileInfo, init.go:85-107: allEnums and allMessages. *)
Definition allEnums (f : pfile) : list penum := f_enums f ++ walkMessages g_enums (f_messages f).
Definition allMessages (f : pfile) : list pmsg := f_messages f ++ walkMessages g_nested (f_messages f).

(** A declaration at top level: go/token.Token, the name, and what the name
    stands for: an identifier (main.go:173-174), a literal (main.go:182-184), a
    struct (main.go:216-217, 474), an interface (main.go:467), or a name of
    another package (main.go:139). *)
Inductive tok := Type_ | Const_.
Inductive dexpr := Ident (s : string) | Literal (z : Z) | Struct | Interface | Selector (package name : string).
Record gdecl := { g_tok : tok; g_ident : string; g_expr : dexpr }.

(** genEnum, main.go:168-187 *)
Definition genEnum (e : penum) : list gdecl :=
  {| g_tok := Type_; g_ident := e_name e; g_expr := Ident "int32" |} ::
  map (fun v => {| g_tok := Const_; g_ident := fst v; g_expr := Literal (snd v) |}) (e_values e).
(** genMessageOneofWrapperTypes, main.go:461-495, for one oneof;
    oneofInterfaceName, main.go:499-501. *)
Definition genOneof (o : poneof) : list gdecl :=
  if o_synthetic o then []
  else {| g_tok := Type_; g_ident := String.append "is" (o_name o); g_expr := Interface |} ::
       map (fun n => {| g_tok := Type_; g_ident := n; g_expr := Struct |}) (o_members o).
(** genMessage, main.go:207-224 *)
Definition genMessageDecls (m : pmsg) : list gdecl :=
  if g_entry m then []
  else {| g_tok := Type_; g_ident := g_name m; g_expr := Struct |} :: flat_map genOneof (g_oneofs m).

(** unicode.IsUpper of the first rune, main.go:124-127; for ASCII names. *)
Definition upper (s : string) : bool :=
  match s with
  | EmptyString => false
  | String c _ => (65 <=? N_of_ascii c)%N && (N_of_ascii c <=? 90)%N
  end.
(** genForward, main.go:122-140 *)
Definition genForward (imp : pfile) (d : gdecl) : list gdecl :=
  if negb (upper (g_ident d)) then []
  else if String.eqb (g_ident d) (f_descriptor imp) then []
  else match g_expr d with
       | Selector _ _ => []
       | _ => [{| g_tok := g_tok d; g_ident := g_ident d; g_expr := Selector (f_package imp) (g_ident d) |}]
       end.

(** genImport, main.go:88-166. [generate]: the declarations that GenerateFile
    writes for the imported file, [None] if the recursion is deeper than the
    fuel given. *)
Definition genImport (generate : nat -> option (list gdecl)) (files : list pfile) (f : pfile) (imp : pimport) : option (list gdecl) :=
  match nth_error files (i_file imp) with
  | None => Some []
  | Some impFile =>
    if String.eqb (f_package impFile) (f_package f) then Some []
    else if negb (i_public imp) then Some []
    else option_map (flat_map (genForward impFile)) (generate (i_file imp))
  end.
(** main.go:64-66 *)
Fixpoint genImports (generate : nat -> option (list gdecl)) (files : list pfile) (f : pfile) (imps : list pimport) : option (list gdecl) :=
  match imps with
  | [] => Some []
  | imp :: imps =>
    match genImport generate files f imp, genImports generate files f imps with
    | Some a, Some b => Some (a ++ b)
    | _, _ => None
    end
  end.
(** GenerateFile, main.go:53-75 *)
Fixpoint generateFile (fuel : nat) (files : list pfile) (i : nat) : option (list gdecl) :=
  match fuel with
  | O => None
  | S fuel =>
    match nth_error files i with
    | None => Some []
    | Some f =>
      option_map (fun forwards => forwards ++ flat_map genEnum (allEnums f) ++ flat_map genMessageDecls (allMessages f))
        (genImports (generateFile fuel files) files f (f_imports f))
    end
  end.
(** Files are listed after the files they import (descriptors come from protoc
    in that order), so that the position of the file is fuel enough. *)
Definition GenerateFile (files : list pfile) (i : nat) : option (list gdecl) := generateFile (S i) files i.
