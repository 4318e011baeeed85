(** Model of a run of the protoc plugin (cmd/protoc-gen-golite/main.go:53-73):
    which files it generates and hands back to protoc. The declarations in a
    file are those of GenFile.v. Not modelled: reading the request and writing
    the response, the parameters of the plugin (none are declared, main.go:59-63; --help, main.go:54-57, is left out),
    formatting, and errors of the Go parser on generated text. *)
From Coq Require Import String.
From Verif Require Import Base GenFile.
Local Open Scope list_scope.

(** protogen.File once more, with GeneratedFilenamePrefix and Generate. *)
Record rfile := { r_file : pfile; r_prefix : string; r_generate : bool }.

(** protogen.GeneratedFile as an element of Plugin.genFiles: the file name, the
    file generated, and whether Skip was called. *)
Record ofile := { o_name : string; o_index : nat; o_skip : bool }.
(** GeneratedFile.Skip (library) for the file at position [k] *)
Fixpoint Skip (k : nat) (gs : list ofile) : list ofile :=
  match gs, k with
  | [], _ => []
  | g :: gs, O => {| o_name := o_name g; o_index := o_index g; o_skip := true |} :: gs
  | g :: gs, S k => g :: Skip k gs
  end.

(** genImport, internal/generator/main.go:88-112, as far as Plugin.genFiles
    goes. [generate] is GenerateFile. *)
Definition runImport (generate : nat -> list ofile -> option (nat * list ofile)) (files : list rfile) (f : rfile) (imp : pimport) (gs : list ofile) : option (list ofile) :=
  match nth_error files (i_file imp) with
  | None => Some gs
  | Some impFile =>
    if String.eqb (f_package (r_file impFile)) (f_package (r_file f)) then Some gs
    else if negb (i_public imp) then Some gs
    else match generate (i_file imp) gs with
         | Some (k, gs) => Some (Skip k gs)
         | None => None
         end
  end.
(** main.go:64-66 *)
Fixpoint runImports (generate : nat -> list ofile -> option (nat * list ofile)) (files : list rfile) (f : rfile) (imps : list pimport) (gs : list ofile) : option (list ofile) :=
  match imps with
  | [] => Some gs
  | imp :: imps =>
    match runImport generate files f imp gs with
    | Some gs => runImports generate files f imps gs
    | None => None
    end
  end.
(** GenerateFile, main.go:53-75: the position of the new file in Plugin.genFiles
    (NewGeneratedFile appends), and Plugin.genFiles afterwards; [None] if the
    recursion is deeper than the fuel given. *)
Fixpoint runFile (fuel : nat) (files : list rfile) (i : nat) (gs : list ofile) : option (nat * list ofile) :=
  match fuel with
  | O => None
  | S fuel =>
    match nth_error files i with
    | None => Some (length gs, gs)
    | Some f =>
      match runImports (runFile fuel files) files f (f_imports (r_file f))
              (gs ++ [{| o_name := String.append (r_prefix f) ".pb.go"; o_index := i; o_skip := false |}]) with
      | Some gs' => Some (length gs, gs')
      | None => None
      end
    end
  end.
(** cmd/protoc-gen-golite/main.go:65-69: the loop over gen.Files, from position
    [i] on *)
Fixpoint runAll (files : list rfile) (i : nat) (rest : list rfile) (gs : list ofile) : option (list ofile) :=
  match rest with
  | [] => Some gs
  | f :: rest =>
    if r_generate f then
      match runFile (S i) files i gs with
      | Some (_, gs) => runAll files (S i) rest gs
      | None => None
      end
    else runAll files (S i) rest gs
  end.
(** The answer to protoc: the files not skipped (protogen's Response), with
    their declarations, and SupportedFeatures, main.go:70. *)
Record response := { a_files : list (string * list gdecl); a_features : N }.
Definition contents (files : list rfile) (g : ofile) : option (list (string * list gdecl)) :=
  if o_skip g then Some [] else option_map (fun ds => [(o_name g, ds)]) (GenerateFile (map r_file files) (o_index g)).
Fixpoint collect {A B} (f : A -> option (list B)) (l : list A) : option (list B) :=
  match l with
  | [] => Some []
  | x :: l => match f x, collect f l with Some a, Some b => Some (a ++ b) | _, _ => None end
  end.
Definition run_plugin (files : list rfile) : option response :=
  match runAll files 0 files [] with
  | Some gs => option_map (fun fs => {| a_files := fs; a_features := 1 |}) (collect (contents files) gs)
  | None => None
  end.
