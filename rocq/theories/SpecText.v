(** What Go source text means to the compiler as far as comments go. *)
From Coq Require Import String Ascii.
From Verif Require Import Base SpecStructTag GenText.
Local Open Scope list_scope.

(** ** Comments by the Go language specification: they start outside of string
    and rune literals and other comments; a line comment ends before the
    newline, a general comment acts like a newline if it contains one and like
    a space otherwise. *)
Inductive place := InCode | InLine | InBlock (newline : bool) | InString (esc : bool) | InRaw | InRune (esc : bool).
Definition is (n : N) (c : ascii) : bool := (N_of_ascii c =? n)%N.
Definition slash := is 47. Definition star := is 42. Definition lf := is 10.
Definition dquote := is 34. Definition squote := is 39. Definition bquote := is 96. Definition bslash := is 92.
Fixpoint uncomment (p : place) (s : string) : string :=
  match s with
  | EmptyString => EmptyString
  | String c s' =>
    match p with
    | InCode =>
      if dquote c then String c (uncomment (InString false) s')
      else if squote c then String c (uncomment (InRune false) s')
      else if bquote c then String c (uncomment InRaw s')
      else if slash c then
        match s' with
        | String d s'' => if slash d then uncomment InLine s''
                          else if star d then uncomment (InBlock false) s''
                          else String c (uncomment InCode s')
        | EmptyString => String c EmptyString
        end
      else String c (uncomment InCode s')
    | InLine => if lf c then String c (uncomment InCode s') else uncomment InLine s'
    | InBlock nl =>
      if star c then
        match s' with
        | String d s'' => if slash d then String (if nl then ascii_of_N 10 else ascii_of_N 32) (uncomment InCode s'')
                          else uncomment (InBlock nl) s'
        | EmptyString => EmptyString
        end
      else uncomment (InBlock (nl || lf c)) s'
    | InString esc => String c (uncomment (if esc then InString false else if bslash c then InString true else if dquote c then InCode else InString false) s')
    | InRaw => String c (uncomment (if bquote c then InCode else InRaw) s')
    | InRune esc => String c (uncomment (if esc then InRune false else if bslash c then InRune true else if squote c then InCode else InRune false) s')
    end
  end.
(** Lines. *)
Fixpoint lines (s : string) : list string :=
  match s with
  | EmptyString => [EmptyString]
  | String c s => if lf c then EmptyString :: lines s
                  else match lines s with l :: r => String c l :: r | [] => [String c EmptyString] end
  end.
Definition blank (s : string) : bool := all_chars (fun n => (n =? 32)%N || (n =? 9)%N || (n =? 13)%N) s.
(** The lines of a program that are not blank when comments are removed. *)
Definition code_lines (s : string) : list string := filter (fun l => negb (blank l)) (lines (uncomment InCode s)).

(** ** Directives of the Go tools: comments which start at the beginning of a
    line, without a space after the slashes. *)
Definition directive (line : string) : bool :=
  existsb (fun p => String.prefix p line) ["//go:"; "//line "; "//export "; "//extern "]%string.
Definition directives (s : string) : list string := filter directive (lines s).

(** ** Deprecation: a paragraph of the doc comment that starts with
    "Deprecated: ". [ls]: the lines of the comment behind the slashes. *)
Definition deprecation (line : string) : bool :=
  String.prefix "Deprecated: "%string line || String.prefix " Deprecated: "%string line.
Fixpoint paragraph_starts (start : bool) (ls : list string) : list string :=
  match ls with
  | [] => []
  | l :: ls => (if start && negb (blank l) then [l] else []) ++ paragraph_starts (blank l) ls
  end.
Definition marked_deprecated (ls : list string) : Prop := exists l, In l (paragraph_starts true ls) /\ deprecation l = true.
(** Some line of the text starts with [start] and has the doc comment [ls]: the
    comment lines directly above it. *)
Definition is_comment (line : string) : bool := String.prefix "//" line.
Definition has_doc (text start : string) (ls : list string) : Prop :=
  exists pre line post, lines text = pre ++ map (fun l => "//" ++ l)%string ls ++ line :: post /\
    String.prefix start line = true /\ is_comment (last pre EmptyString) = false.
(** Elements of a file with a doc comment, and how their declaration starts. *)
Inductive element (f : tfile) : doc -> string -> Prop :=
| el_enum e : In e (f_allEnums f) -> element f (e_doc e) ("type " ++ e_ident e ++ "=")
| el_value e v : In e (f_allEnums f) -> In v (e_vals e) -> element f (v_doc v) (v_ident v ++ " ")
| el_message m : In m (f_allMessages f) -> g_mapentry m = false -> element f (g_doc m) ("type " ++ g_ident m ++ " struct {")
| el_field m x : In m (f_allMessages f) -> g_mapentry m = false -> In x (g_fields m) -> element f (x_doc x) (x_name x ++ " ").

(** ** The same file without its comments *)
Definition no_doc : doc := {| leading := ""; trailing := ""; deprecated := false |}.
Definition bare_value (v : tvalue) : tvalue := {| v_ident := v_ident v; v_number := v_number v; v_doc := no_doc |}.
Definition bare_enum (e : tenum) : tenum := {| e_ident := e_ident e; e_doc := no_doc; e_vals := map bare_value (e_vals e) |}.
Definition bare_field (x : tfield) : tfield :=
  {| x_name := x_name x; x_ident := x_ident x; x_type := x_type x; x_option := x_option x; x_tags := x_tags x;
     x_default := x_default x; x_oneof := x_oneof x; x_doc := no_doc |}.
Definition bare_oneof (n : toneof) : toneof :=
  {| n_name := n_name n; n_ident := n_ident n; n_synthetic := n_synthetic n; n_desc := n_desc n; n_comments := "" |}.
Definition bare_message (m : tmsg) : tmsg :=
  {| g_ident := g_ident m; g_mapentry := g_mapentry m; g_tracked := g_tracked m; g_comparable := g_comparable m;
     g_doc := no_doc; g_fields := map bare_field (g_fields m); g_groups := map bare_oneof (g_groups m) |}.
Definition bare (f : tfile) : tfile :=
  {| f_path := f_path f; f_deprecated := f_deprecated f; f_package := f_package f; f_public := f_public f;
     f_allEnums := map bare_enum (f_allEnums f); f_allMessages := map bare_message (f_allMessages f) |}.

(** ** Names: identifiers, types and values consist of letters, digits and the
    like; in particular no quotes, slashes or newlines. *)
Definition word_char (n : N) : bool :=
  (33 <=? n)%N && negb (n =? 34)%N && negb (n =? 39)%N && negb (n =? 96)%N && negb (n =? 47)%N.
Definition word (s : string) : bool := negb (String.eqb s EmptyString) && all_chars word_char s.
Definition value_text (s : string) : bool := word s || String.eqb s (String (ascii_of_N 34) (String (ascii_of_N 34) EmptyString)).
Definition one_line (s : string) : bool := all_chars (fun n => negb (n =? 10)%N) s.
Definition good_value (v : tvalue) : bool := word (v_ident v).
Definition good_enum (e : tenum) : bool := word (e_ident e) && forallb good_value (e_vals e).
Definition good_field (x : tfield) : bool :=
  word (x_name x) && word (x_ident x) && word (x_type x) && value_text (x_default x) && good_tags (x_tags x).
Definition good_oneof (n : toneof) : bool := word (n_name n) && word (n_ident n) && ascii_text (n_desc n).
Definition good_message (m : tmsg) : bool :=
  word (g_ident m) && forallb good_field (g_fields m) && forallb good_oneof (g_groups m).
Definition good_import (i : timport) : bool :=
  one_line (i_path i) && forallb (fun f => let '(tok, name, q) := f in word tok && word name && word q) (i_forwards i).
Definition good_file (f : tfile) : bool :=
  one_line (f_path f) && word (f_package f) && forallb good_import (f_public f) &&
  forallb good_enum (f_allEnums f) && forallb good_message (f_allMessages f).

(** ** All comments of a file, without the slashes *)
Definition doc_comments (d : doc) : list string := [leading d; trailing d].
Definition comments (f : tfile) : list string :=
  flat_map (fun e => doc_comments (e_doc e) ++ flat_map (fun v => doc_comments (v_doc v)) (e_vals e)) (f_allEnums f) ++
  flat_map (fun m => doc_comments (g_doc m) ++ flat_map (fun x => doc_comments (x_doc x)) (g_fields m) ++ map n_comments (g_groups m)) (f_allMessages f).
(** No line of the comment would be a directive behind two slashes. *)
Definition harmless (c : string) : bool := forallb (fun l => negb (directive ("//" ++ l)%string)) (lines c).
