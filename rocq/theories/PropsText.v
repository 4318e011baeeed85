(** Property theorems about comments in generated files. *)
From Coq Require Import String.
From Verif Require Import Base GenText SpecText TextThms TextDoc TextSample.
Local Open Scope string_scope.

(** C59. Whatever the comments of a .proto file are, the Go compiler sees the
    same lines of code as without them. *)
Theorem comments_ignored : forall f, good_file f = true -> code_lines (file_text f) = code_lines (file_text (bare f)).
Proof. exact comments_ignored_proof. Qed.
Print Assumptions comments_ignored.
Example comments_ignored_ex : good_file textF = true /\ comments textF <> comments (bare textF) /\
  firstn 6 (code_lines (file_text textF)) = ["package pb"; "type T = c.T"; "type Color= int32"; "const ("; "Color_RED Color = 0"; "Color_BLUE Color = -1"]%list.
Proof. vm_compute. repeat split. discriminate. Qed.
(** The Go tools see the same directives if no line of a comment looks like one
    behind the slashes; ... *)
Theorem directives_partial : forall f, good_file f = true -> forallb harmless (comments f) = true -> directives (file_text f) = directives (file_text (bare f)).
Proof. exact directives_proof. Qed.
Print Assumptions directives_partial.
Example directives_ex : good_file textF = true /\ forallb harmless (comments textF) = true /\
  directives (file_text textF) = ["//go:nointerface"; "//go:nointerface"; "//go:nointerface"]%list.
Proof. vm_compute. repeat split. Qed.
(** ... otherwise a comment becomes a directive. *)
Theorem directives_refuted : exists f, good_file f = true /\ directives (file_text (bare f)) = []%list /\
  directives (file_text f) = ["//go:generate rm -rf ."]%list.
Proof. exact (ex_intro _ _ directive_witness). Qed.
Print Assumptions directives_refuted.

(** C60. The doc comment of a deprecated element says so in a paragraph of its
    own exactly if the comment of the .proto file does already or ends with an
    empty line, ... *)
Theorem deprecated_exact : forall f d start, good_file f = true -> element f d start -> deprecated d = true ->
  exists ls, has_doc (file_text f) start ls /\
    (marked_deprecated ls <-> marked_deprecated (lines (leading d)) \/ blank (last (lines (leading d)) "") = true).
Proof. exact deprecated_proof. Qed.
Print Assumptions deprecated_exact.
(** ... which is so for comments that end with a newline and for no comment, ... *)
Theorem deprecated_marked_partial : forall f d start, good_file f = true -> element f d start -> deprecated d = true ->
  leading d = "" \/ (exists c, leading d = c ++ newline) -> exists ls, has_doc (file_text f) start ls /\ marked_deprecated ls.
Proof. exact marked_proof. Qed.
Print Assumptions deprecated_marked_partial.
Example deprecated_ex : good_file textF = true /\
  element textF {| leading := " Message." ++ newline; trailing := ""; deprecated := true |} "type M struct {" /\
  has_doc (file_text textF) "type M struct {" [" Message."; ""; " Deprecated: Do not use."]%list /\
  marked_deprecated [" Message."; ""; " Deprecated: Do not use."]%list.
Proof. exact deprecated_sample. Qed.
(** ... but not for block comments. *)
Theorem deprecated_marked_refuted : exists f d start, good_file f = true /\ element f d start /\ deprecated d = true /\
  forall ls, has_doc (file_text f) start ls -> ~ marked_deprecated ls.
Proof. exact block_refutes. Qed.
Print Assumptions deprecated_marked_refuted.
