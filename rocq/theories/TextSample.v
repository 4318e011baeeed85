(** Files for the examples and refutations of PropsText.v. *)
From Coq Require Import String Ascii.
From Verif Require Import Base StructTag SpecStructTag GenText SpecText TextThms TextDoc.
Local Open Scope string_scope.
Local Open Scope list_scope.

Definition line (s : string) : string := s ++ newline.
(** A file with a deprecated enum and message, a oneof, and comments that look
    like code. *)
Definition tricky : string := (line " end */ } ""` '" ++ line "" ++ " type Evil struct { // ")%string.
Definition textF : tfile :=
  {| f_path := "a/b.proto"; f_deprecated := true; f_package := "pb";
     f_public := [{| i_path := "c.proto"; i_forwards := [("type", "T", "c.T")] |}];
     f_allEnums := [{| e_ident := "Color"; e_doc := {| leading := line " A color."; trailing := ""; deprecated := true |};
        e_vals := [{| v_ident := "Color_RED"; v_number := 0; v_doc := {| leading := tricky; trailing := line " red"; deprecated := false |} |};
                   {| v_ident := "Color_BLUE"; v_number := -1; v_doc := {| leading := ""; trailing := tricky; deprecated := true |} |}] |}];
     f_allMessages := [{| g_ident := "M"; g_mapentry := false; g_tracked := true; g_comparable := true;
        g_doc := {| leading := line " Message."; trailing := ""; deprecated := true |};
        g_fields := [{| x_name := "A"; x_ident := "M_A"; x_type := "int32"; x_option := true; x_tags := [("protobuf", "varint,1,opt")]; x_default := "0";
                        x_oneof := None; x_doc := {| leading := tricky; trailing := line " }"; deprecated := false |} |};
                     {| x_name := "B"; x_ident := "M_B"; x_type := "string"; x_option := false; x_tags := [("protobuf", "bytes,2,opt")];
                        x_default := String (ascii_of_N 34) (String (ascii_of_N 34) ""); x_oneof := Some 0%nat; x_doc := {| leading := ""; trailing := ""; deprecated := true |} |};
                     {| x_name := "C"; x_ident := "M_C"; x_type := "*M"; x_option := false; x_tags := [("protobuf", "bytes,3,opt")]; x_default := "nil";
                        x_oneof := Some 0%nat; x_doc := {| leading := line " see M"; trailing := ""; deprecated := false |} |}];
        g_groups := [{| n_name := "U"; n_ident := "M_U"; n_synthetic := false; n_desc := "u"; n_comments := tricky |}] |}] |}.
(** One message with the given comment. *)
Definition one (c : string) (d : bool) : tfile :=
  {| f_path := "m.proto"; f_deprecated := false; f_package := "pb"; f_public := []; f_allEnums := [];
     f_allMessages := [{| g_ident := "M"; g_mapentry := false; g_tracked := false; g_comparable := true;
        g_doc := {| leading := c; trailing := ""; deprecated := d |}; g_fields := []; g_groups := [] |}] |}.
Lemma directive_witness : good_file (one (line "go:generate rm -rf .") false) = true /\
  directives (file_text (bare (one (line "go:generate rm -rf .") false))) = [] /\
  directives (file_text (one (line "go:generate rm -rf .") false)) = ["//go:generate rm -rf ."].
Proof. vm_compute. repeat split. Qed.
Definition block : tfile := one " A block comment. " true.
Lemma block_lines : lines (file_text block) = ["// Code generated by protoc-gen-golite. DO NOT EDIT."; "// source: m.proto"; ""; "package pb"; "";
  "// A block comment. "; "// Deprecated: Do not use."; "type M struct {"; "_ [0]func()"; "}"; ""; ""].
Proof. vm_compute. reflexivity. Qed.
Ltac rest1 E S := 
  match type of E with
  | context [map _ ?ls] => destruct ls; cbn [map app append] in E
  end; [injection E as -> _; vm_compute in S; first [discriminate S | reflexivity]|
    first [discriminate E | injection E as -> E]].
Ltac it pre E S K := destruct pre as [|? pre]; [vm_compute in K; first [discriminate K | repeat rest1 E S]|cbn [app] in E; injection E as -> E].
Lemma doc_unique : forall ls, has_doc (file_text block) "type M struct {" ls -> ls = [" A block comment. "; " Deprecated: Do not use."].
Proof.
  intros ls (pre & l & post & E & S & K). rewrite block_lines in E. symmetry in E.
  it pre E S K. it pre E S K. it pre E S K. it pre E S K. it pre E S K. it pre E S K.
  it pre E S K. it pre E S K. it pre E S K. it pre E S K. it pre E S K. it pre E S K.
  destruct pre; [|discriminate E]. destruct ls; discriminate E.
Qed.
Lemma block_witness : good_file block = true /\ element block {| leading := " A block comment. "; trailing := ""; deprecated := true |} "type M struct {" /\
  forall ls, has_doc (file_text block) "type M struct {" ls -> ~ marked_deprecated ls.
Proof.
  split; [vm_compute; reflexivity|split].
  - apply (el_message block (nth 0 (f_allMessages block) {| g_ident := ""; g_mapentry := true; g_tracked := false; g_comparable := true; g_doc := no_doc; g_fields := []; g_groups := [] |}));
      [left; reflexivity|reflexivity].
  - intros ls D (l & I & L). rewrite (doc_unique ls D) in I. vm_compute in I. destruct I as [<-|[]]. vm_compute in L. discriminate L.
Qed.
Lemma block_refutes : exists f d start, good_file f = true /\ element f d start /\ deprecated d = true /\
  forall ls, has_doc (file_text f) start ls -> ~ marked_deprecated ls.
Proof. destruct block_witness as (A & B & C). eexists _, _, _. split; [exact A|split; [exact B|split; [reflexivity|exact C]]]. Qed.
Lemma deprecated_sample : good_file textF = true /\
  element textF {| leading := line " Message."; trailing := ""; deprecated := true |} "type M struct {" /\
  has_doc (file_text textF) "type M struct {" [" Message."; ""; " Deprecated: Do not use."] /\
  marked_deprecated [" Message."; ""; " Deprecated: Do not use."].
Proof.
  split; [vm_compute; reflexivity|split; [|split]].
  - apply (el_message textF (nth 0 (f_allMessages textF) {| g_ident := ""; g_mapentry := true; g_tracked := false; g_comparable := true; g_doc := no_doc; g_fields := []; g_groups := [] |}));
      [left; reflexivity|reflexivity].
  - exists (firstn 22 (lines (file_text textF))), "type M struct {", (skipn 26 (lines (file_text textF))).
    split; [vm_compute; reflexivity|split; vm_compute; reflexivity].
  - exists " Deprecated: Do not use.". split; [vm_compute; auto|reflexivity].
Qed.
