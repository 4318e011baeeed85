(** The structs of a generated file, line by line. *)
From Coq Require Import String Ascii.
From Verif Require Import Base GoType StructTag SpecStructTag StructTagFacts ErrText GenText SpecText TextFacts TextThms SpecGo GoFacts.
Local Open Scope string_scope.

(** The lines of code of a field, and of the struct. *)
Definition ftype (x : tfield) : string := if x_option x then "proto.Option[" ++ x_type x ++ "]" else x_type x.
Definition field_code (m : tmsg) (b : list tfield) (x : tfield) : list string :=
  match member_of m x with
  | Some o =>
    if first_of b o then
      let n := nth o (g_groups m) no_oneof in
      [n_name n ++ String space (oneofInterfaceName n ++ tagsString (oneofTags (n_desc n) (g_tracked m)))]
    else []
  | None => [x_name x ++ String space (ftype x ++ tagsString (x_tags x))]
  end.
Fixpoint fields_code (m : tmsg) (b xs : list tfield) : list string :=
  match xs with [] => [] | x :: xs => (field_code m b x ++ fields_code m (b ++ [x]) xs)%list end.
Definition marker : string := "_ [0]func()".
Definition struct_code (m : tmsg) : string * list string :=
  (g_ident m, fields_code m [] (g_fields m) ++ (if g_comparable m then [marker] else []))%list.
Definition wrapper_codes (m : tmsg) (o : nat) (n : toneof) : list (string * list string) :=
  if n_synthetic n then [] else map (fun x => (x_ident x, [x_name x ++ String space (x_type x ++ tagsString (x_tags x))])) (members m o).
Fixpoint oneofs_codes (m : tmsg) (o : nat) (ns : list toneof) : list (string * list string) :=
  match ns with [] => [] | n :: ns => (wrapper_codes m o n ++ oneofs_codes m (S o) ns)%list end.
Definition message_codes (m : tmsg) : list (string * list string) :=
  if g_mapentry m then [] else struct_code m :: oneofs_codes m 0 (g_groups m).

(** Tactics for lines that start no struct. *)
Ltac sless := rewrite ?spaceless_app; repeat (apply andb_true_iff; split); first [assumption | apply word_spaceless; assumption | reflexivity].
Ltac plainline := apply reads_line; [parts|inked|begun|].

Lemma not_brace : forall a r, a ++ String space r <> "}".
Proof. intros [|c [|d a]] r E; discriminate E. Qed.
Lemma concat3 : forall a b c, String.concat "" [a; b; c] = a ++ b ++ c.
Proof. intros. rewrite !concat_cons. cbn [String.concat]. rewrite app_nil_s. reflexivity. Qed.

Section M.
Variable m : tmsg.
Hypothesis G : good_message m = true.
Lemma GI : word (g_ident m) = true.
Proof. unfold good_message in G. pose proof G as Q. split_bools. assumption. Qed.
Lemma GF : forall x, In x (g_fields m) -> good_field x = true.
Proof. intros x I. pose proof G as Q. unfold good_message in Q. split_bools. match goal with E : forallb good_field _ = true |- _ => rewrite forallb_forall in E; exact (E _ I) end. Qed.
Lemma GO : forall n, In n (g_groups m) -> good_oneof n = true.
Proof. intros x I. pose proof G as Q. unfold good_message in Q. split_bools. match goal with E : forallb good_oneof _ = true |- _ => rewrite forallb_forall in E; exact (E _ I) end. Qed.

Lemma field_shows : forall b x, In x (g_fields m) -> shows (field_text m b x) (field_code m b x).
Proof.
  intros b x I. unfold field_text, field_code. destruct (member_of m x) as [o|] eqn:M.
  - destruct (first_of b o); [|apply shows_nil]. set (n := nth o (g_groups m) no_oneof).
    pose proof (GO n (member_group _ _ _ M)) as N. pose proof (oneof_name_word _ N) as W. unfold good_oneof in N. split_bools.
    pose proof (tags_oneof _ (g_tracked m) ltac:(eassumption)) as T.
    replace (n_name n ++ String space (oneofInterfaceName n ++ tagsString (oneofTags (n_desc n) (g_tracked m))))
      with (String.concat "" [n_name n; " "; oneofInterfaceName n; tagsString (oneofTags (n_desc n) (g_tracked m))]) by (rewrite !concat_cons; cbn [String.concat]; rewrite app_nil_s; reflexivity).
    eapply emits_shows, doc_line; [apply any_comments|parts|inked|begun].
  - pose proof (GF x I) as N. unfold good_field in N. split_bools. unfold ftype.
    assert (PT : part (if x_option x then "proto.Option[" ++ x_type x ++ "]" else x_type x)).
    { destruct (x_option x); [|apply part_word; assumption]. apply part_app; [apply part_plain; reflexivity|]. apply part_app; [apply part_word; assumption|apply part_plain; reflexivity]. }
    replace (x_name x ++ String space ((if x_option x then "proto.Option[" ++ x_type x ++ "]" else x_type x) ++ tagsString (x_tags x)))
      with (String.concat "" [x_name x; " "; if x_option x then "proto.Option[" ++ x_type x ++ "]" else x_type x; tagsString (x_tags x)])
      by (rewrite !concat_cons; cbn [String.concat]; rewrite app_nil_s; reflexivity).
    eapply emits_shows. apply (doc_line_end False (lead (x_doc x)) [x_name x; " "; if x_option x then "proto.Option[" ++ x_type x ++ "]" else x_type x; tagsString (x_tags x)]);
      [apply lead_shows|parts|inked|begun|apply trailing_tail].
Qed.
Lemma over_shows : forall xs b, incl xs (g_fields m) -> shows (over_fields (field_text m) b xs) (fields_code m b xs).
Proof.
  induction xs as [|x xs IH]; intros b I; [apply shows_nil|]. cbn [over_fields fields_code]. apply shows_app; [apply field_shows, I; left; reflexivity|].
  apply IH. intros y Iy. apply I. right. exact Iy.
Qed.
Lemma fields_brace : forall xs b, Forall (fun l => l <> "}") (fields_code m b xs).
Proof.
  induction xs as [|x xs IH]; intros b; [constructor|]. cbn [fields_code]. apply Forall_app. split; [|apply IH]. unfold field_code.
  destruct (member_of m x); [destruct (first_of b n)|]; repeat constructor; apply not_brace.
Qed.
Lemma start_shows : shows (P [lead (g_doc m); "type "; g_ident m; " struct {"]) ["type " ++ g_ident m ++ " struct {"].
Proof.
  pose proof GI. rewrite <- concat3. eapply emits_shows, doc_line; [apply lead_shows|parts|inked|begun].
Qed.
Lemma struct_reads : reads (P [lead (g_doc m); "type "; g_ident m; " struct {"] ++ fields_text m ++ P ["}"]) [struct_code m].
Proof.
  apply reads_struct; [exact start_shows|apply word_spaceless, GI| |].
  - unfold fields_text. apply shows_app; [apply over_shows, incl_refl|]. destruct (g_comparable m); [|apply shows_nil].
    apply (emits_shows _ [marker] []). apply (code_line False ["_ [0]func()"]); [parts|reflexivity|reflexivity].
  - apply Forall_app. split; [apply fields_brace|]. destruct (g_comparable m); repeat constructor. discriminate.
Qed.
Lemma pragma_reads : forall t, reads (pragma t) [].
Proof. intros [|]; [|apply reads_nil]. unfold pragma. apply reads_skip; [exact (reads_comment "go:nointerface" eq_refl)|apply reads_empty]. Qed.
Lemma getter_reads : forall b x, In x (g_fields m) -> reads (getter_text m b x) [].
Proof.
  intros b x I. unfold getter_text. apply reads_skip; [apply pragma_reads|]. apply reads_then; [|apply reads_empty].
  destruct (member_of m x) as [o|] eqn:M; [|apply reads_nil]. pose proof (GO _ (member_group _ _ _ M)) as N. pose proof (oneof_name_word _ N) as W.
  pose proof (GF x I) as Gx. pose proof GI as Gi. unfold good_field in Gx. unfold good_oneof in N. split_bools.
  apply reads_skip.
  - destruct (first_of b o); [|apply reads_nil]. rewrite !concat_cons.
    apply reads_skip; [plainline; rewrite concat_cons; apply (header_first "func"); reflexivity|].
    apply reads_skip; [plainline; reflexivity|].
    apply reads_skip; [plainline; rewrite concat_cons; apply (header_first "return"); reflexivity|].
    repeat (apply reads_skip; [first [apply reads_empty | plainline; reflexivity]|]). apply reads_nil.
  - rewrite !concat_cons.
    apply reads_skip; [apply reads_doc; [parts|inked|begun|rewrite concat_cons; apply (header_first "func"); reflexivity]|].
    apply reads_skip; [plainline; rewrite concat_cons; apply (header_first "if"); reflexivity|].
    apply reads_skip; [plainline; rewrite concat_cons; apply (header_first "return"); reflexivity|].
    apply reads_skip; [plainline; reflexivity|].
    apply reads_skip; [plainline; rewrite concat_cons; apply (header_first "return"); reflexivity|].
    apply reads_skip; [plainline; reflexivity|]. apply reads_nil.
Qed.
Lemma getters_read : forall xs b, incl xs (g_fields m) -> reads (over_fields (getter_text m) b xs) [].
Proof.
  induction xs as [|x xs IH]; intros b I; [apply reads_nil|]. cbn [over_fields]. apply reads_skip; [apply getter_reads, I; left; reflexivity|].
  apply IH. intros y Iy. apply I. right. exact Iy.
Qed.
Lemma wrapper_reads : forall o n, In n (g_groups m) -> reads (wrapper_text m o n) (wrapper_codes m o n).
Proof.
  intros o n I. unfold wrapper_text, wrapper_codes. destruct (n_synthetic n); [apply reads_nil|].
  pose proof (GO n I) as N. pose proof (oneof_name_word _ N) as W. unfold good_oneof in N. split_bools.
  assert (MB : forall x, In x (members m o) -> In x (g_fields m)) by (intros x Ix; apply filter_In in Ix; apply Ix).
  apply reads_skip; [|apply reads_then].
  - rewrite !concat_cons.
    apply reads_skip.
    { plainline. rewrite concat3. apply (header_third "type" (oneofInterfaceName n) "interface" "{"); sless. }
    apply reads_skip.
    { plainline. rewrite !concat_cons. cbn [String.concat]. rewrite app_nil_s. apply header_one. sless. }
    repeat (apply reads_skip; [first [apply reads_empty | plainline; reflexivity]|]). apply reads_nil.
  - replace (map (fun x => (x_ident x, [x_name x ++ String space (x_type x ++ tagsString (x_tags x))])) (members m o))
      with (flat_map (fun x => [(x_ident x, [x_name x ++ String space (x_type x ++ tagsString (x_tags x))])]) (members m o))
      by (induction (members m o); [reflexivity|]; cbn [map flat_map app]; rewrite <- IHl by (intros; apply MB; right; assumption); reflexivity).
    apply reads_map. intros x Ix. apply MB in Ix. pose proof (GF x Ix) as Gx. unfold good_field in Gx. split_bools.
    rewrite !concat_cons. cbn [String.concat]. rewrite app_nil_s.
    replace (P ["type "; x_ident x; " struct {"] ++ P [lead (x_doc x); x_name x; " "; x_type x; tagsString (x_tags x); trailingComment (trailing (x_doc x))] ++ P ["}"] ++ P [])
      with ((P ["type "; x_ident x; " struct {"] ++ P [lead (x_doc x); x_name x; " "; x_type x; tagsString (x_tags x); trailingComment (trailing (x_doc x))] ++ P ["}"]) ++ P [])
      by (rewrite !app_assoc_s; reflexivity).
    apply reads_then; [|apply reads_empty]. apply reads_struct.
    + rewrite <- concat3. eapply emits_shows, code_line; [parts|inked|begun].
    + apply word_spaceless. assumption.
    + replace (x_name x ++ String space (x_type x ++ tagsString (x_tags x))) with (String.concat "" [x_name x; " "; x_type x; tagsString (x_tags x)])
        by (rewrite !concat_cons; cbn [String.concat]; rewrite app_nil_s; reflexivity).
      eapply emits_shows. apply (doc_line_end False (lead (x_doc x)) [x_name x; " "; x_type x; tagsString (x_tags x)]); [apply lead_shows|parts|inked|begun|apply trailing_tail].
    + repeat constructor. apply not_brace.
  - apply reads_none. intros x Ix. apply MB in Ix. pose proof (GF x Ix) as Gx. unfold good_field in Gx. split_bools.
    apply reads_skip; [|apply reads_empty]. plainline. rewrite concat_cons. apply (header_first "func"); reflexivity.
Qed.
Lemma oneofs_read : forall ns o, incl ns (g_groups m) -> reads (over_oneofs (wrapper_text m) o ns) (oneofs_codes m o ns).
Proof.
  induction ns as [|n ns IH]; intros o I; [apply reads_nil|]. cbn [over_oneofs oneofs_codes]. apply reads_app; [apply wrapper_reads, I; left; reflexivity|].
  apply IH. intros y Iy. apply I. right. exact Iy.
Qed.
Lemma message_reads : reads (message_text m) (message_codes m).
Proof.
  unfold message_text, message_codes. destruct (g_mapentry m); [apply reads_nil|].
  replace (P [lead (g_doc m); "type "; g_ident m; " struct {"] ++ fields_text m ++ P ["}"] ++ P [] ++ over_fields (getter_text m) [] (g_fields m) ++ over_oneofs (wrapper_text m) 0 (g_groups m))
    with ((P [lead (g_doc m); "type "; g_ident m; " struct {"] ++ fields_text m ++ P ["}"]) ++ P [] ++ over_fields (getter_text m) [] (g_fields m) ++ over_oneofs (wrapper_text m) 0 (g_groups m))
    by (rewrite !app_assoc_s; reflexivity).
  change (struct_code m :: oneofs_codes m 0 (g_groups m)) with ([struct_code m] ++ oneofs_codes m 0 (g_groups m))%list.
  apply reads_app; [exact struct_reads|]. apply reads_skip; [apply reads_empty|]. apply reads_skip; [apply getters_read, incl_refl|]. apply oneofs_read, incl_refl.
Qed.
End M.

Lemma enum_reads : forall e, good_enum e = true -> reads (enum_text e) [].
Proof.
  intros e G. unfold good_enum in G. split_bools. unfold enum_text. rewrite !concat_app. apply reads_skip; [|apply reads_skip].
  - rewrite !concat_cons. apply reads_skip.
    { apply reads_doc; [parts|inked|begun|]. rewrite concat3. replace ("type " ++ e_ident e ++ "= int32") with ("type" ++ String space ((e_ident e ++ "=") ++ String space "int32"))
        by (rewrite app_assoc_s; reflexivity). apply header_three; sless. }
    apply reads_skip; [plainline; reflexivity|apply reads_nil].
  - apply reads_none. intros v Iv. match goal with E : forallb good_value _ = true |- _ => rewrite forallb_forall in E; specialize (E v Iv); unfold good_value in E end.
    apply (reads_doc_end _ [v_ident v; " "; e_ident e; " = "; fmt_d (v_number v)]); [parts|inked|begun|apply trailing_tail|].
    rewrite !concat_cons. apply (header_third (v_ident v) (e_ident e) "="); sless.
  - rewrite !concat_cons. apply reads_skip; [plainline; reflexivity|]. apply reads_skip; [apply reads_empty|apply reads_nil].
Qed.
Lemma file_structs : forall f, good_file f = true -> structs None (code_lines (file_text f)) = flat_map message_codes (f_allMessages f).
Proof.
  intros f G. assert (R : reads (file_text f) (flat_map message_codes (f_allMessages f))).
  { unfold good_file in G. split_bools. unfold file_text.
    apply reads_skip; [|apply reads_skip; [|apply reads_skip; [|apply reads_skip; [|apply reads_skip]]]].
    - unfold header_text. apply reads_skip; [apply (reads_comment " Code generated by protoc-gen-golite. DO NOT EDIT."); reflexivity|].
      apply reads_skip; [|apply reads_empty]. destruct (f_deprecated f).
      + replace (P ["// "; f_path f; " is a deprecated file."]) with ("//" ++ (" " ++ f_path f ++ " is a deprecated file.") ++ newline)
          by (unfold P; rewrite !concat_cons, !app_assoc_s; reflexivity).
        apply reads_comment. rewrite !one_app. match goal with E : one_line (f_path f) = true |- _ => rewrite E end. reflexivity.
      + replace (P ["// source: "; f_path f]) with ("//" ++ (" source: " ++ f_path f) ++ newline)
          by (unfold P; rewrite !concat_cons, !app_assoc_s; cbn [String.concat append]; rewrite ?app_nil_s; reflexivity).
        apply reads_comment. rewrite !one_app. match goal with E : one_line (f_path f) = true |- _ => rewrite E end. reflexivity.
    - apply (reads_line ["package "; f_package f]); [parts|inked|begun|]. rewrite concat_cons. apply (header_first "package"); reflexivity.
    - apply reads_empty.
    - apply reads_none. intros i Ii. match goal with E : forallb good_import _ = true |- _ => rewrite forallb_forall in E; specialize (E _ Ii); unfold good_import in E end.
      split_bools. unfold import_text. apply reads_skip; [|apply reads_skip; [apply reads_empty|apply reads_skip; [|apply reads_empty]]].
      + replace (P ["// Symbols defined in public import of "; i_path i; "."]) with ("//" ++ (" Symbols defined in public import of " ++ i_path i ++ ".") ++ newline)
          by (unfold P; rewrite !concat_cons, !app_assoc_s; reflexivity).
        apply reads_comment. rewrite !one_app. match goal with E : one_line (i_path i) = true |- _ => rewrite E end. reflexivity.
      + apply reads_none. intros [[tok name] q] It. match goal with E : forallb _ (i_forwards i) = true |- _ => rewrite forallb_forall in E; specialize (E _ It) end.
        cbn beta iota in *. split_bools. plainline. rewrite !concat_cons. apply (header_third tok name "="); sless.
    - apply reads_none. intros e Ie. match goal with E : forallb good_enum _ = true |- _ => rewrite forallb_forall in E; specialize (E _ Ie) end. apply enum_reads. assumption.
    - apply reads_map. intros m Im. match goal with E : forallb good_message _ = true |- _ => rewrite forallb_forall in E; specialize (E _ Im) end. apply message_reads. assumption. }
  specialize (R ""). rewrite app_nil_s in R. rewrite R. apply app_nil_r.
Qed.
