(** Comments do not change the generated code. *)
From Coq Require Import String Ascii.
From Verif Require Import Base StructTag SpecStructTag StructTagFacts ErrText GenText SpecText TextFacts.
Local Open Scope string_scope.

(** Conjunctions of booleans in hypotheses. *)
Ltac split_bools := repeat match goal with E : (_ && _)%bool = true |- _ => apply andb_true_iff in E; destruct E end.
Ltac parts := repeat (first [apply Forall_nil | apply Forall_cons; [first [apply part_word; assumption | apply part_fmt | apply part_value; assumption
  | apply part_tags; assumption | apply part_plain; vm_compute; reflexivity | assumption]|]]).
Lemma blank_mid : forall a b, blank a = false -> blank (a ++ b) = false.
Proof. intros. rewrite blank_app, H. reflexivity. Qed.
Ltac inked := rewrite concat_cons; apply blank_mid; first [apply word_blank; assumption | vm_compute; reflexivity].
Ltac begun := rewrite concat_cons; apply starts_app; first [apply word_starts; assumption | vm_compute; reflexivity].
Lemma oneof_name_word : forall n, good_oneof n = true -> word (oneofInterfaceName n) = true.
Proof.
  intros n E. unfold good_oneof in E. split_bools. unfold oneofInterfaceName. unfold word in *. split_bools.
  cbn [append String.eqb negb andb all_chars]. assumption.
Qed.

Section Twins.
Variable H : Prop.
Notation twin := (twin H).
Notation twin0 := (twin0 H).
Notation emits := (emits H).

Definition harmless_doc (d : doc) : Prop := H -> harmless (leading d) = true.
Lemma enum_twin : forall e, good_enum e = true -> harmless_doc (e_doc e) -> Forall (fun v => harmless_doc (v_doc v)) (e_vals e) ->
  twin (enum_text e) (enum_text (bare_enum e)).
Proof.
  intros e G He Hv. unfold good_enum in G. split_bools. unfold enum_text. rewrite !concat_app. cbn [e_ident e_doc e_vals bare_enum]. apply twin_app; [|apply twin_app].
  - rewrite !concat_cons. apply twin_app; [|apply twin_app; [|apply twin_nil]].
    + apply (twin_doc H (appendDeprecationSuffix (leading (e_doc e)) (deprecated (e_doc e))) ""); [apply lead_emits, He|apply bare_lead|parts|inked|begun].
    + apply twin_code; [parts|inked|begun].
  - rewrite map_map. apply twin_list. rewrite Forall_forall in Hv |- *. intros v Iv. specialize (Hv v Iv). cbn [bare_value v_ident v_number v_doc].
    match goal with E : forallb good_value _ = true |- _ => rewrite forallb_forall in E; specialize (E v Iv); unfold good_value in E end.
    apply (twin_doc_end H (appendDeprecationSuffix (leading (v_doc v)) (deprecated (v_doc v))) "" [v_ident v; " "; e_ident e; " = "; fmt_d (v_number v)]);
      [apply lead_emits, Hv|apply bare_lead|parts|inked|begun|apply trailing_tail|apply trailing_tail].
  - rewrite !concat_cons. apply twin_app; [|apply twin_app; [|apply twin_nil]]; [|apply twin_empty]. apply twin_code; [parts|inked|begun].
Qed.

Lemma members_bare : forall m o, members (bare_message m) o = map bare_field (members m o).
Proof.
  intros m o. unfold members. cbn [bare_message g_fields]. induction (g_fields m) as [|x xs IH]; [reflexivity|]. cbn [map filter].
  change (in_oneof o (bare_field x)) with (in_oneof o x). destruct (in_oneof o x); cbn [map]; rewrite IH; reflexivity.
Qed.
Lemma group_bare : forall m o, nth o (g_groups (bare_message m)) no_oneof = bare_oneof (nth o (g_groups m) no_oneof).
Proof. intros m o. cbn [bare_message g_groups]. change no_oneof with (bare_oneof no_oneof) at 1. apply map_nth. Qed.
Lemma member_bare : forall m x, member_of (bare_message m) (bare_field x) = member_of m x.
Proof. intros m x. unfold member_of. cbn [bare_field x_oneof]. destruct (x_oneof x); [|reflexivity]. rewrite group_bare. reflexivity. Qed.
Lemma first_bare : forall b o, first_of (map bare_field b) o = first_of b o.
Proof. intros b o. unfold first_of. f_equal. induction b; [reflexivity|]. cbn [map existsb]. rewrite IHb. reflexivity. Qed.
Lemma member_group : forall m x o, member_of m x = Some o -> In (nth o (g_groups m) no_oneof) (g_groups m).
Proof.
  intros m x o E. unfold member_of in E. destruct (x_oneof x) as [o'|]; [|discriminate E].
  destruct (n_synthetic (nth o' (g_groups m) no_oneof)) eqn:S; [discriminate E|]. injection E as ->.
  destruct (Nat.lt_ge_cases o (length (g_groups m))) as [L|L]; [apply nth_In, L|]. rewrite nth_overflow in S by exact L. discriminate S.
Qed.
Lemma oneof_harmless : forall m o, harmless (n_comments (nth o (g_groups m) no_oneof)) = true -> one_line (n_name (nth o (g_groups m) no_oneof)) = true ->
  Forall (fun x => one_line (x_ident x) = true) (members m o) -> harmless (oneof_comment m o) = true.
Proof.
  intros m o A B C. unfold oneof_comment. set (n := nth o (g_groups m) no_oneof) in *.
  assert (X : harmless (" Types that are assignable to " ++ n_name n ++ ":" ++ newline ++ String.concat "" (map (fun x => String (chr 9) ("*" ++ x_ident x ++ newline)) (members m o))) = true).
  { replace (" Types that are assignable to " ++ n_name n ++ ":" ++ newline ++ String.concat "" (map (fun x => String (chr 9) ("*" ++ x_ident x ++ newline)) (members m o)))
      with ((" Types that are assignable to " ++ n_name n ++ ":") ++ newline ++ String.concat "" (map (fun x => String (chr 9) ("*" ++ x_ident x ++ newline)) (members m o)))
      by (rewrite !app_assoc_s; reflexivity).
    rewrite harmless_nl. apply andb_true_iff. split.
    - unfold harmless. rewrite lines_one by (rewrite !one_app, B; reflexivity). reflexivity.
    - induction C as [|x xs Ox _ IH]; [reflexivity|]. cbn [map]. rewrite concat_cons. cbn [append]. rewrite !app_assoc_s.
      change (String (chr 9) (String "*" (x_ident x ++ newline ++ ?r))) with (String (chr 9) (String "*" (x_ident x)) ++ newline ++ r).
      rewrite harmless_nl. apply andb_true_iff. split; [|exact IH]. unfold harmless. rewrite lines_one by (unfold one_line in *; cbn [all_chars]; exact Ox). reflexivity. }
  rewrite !app_assoc_s. destruct (n_comments n) as [|c s]; [exact X|]. rewrite app_assoc_s, harmless_nl, A. exact X.
Qed.
Lemma part_one : forall s, word s = true -> one_line s = true.
Proof. intros s W. apply part_word in W. apply W. Qed.

(** What is assumed of a message. *)
Definition calm_message (m : tmsg) : Prop :=
  good_message m = true /\ harmless_doc (g_doc m) /\ Forall (fun x => harmless_doc (x_doc x)) (g_fields m) /\
  Forall (fun n => H -> harmless (n_comments n) = true) (g_groups m).
Lemma bare_calm : forall m, good_message m = true -> calm_message (bare_message m).
Proof.
  intros m G. split; [|split; [intros _; reflexivity|split]].
  - unfold good_message in *. cbn [bare_message g_ident g_fields g_groups]. split_bools. rewrite !andb_true_iff. repeat split; [assumption| |].
    + rewrite forallb_forall in *. intros x Ix. apply in_map_iff in Ix. destruct Ix as (y & <- & Iy). apply (H2 y Iy).
    + rewrite forallb_forall in *. intros x Ix. apply in_map_iff in Ix. destruct Ix as (y & <- & Iy). apply (H1 y Iy).
  - cbn [bare_message g_fields]. rewrite Forall_forall. intros x Ix. apply in_map_iff in Ix. destruct Ix as (y & <- & Iy). intros _. reflexivity.
  - cbn [bare_message g_groups]. rewrite Forall_forall. intros x Ix. apply in_map_iff in Ix. destruct Ix as (y & <- & Iy). intros _. reflexivity.
Qed.
Lemma calm_group : forall m o x, calm_message m -> member_of m x = Some o ->
  good_oneof (nth o (g_groups m) no_oneof) = true /\ emits (Comments (oneof_comment m o)) [] [].
Proof.
  intros m o x (G & _ & _ & C) M. apply member_group in M. unfold good_message in G. split_bools.
  match goal with E : forallb good_oneof _ = true |- _ => rewrite forallb_forall in E; pose proof (E _ M) as N end.
  split; [exact N|]. apply comments_emit. intros h. rewrite Forall_forall in C. apply oneof_harmless; [apply (C _ M h)| |].
  - unfold good_oneof in N. split_bools. apply part_one. assumption.
  - apply Forall_forall. intros y Iy. apply filter_In in Iy. destruct Iy as [Iy _].
    match goal with E : forallb good_field _ = true |- _ => rewrite forallb_forall in E; specialize (E _ Iy); unfold good_field in E end. split_bools. apply part_one. assumption.
Qed.
Lemma good_member : forall m x, calm_message m -> In x (g_fields m) -> good_field x = true /\ emits (lead (x_doc x)) [] [].
Proof.
  intros m x (G & _ & C & _) Ix. unfold good_message in G. split_bools. split.
  - match goal with E : forallb good_field _ = true |- _ => rewrite forallb_forall in E; exact (E _ Ix) end.
  - apply lead_emits. rewrite Forall_forall in C. exact (C _ Ix).
Qed.
Lemma tags_oneof : forall name tracked, ascii_text name = true -> good_tags (oneofTags name tracked) = true.
Proof. intros name tr E. unfold oneofTags, good_tags. cbn [forallb fst snd]. rewrite E. destruct tr; reflexivity. Qed.

Section Message.
Variable m : tmsg.
Hypothesis C : calm_message m.
Let C' : calm_message (bare_message m) := bare_calm m (proj1 C).
Lemma field_twin : forall b x, In x (g_fields m) -> twin (field_text m b x) (field_text (bare_message m) (map bare_field b) (bare_field x)).
Proof.
  intros b x Ix. unfold field_text. rewrite member_bare. destruct (member_of m x) as [o|] eqn:M.
  - rewrite first_bare. destruct (first_of b o); [|apply twin_nil]. destruct (calm_group m o x C M) as [N E].
    assert (M' : member_of (bare_message m) (bare_field x) = Some o) by (rewrite member_bare; exact M).
    destruct (calm_group _ _ _ C' M') as [_ E']. rewrite group_bare in *. pose proof (oneof_name_word _ N) as W. unfold good_oneof in N. split_bools.
    pose proof (tags_oneof _ (g_tracked m) ltac:(eassumption)) as T.
    apply (twin_doc H (oneof_comment m o) (oneof_comment (bare_message m) o)
      [n_name (nth o (g_groups m) no_oneof); " "; oneofInterfaceName (nth o (g_groups m) no_oneof); tagsString (oneofTags (n_desc (nth o (g_groups m) no_oneof)) (g_tracked m))]);
      [exact E|exact E'|parts|inked|begun].
  - destruct (good_member m x C Ix) as [G E]. unfold good_field in G. split_bools.
    apply (twin_doc_end H (appendDeprecationSuffix (leading (x_doc x)) (deprecated (x_doc x))) "" [x_name x; " "; if x_option x then "proto.Option[" ++ x_type x ++ "]" else x_type x; tagsString (x_tags x)]);
      [exact E|apply bare_lead| |inked|begun|apply trailing_tail|apply trailing_tail].
    assert (PT : part (if x_option x then "proto.Option[" ++ x_type x ++ "]" else x_type x)).
    { destruct (x_option x); [|apply part_word; assumption]. apply part_app; [apply part_plain; reflexivity|]. apply part_app; [apply part_word; assumption|apply part_plain; reflexivity]. }
    parts.
Qed.
Lemma over_twin : forall f g, (forall b x, In x (g_fields m) -> twin (f b x) (g (map bare_field b) (bare_field x))) ->
  forall xs b, incl xs (g_fields m) -> twin (over_fields f b xs) (over_fields g (map bare_field b) (map bare_field xs)).
Proof.
  intros f g F. induction xs as [|x xs IH]; intros b I; [apply twin_nil|]. cbn [over_fields map]. apply twin_app; [apply F, I; left; reflexivity|].
  replace (map bare_field b ++ [bare_field x])%list with (map bare_field (b ++ [x])) by (rewrite map_app; reflexivity).
  apply IH. intros y Iy. apply I. right. exact Iy.
Qed.
Lemma fields_twin : twin (fields_text m) (fields_text (bare_message m)).
Proof.
  unfold fields_text. apply twin_app.
  - apply (over_twin _ _ field_twin (g_fields m) []). apply incl_refl.
  - cbn [bare_message g_comparable]. destruct (g_comparable m); [|apply twin_nil]. apply twin_code; [parts|inked|begun].
Qed.
Lemma pragma_twin : forall t, twin (pragma t) (pragma t).
Proof.
  intros [|]; [|apply twin_nil]. unfold pragma. apply twin_after; [|apply twin_empty|apply P_nonempty|apply P_nonempty].
  exact (comment_twin H "go:nointerface" eq_refl).
Qed.
Lemma deprecation_emits : forall d, emits (Comments (appendDeprecationSuffix "" d)) [] [].
Proof. intros d. apply comments_emit. intros _. apply suffix_harmless. reflexivity. Qed.
Lemma getter_twin : forall b x, In x (g_fields m) -> twin (getter_text m b x) (getter_text (bare_message m) (map bare_field b) (bare_field x)).
Proof.
  intros b x Ix. unfold getter_text. rewrite member_bare. apply twin_app; [apply pragma_twin|]. apply twin_app; [|apply twin_empty].
  destruct (member_of m x) as [o|] eqn:M; [|apply twin_nil]. rewrite first_bare, group_bare. destruct (calm_group m o x C M) as [N _].
  pose proof (oneof_name_word _ N) as W. destruct (good_member m x C Ix) as [G _]. unfold good_field in G. unfold good_oneof in N.
  assert (GM : word (g_ident m) = true) by (pose proof C as QQ; destruct QQ as (G' & _); unfold good_message in G'; split_bools; assumption). split_bools.
  cbn [bare_message bare_oneof bare_field g_ident n_name x_name x_type x_ident x_default x_doc].
  change (oneofInterfaceName (bare_oneof (nth o (g_groups m) no_oneof))) with (oneofInterfaceName (nth o (g_groups m) no_oneof)).
  apply twin_app.
  - destruct (first_of b o); [|apply twin_nil]. rewrite !concat_cons. repeat (apply twin_app; [first [apply twin_empty | apply twin_code; [parts|inked|begun]]|]). apply twin_nil.
  - rewrite !concat_cons. apply twin_app; [apply (twin_doc H); [apply deprecation_emits|apply deprecation_emits|parts|inked|begun]|].
    repeat (apply twin_app; [apply twin_code; [parts|inked|begun]|]). apply twin_nil.
Qed.
Lemma wrapper_twin : forall o n, In n (g_groups m) -> twin (wrapper_text m o n) (wrapper_text (bare_message m) o (bare_oneof n)).
Proof.
  intros o n In_. unfold wrapper_text. cbn [bare_oneof n_synthetic]. destruct (n_synthetic n); [apply twin_nil|].
  assert (N : good_oneof n = true) by (pose proof C as QQ; destruct QQ as (G' & _); unfold good_message in G'; split_bools;
    match goal with E : forallb good_oneof _ = true |- _ => rewrite forallb_forall in E; exact (E _ In_) end).
  pose proof (oneof_name_word _ N) as W.
  change (oneofInterfaceName {| n_name := n_name n; n_ident := n_ident n; n_synthetic := n_synthetic n; n_desc := n_desc n; n_comments := "" |}) with (oneofInterfaceName n).
  assert (MB : forall x, In x (members m o) -> In x (g_fields m)) by (intros x Ix; apply filter_In in Ix; apply Ix).
  rewrite members_bare, !map_map. apply twin_app; [|apply twin_app].
  - rewrite !concat_cons. repeat (apply twin_app; [first [apply twin_empty | apply twin_code; [parts|inked|begun]]|]). apply twin_nil.
  - apply twin_list. apply Forall_forall. intros x Ix. apply MB in Ix. destruct (good_member m x C Ix) as [G E]. unfold good_field in G. split_bools.
    cbn [bare_field x_name x_ident x_type x_tags x_doc]. rewrite !concat_cons. apply twin_app; [apply twin_code; [parts|inked|begun]|]. apply twin_app.
    + apply (twin_doc_end H (appendDeprecationSuffix (leading (x_doc x)) (deprecated (x_doc x))) "" [x_name x; " "; x_type x; tagsString (x_tags x)]);
        [exact E|apply bare_lead|parts|inked|begun|apply trailing_tail|apply trailing_tail].
    + apply twin_app; [apply twin_code; [parts|inked|begun]|]. apply twin_app; [apply twin_empty|apply twin_nil].
  - apply twin_list. apply Forall_forall. intros x Ix. apply MB in Ix. destruct (good_member m x C Ix) as [G _]. unfold good_field in G. split_bools.
    cbn [bare_field x_ident]. apply twin_app; [apply twin_code; [parts|inked|begun]|apply twin_empty].
Qed.
Lemma oneofs_twin : forall ns o, incl ns (g_groups m) -> twin (over_oneofs (wrapper_text m) o ns) (over_oneofs (wrapper_text (bare_message m)) o (map bare_oneof ns)).
Proof.
  induction ns as [|n ns IH]; intros o I; [apply twin_nil|]. cbn [over_oneofs map]. apply twin_app; [apply wrapper_twin, I; left; reflexivity|].
  apply IH. intros y Iy. apply I. right. exact Iy.
Qed.
Lemma message_twin : twin (message_text m) (message_text (bare_message m)).
Proof.
  unfold message_text. cbn [bare_message g_mapentry g_doc g_ident g_fields g_groups]. destruct (g_mapentry m); [apply twin_nil|].
  assert (GM : word (g_ident m) = true /\ harmless_doc (g_doc m)) by (pose proof C as QQ; destruct QQ as (G' & D & _); unfold good_message in G'; split_bools; split; assumption).
  destruct GM as [GM HD]. apply twin_app.
  { apply (twin_doc H (appendDeprecationSuffix (leading (g_doc m)) (deprecated (g_doc m))) ""); [apply lead_emits, HD|apply bare_lead|parts|inked|begun]. }
  apply twin_app; [exact fields_twin|]. apply twin_app; [apply twin_code; [parts|inked|begun]|]. apply twin_app; [apply twin_empty|].
  apply twin_app; [apply (over_twin _ _ getter_twin (g_fields m) []), incl_refl|]. apply oneofs_twin, incl_refl.
Qed.
End Message.

Lemma file_twin : forall f, good_file f = true -> (H -> forallb harmless (comments f) = true) -> twin (file_text f) (file_text (bare f)).
Proof.
  intros f G T. unfold good_file in G. split_bools. unfold file_text. cbn [bare f_package f_public f_allEnums f_allMessages].
  assert (TE : forall e, In e (f_allEnums f) -> harmless_doc (e_doc e) /\ Forall (fun v => harmless_doc (v_doc v)) (e_vals e)).
  { intros e Ie. assert (X : forall c, In c (doc_comments (e_doc e) ++ flat_map (fun v => doc_comments (v_doc v)) (e_vals e))%list -> H -> harmless c = true).
    { intros c Ic h. specialize (T h). rewrite forallb_forall in T. apply T. unfold comments. apply in_or_app. left. apply in_flat_map. exists e. split; assumption. }
    split; [intros h; apply X; [left; reflexivity|exact h]|]. apply Forall_forall. intros v Iv h. apply X; [|exact h]. apply in_or_app. right. apply in_flat_map.
    exists v. split; [exact Iv|left; reflexivity]. }
  assert (TM : forall m, In m (f_allMessages f) -> good_message m = true -> calm_message m).
  { intros m Im Gm. assert (X : forall c, In c (doc_comments (g_doc m) ++ flat_map (fun x => doc_comments (x_doc x)) (g_fields m) ++ map n_comments (g_groups m))%list -> H -> harmless c = true).
    { intros c Ic h. specialize (T h). rewrite forallb_forall in T. apply T. unfold comments. apply in_or_app. right. apply in_flat_map. exists m. split; assumption. }
    split; [exact Gm|split; [|split]].
    - intros h; apply X; [left; reflexivity|exact h].
    - apply Forall_forall. intros v Iv h. apply X; [|exact h]. apply in_or_app. right. apply in_or_app. left. apply in_flat_map. exists v. split; [exact Iv|left; reflexivity].
    - apply Forall_forall. intros n In_ h. apply X; [|exact h]. apply in_or_app. right. apply in_or_app. right. apply in_map, In_. }
  apply twin_app; [|apply twin_app; [|apply twin_app; [|apply twin_app; [|apply twin_app]]]].
  - unfold header_text. cbn [bare f_path f_deprecated]. rewrite <- !app_assoc_s. apply twin_after; [|apply twin_empty|apply P_nonempty|apply P_nonempty].
    apply twin0_app; [apply (comment_twin H " Code generated by protoc-gen-golite. DO NOT EDIT."); reflexivity|]. destruct (f_deprecated f).
    + replace (P ["// "; f_path f; " is a deprecated file."]) with ("//" ++ (" " ++ f_path f ++ " is a deprecated file.") ++ newline)
        by (unfold P; rewrite !concat_cons, !app_assoc_s; reflexivity).
      apply comment_twin. rewrite !one_app. match goal with E : one_line (f_path f) = true |- _ => rewrite E end. reflexivity.
    + replace (P ["// source: "; f_path f]) with ("//" ++ (" source: " ++ f_path f) ++ newline)
        by (unfold P; rewrite !concat_cons, !app_assoc_s; cbn [String.concat append]; rewrite ?app_nil_s; reflexivity).
      apply comment_twin. rewrite !one_app. match goal with E : one_line (f_path f) = true |- _ => rewrite E end. reflexivity.
  - apply (twin_code H ["package "; f_package f]); [parts|inked|begun].
  - apply twin_empty.
  - apply twin_list. apply Forall_forall. intros i Ii. match goal with E : forallb good_import _ = true |- _ => rewrite forallb_forall in E; specialize (E _ Ii); unfold good_import in E end.
    split_bools. unfold import_text. apply twin_after; [|apply twin_app; [apply twin_empty|apply twin_app; [|apply twin_empty]]|discriminate|discriminate].
    + replace (P ["// Symbols defined in public import of "; i_path i; "."]) with ("//" ++ (" Symbols defined in public import of " ++ i_path i ++ ".") ++ newline)
        by (unfold P; rewrite !concat_cons, !app_assoc_s; reflexivity).
      apply comment_twin. rewrite !one_app. match goal with E : one_line (i_path i) = true |- _ => rewrite E end. reflexivity.
    + apply twin_list. apply Forall_forall. intros [[tok name] q] It. match goal with E : forallb _ (i_forwards i) = true |- _ => rewrite forallb_forall in E; specialize (E _ It) end.
      cbn beta iota in *. split_bools. apply twin_code; [parts|inked|begun].
  - rewrite map_map. apply twin_list. apply Forall_forall. intros e Ie. match goal with E : forallb good_enum _ = true |- _ => rewrite forallb_forall in E; specialize (E _ Ie) end.
    destruct (TE e Ie) as [A B]. apply enum_twin; assumption.
  - rewrite map_map. apply twin_list. apply Forall_forall. intros m Im. match goal with E : forallb good_message _ = true |- _ => rewrite forallb_forall in E; specialize (E _ Im) end.
    apply message_twin, TM; assumption.
Qed.
End Twins.

Lemma comments_ignored_proof : forall f, good_file f = true -> code_lines (file_text f) = code_lines (file_text (bare f)).
Proof.
  intros f G. destruct (file_twin False f G ltac:(contradiction)) as (ls & ds & A & B & _). specialize (A ""). specialize (B ""). rewrite app_nil_s in A, B.
  destruct A as [-> _]. destruct B as [-> _]. reflexivity.
Qed.
Lemma directives_proof : forall f, good_file f = true -> forallb harmless (comments f) = true -> directives (file_text f) = directives (file_text (bare f)).
Proof.
  intros f G T. destruct (file_twin True f G (fun _ => T)) as (ls & ds & A & B & _). specialize (A ""). specialize (B ""). rewrite app_nil_s in A, B.
  destruct A as [_ A]. destruct B as [_ B]. rewrite (A Logic.I), (B Logic.I). reflexivity.
Qed.
