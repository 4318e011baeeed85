(** Doc comments of deprecated elements. *)
From Coq Require Import String Ascii.
From Verif Require Import Base StructTag SpecStructTag StructTagFacts ErrText GenText SpecText TextFacts TextThms.
Local Open Scope string_scope.

(** Texts of whole lines. *)
Lemma whole_map : forall {A} (f : A -> string) l, (forall x, In x l -> whole (f x)) -> whole (String.concat "" (map f l)).
Proof. induction l as [|x l IH]; intros F; [apply whole_nil|]. cbn [map]. rewrite concat_cons. apply whole_app; [apply F; left; reflexivity|apply IH; intros y I; apply F; right; exact I]. Qed.
Lemma twin_whole : forall H a b, twin H a b -> whole a.
Proof. intros H a b (l & d & _ & _ & W & _). exact W. Qed.
Lemma good_calm : forall m, good_message m = true -> calm_message False m.
Proof. intros m G. split; [exact G|split; [intros []|split; apply Forall_forall; intros ? ? []]]. Qed.
Lemma whole_enum : forall e, good_enum e = true -> whole (enum_text e).
Proof. intros e G. eapply (twin_whole False), enum_twin; [exact G|intros []|apply Forall_forall; intros ? ? []]. Qed.
Lemma whole_field : forall m b x, good_message m = true -> In x (g_fields m) -> whole (field_text m b x).
Proof. intros m b x G I. eapply (twin_whole False), field_twin; [apply good_calm, G|exact I]. Qed.
Lemma whole_getter : forall m b x, good_message m = true -> In x (g_fields m) -> whole (getter_text m b x).
Proof. intros m b x G I. eapply (twin_whole False), getter_twin; [apply good_calm, G|exact I]. Qed.
Lemma whole_wrapper : forall m o n, good_message m = true -> In n (g_groups m) -> whole (wrapper_text m o n).
Proof. intros m o n G I. eapply (twin_whole False), wrapper_twin; [apply good_calm, G|exact I]. Qed.
Lemma whole_message : forall m, good_message m = true -> whole (message_text m).
Proof. intros m G. eapply (twin_whole False), message_twin, good_calm, G. Qed.
Lemma whole_fields : forall f xs b, (forall b x, In x xs -> whole (f b x)) -> whole (over_fields f b xs).
Proof. intros f. induction xs; intros b F; [apply whole_nil|]. cbn [over_fields]. apply whole_app; [apply F; left; reflexivity|apply IHxs; intros c x I; apply F; right; exact I]. Qed.
Lemma whole_start : forall m, good_message m = true -> whole (P [lead (g_doc m); "type "; g_ident m; " struct {"]).
Proof.
  intros m G. unfold good_message in G. split_bools. eapply (twin_whole False).
  apply (twin_doc False (appendDeprecationSuffix (leading (g_doc m)) (deprecated (g_doc m))) ""); [apply lead_emits; intros []|apply bare_lead|parts|inked|begun].
Qed.

(** A piece of text, at the start of a line. *)
Definition occurs (x t : string) : Prop := exists a b, whole a /\ t = a ++ x ++ b.
Lemma occurs_refl : forall x, occurs x x.
Proof. intros x. exists "", "". split; [apply whole_nil|]. cbn [append]. rewrite app_nil_s. reflexivity. Qed.
Lemma occurs_here : forall x t b, occurs x t -> occurs x (t ++ b).
Proof. intros x t b (u & v & W & ->). exists u, (v ++ b). split; [exact W|]. rewrite !app_assoc_s. reflexivity. Qed.
Lemma occurs_later : forall x t a, whole a -> occurs x t -> occurs x (a ++ t).
Proof. intros x t a A (u & v & W & ->). exists (a ++ u), v. split; [apply whole_app; assumption|]. rewrite !app_assoc_s. reflexivity. Qed.
Lemma occurs_map : forall {A} (f : A -> string) l x y, (forall z, In z l -> whole (f z)) -> In y l -> occurs x (f y) -> occurs x (String.concat "" (map f l)).
Proof.
  intros A f l x y F I O. induction l as [|z l IH]; [destruct I|]. cbn [map]. rewrite concat_cons. destruct I as [-> |I]; [apply occurs_here, O|].
  apply occurs_later; [apply F; left; reflexivity|apply IH; [|exact I]]. intros w Iw. apply F. right. exact Iw.
Qed.
Lemma occurs_fields : forall f y x, (forall b, occurs x (f b y)) -> forall ys b, (forall b z, In z ys -> whole (f b z)) -> In y ys -> occurs x (over_fields f b ys).
Proof.
  intros f y x O. induction ys as [|z ys IH]; intros b F I; [destruct I|]. cbn [over_fields]. destruct I as [-> |I]; [apply occurs_here, O|].
  apply occurs_later; [apply F; left; reflexivity|apply IH; [|exact I]]. intros c w Iw. apply F. right. exact Iw.
Qed.
Lemma occurs_oneofs : forall f o n x, occurs x (f o n) -> forall ns p, (forall o z, In z ns -> whole (f o z)) -> (p <= o)%nat -> nth_error ns (o - p) = Some n -> occurs x (over_oneofs f p ns).
Proof.
  intros f o n x O. induction ns as [|z ns IH]; intros p F L I; [destruct (o - p)%nat; discriminate I|]. cbn [over_oneofs].
  destruct (Nat.eq_dec p o) as [-> |N].
  - rewrite Nat.sub_diag in I. injection I as ->. apply occurs_here, O.
  - apply occurs_later; [apply F; left; reflexivity|]. apply IH; [intros q w Iw; apply F; right; exact Iw|lia|]. replace (o - p)%nat with (S (o - S p)) in I by lia. exact I.
Qed.
(** What comes before the enums. *)
Definition front (f : tfile) : tfile :=
  {| f_path := f_path f; f_deprecated := f_deprecated f; f_package := f_package f; f_public := f_public f; f_allEnums := []; f_allMessages := [] |}.
Lemma whole_front : forall f, good_file f = true -> whole (file_text (front f)).
Proof.
  intros f G. eapply (twin_whole False), file_twin; [|intros []]. unfold good_file in *. cbn [front f_path f_package f_public f_allEnums f_allMessages forallb].
  split_bools. rewrite !andb_true_iff. repeat split; assumption.
Qed.
Lemma front_text : forall f, file_text f = file_text (front f) ++ String.concat "" (map enum_text (f_allEnums f)) ++ String.concat "" (map message_text (f_allMessages f)).
Proof.
  intros f. unfold file_text. change (header_text (front f)) with (header_text f). cbn [front f_package f_public f_allEnums f_allMessages map].
  rewrite !app_assoc_s. reflexivity.
Qed.
Lemma good_parts : forall f, good_file f = true -> (forall e, In e (f_allEnums f) -> good_enum e = true) /\ (forall m, In m (f_allMessages f) -> good_message m = true).
Proof. intros f G. unfold good_file in G. split_bools. split; apply forallb_forall; assumption. Qed.
Lemma enum_occurs : forall f e, good_file f = true -> In e (f_allEnums f) -> occurs (enum_text e) (file_text f).
Proof.
  intros f e G I. rewrite front_text. apply occurs_later; [apply whole_front, G|]. apply occurs_here.
  apply (occurs_map enum_text _ _ e); [|exact I|apply occurs_refl]. intros z Iz. apply whole_enum, (proj1 (good_parts f G)), Iz.
Qed.
Lemma message_occurs : forall f m, good_file f = true -> In m (f_allMessages f) -> occurs (message_text m) (file_text f).
Proof.
  intros f m G I. rewrite front_text. apply occurs_later; [apply whole_front, G|].
  apply occurs_later; [apply whole_map; intros z Iz; apply whole_enum, (proj1 (good_parts f G)), Iz|].
  apply (occurs_map message_text _ _ m); [|exact I|apply occurs_refl]. intros z Iz. apply whole_message, (proj2 (good_parts f G)), Iz.
Qed.
(** The text of an element: its comment, and a line. *)
Lemma occurs_trans : forall x y z, occurs x y -> occurs y z -> occurs x z.
Proof. intros x y z (a & b & W & ->) (c & d & V & ->). exists (c ++ a), (b ++ d). split; [apply whole_app; assumption|]. rewrite !app_assoc_s. reflexivity. Qed.
Lemma prefix_app : forall a b, String.prefix a (a ++ b) = true.
Proof. induction a; intros; [destruct b; reflexivity|]. cbn [append String.prefix]. destruct (ascii_dec a a) as [_|N]; [apply IHa|exfalso; apply N; reflexivity]. Qed.
Ltac code := eapply (twin_whole False), (twin_code False); [parts|inked|begun].
Lemma whole_doc : forall c parts, Forall part parts -> starts (String.concat "" parts) = true -> whole (P (Comments c :: parts)).
Proof. intros c parts A S. rewrite P_line. apply (whole_line _ _ ""); [apply lined_comments|apply part_parts, A|apply tail_nil|exact S]. Qed.
Lemma whole_doc_end : forall c parts t, Forall part parts -> starts (String.concat "" parts) = true -> tail t -> whole (P (Comments c :: parts ++ [t])).
Proof. intros c parts t A S T. rewrite P_line_end. apply whole_line; [apply lined_comments|apply part_parts, A|exact T|exact S]. Qed.
Ltac found := match goal with |- occurs ?x (P ?l) => replace x with (P l) by (unfold P; rewrite !concat_cons, !app_assoc_s; reflexivity) end; apply occurs_refl.
Lemma element_occurs : forall f d start, good_file f = true -> element f d start -> exists line, one_line line = true /\ String.prefix start line = true /\
  occurs (lead d ++ line ++ newline) (file_text f).
Proof.
  intros f d start G E. destruct (good_parts f G) as [GE GM]. destruct E as [e I|e v I J|m I M|m x I M J].
  - specialize (GE e I). unfold good_enum in GE. split_bools.
    exists ("type " ++ e_ident e ++ "= int32"). split; [|split].
    + rewrite !one_app, (part_one (e_ident e)) by assumption. reflexivity.
    + replace ("type " ++ e_ident e ++ "= int32") with (("type " ++ e_ident e ++ "=") ++ " int32") by (rewrite !app_assoc_s; reflexivity). apply prefix_app.
    + eapply occurs_trans; [|apply enum_occurs; [exact G|exact I]]. unfold enum_text. rewrite concat_app, concat_cons. apply occurs_here, occurs_here. found.
  - specialize (GE e I). unfold good_enum in GE. split_bools.
    assert (GV : forall w, In w (e_vals e) -> word (v_ident w) = true) by (intros w Iw; match goal with E : forallb good_value _ = true |- _ => rewrite forallb_forall in E; exact (E _ Iw) end).
    exists (v_ident v ++ " " ++ e_ident e ++ " = " ++ fmt_d (v_number v) ++ trailingComment (trailing (v_doc v))). split; [|split].
    + rewrite !one_app, (part_one (v_ident v) (GV v J)), (part_one (e_ident e)) by assumption. rewrite (proj2 (part_fmt _)). destruct (trailing_tail (trailing (v_doc v))) as [-> |(l & -> & L)]; [reflexivity|].
      rewrite one_app, L. reflexivity.
    + rewrite <- (app_assoc_s (v_ident v) " "). apply prefix_app.
    + eapply occurs_trans; [|apply enum_occurs; [exact G|exact I]]. unfold enum_text. rewrite !concat_app.
      apply occurs_later; [rewrite !concat_cons; apply whole_app; [apply (whole_doc _ ["type "; e_ident e; "= int32"]); [parts|begun]|apply whole_app; [code|apply whole_nil]]|]. apply occurs_here.
      eapply (occurs_map _ _ _ v); [|exact J|found]. intros w Iw. specialize (GV w Iw).
      apply (whole_doc_end _ [v_ident w; " "; e_ident e; " = "; fmt_d (v_number w)]); [parts|begun|apply trailing_tail].
  - specialize (GM m I). unfold good_message in GM. split_bools.
    exists ("type " ++ g_ident m ++ " struct {"). split; [|split].
    + rewrite !one_app, (part_one (g_ident m)) by assumption. reflexivity.
    + rewrite <- (app_nil_s ("type " ++ g_ident m ++ " struct {")) at 2. apply prefix_app.
    + eapply occurs_trans; [|apply message_occurs; [exact G|exact I]]. unfold message_text. rewrite M. apply occurs_here. found.
  - specialize (GM m I). pose proof (whole_start m GM) as WS. pose proof GM as GM'. unfold good_message in GM'. split_bools.
    assert (GF : forall y, In y (g_fields m) -> good_field y = true) by (intros y Iy; match goal with E : forallb good_field _ = true |- _ => rewrite forallb_forall in E; exact (E _ Iy) end).
    pose proof (GF x J) as GX. unfold good_field in GX. split_bools.
    assert (T : one_line (trailingComment (trailing (x_doc x))) = true).
    { destruct (trailing_tail (trailing (x_doc x))) as [-> |(l & -> & L)]; [reflexivity|]. rewrite one_app, L. reflexivity. }
    assert (TT : one_line (tagsString (x_tags x)) = true) by (apply part_tags; assumption).
    assert (WF : whole (over_fields (field_text m) [] (g_fields m))) by (apply whole_fields; intros b y Iy; apply whole_field; assumption).
    destruct (member_of m x) as [o|] eqn:MO.
    + exists (x_name x ++ " " ++ x_type x ++ tagsString (x_tags x) ++ trailingComment (trailing (x_doc x))). split; [|split].
      * rewrite !one_app, (part_one (x_name x)), (part_one (x_type x)), T, TT by assumption. reflexivity.
      * rewrite <- (app_assoc_s (x_name x) " "). apply prefix_app.
      * eapply occurs_trans; [|apply message_occurs; [exact G|exact I]]. unfold message_text. rewrite M. apply occurs_later; [exact WS|].
        apply occurs_later; [unfold fields_text; apply whole_app; [exact WF|destruct (g_comparable m); [code|apply whole_nil]]|].
        apply occurs_later; [code|]. apply occurs_later; [apply whole_empty|].
        apply occurs_later; [apply whole_fields; intros b y Iy; apply whole_getter; assumption|].
        assert (SY : x_oneof x = Some o /\ n_synthetic (nth o (g_groups m) no_oneof) = false).
        { unfold member_of in MO. destruct (x_oneof x) as [o'|]; [|discriminate MO]. destruct (n_synthetic (nth o' (g_groups m) no_oneof)) eqn:S; [discriminate MO|]. injection MO as ->. split; [reflexivity|exact S]. }
        destruct SY as [XO SY].
        assert (OL : (o < length (g_groups m))%nat).
        { destruct (Nat.lt_ge_cases o (length (g_groups m))) as [L|L]; [exact L|]. rewrite nth_overflow in SY by exact L. discriminate SY. }
        assert (N : good_oneof (nth o (g_groups m) no_oneof) = true)
          by (match goal with E : forallb good_oneof _ = true |- _ => rewrite forallb_forall in E; apply E, nth_In, OL end).
        pose proof (oneof_name_word _ N) as W.
        apply (occurs_oneofs (wrapper_text m) o (nth o (g_groups m) no_oneof)); [|intros; apply whole_wrapper; assumption|apply Nat.le_0_l|rewrite Nat.sub_0_r; apply nth_error_nth', OL].
        unfold wrapper_text. rewrite SY. apply occurs_later; [rewrite !concat_cons; repeat (apply whole_app; [first [apply whole_empty|code]|]); apply whole_nil|]. apply occurs_here.
        eapply (occurs_map _ _ _ x).
        -- intros y Iy. apply filter_In in Iy. destruct Iy as [Iy _]. specialize (GF y Iy). unfold good_field in GF. split_bools. rewrite !concat_cons.
           apply whole_app; [code|]. apply whole_app; [|apply whole_app; [code|apply whole_app; [apply whole_empty|apply whole_nil]]].
           apply (whole_doc_end _ [x_name y; " "; x_type y; tagsString (x_tags y)]); [parts|begun|apply trailing_tail].
        -- apply filter_In. split; [exact J|]. unfold in_oneof. rewrite XO. apply Nat.eqb_refl.
        -- rewrite !concat_cons. apply occurs_later; [code|]. apply occurs_here. found.
    + set (ty := if x_option x then "proto.Option[" ++ x_type x ++ "]" else x_type x).
      exists (x_name x ++ " " ++ ty ++ tagsString (x_tags x) ++ trailingComment (trailing (x_doc x))). split; [|split].
      * rewrite !one_app, T, TT, (part_one (x_name x)) by assumption. assert (one_line ty = true) as ->.
        { unfold ty. destruct (x_option x); rewrite ?one_app, (part_one (x_type x)) by assumption; reflexivity. }
        reflexivity.
      * rewrite <- (app_assoc_s (x_name x) " "). apply prefix_app.
      * eapply occurs_trans; [|apply message_occurs; [exact G|exact I]]. unfold message_text. rewrite M. apply occurs_later; [exact WS|]. apply occurs_here.
        unfold fields_text. apply occurs_here. apply (occurs_fields _ x); [|intros; apply whole_field; assumption|exact J].
        intros b. unfold field_text. rewrite MO. fold ty. found.
Qed.

(** Lines of a piece. *)
Lemma lines_comments : forall ls r, Forall (fun l => one_line l = true) ls ->
  lines (String.concat "" (map (fun line => "//" ++ line ++ newline) ls) ++ r) = (map (append "//") ls ++ lines r)%list.
Proof.
  intros ls r. induction 1 as [|l ls O _ IH]; [reflexivity|]. cbn [map]. rewrite concat_cons.
  replace ((("//" ++ l ++ newline) ++ String.concat "" (map (fun line => "//" ++ line ++ newline) ls)) ++ r)
    with (("//" ++ l) ++ newline ++ String.concat "" (map (fun line => "//" ++ line ++ newline) ls) ++ r) by (rewrite !app_assoc_s; reflexivity).
  rewrite lines_newline, lines_one by (rewrite one_app, O; reflexivity). rewrite IH. reflexivity.
Qed.
Lemma lines_nonempty : forall c, lines c <> [].
Proof. intros [|x s]; [discriminate|]. cbn [lines]. destruct (lf x), (lines s); discriminate. Qed.
Lemma piece_lines : forall a x b, whole a -> exists pre, lines (a ++ x ++ b) = (pre ++ lines (x ++ b))%list /\ is_comment (last pre "") = false.
Proof.
  intros a x b [-> |(c & l & -> & L & O & N)]; [exists []; split; reflexivity|].
  destruct L as [-> |[c' ->]].
  - exists [l]. cbn [append]. rewrite app_assoc_s, lines_newline, lines_one by exact O. split; [reflexivity|exact N].
  - exists (lines c' ++ [l])%list. rewrite !app_assoc_s, lines_newline. split; [|rewrite last_last; exact N].
    rewrite lines_newline, (lines_one l) by exact O. rewrite <- app_assoc. reflexivity.
Qed.
Lemma occurs_doc : forall c line t start, c <> "" -> occurs (Comments c ++ line ++ newline) t -> one_line line = true -> String.prefix start line = true ->
  has_doc t start (lines (trim_nl c)).
Proof.
  intros c line t start N (a & b & W & ->) O S. destruct (piece_lines a (Comments c ++ line ++ newline) b W) as (pre & E & K). exists pre, line, (lines b).
  split; [|split; [exact S|exact K]]. rewrite E. f_equal. rewrite Comments_eq. destruct (String.eqb_spec c ""); [contradiction|].
  rewrite !app_assoc_s, lines_comments by apply lines_each. rewrite lines_newline, (lines_one line) by assumption. reflexivity.
Qed.

(** Paragraphs. *)
Lemma starts_last : forall ls s x, blank x = false -> paragraph_starts s (ls ++ [x]) =
  (paragraph_starts s ls ++ (if (match ls with [] => s | _ => blank (last ls "") end) then [x] else []))%list.
Proof.
  induction ls as [|l ls IH]; intros s x B.
  - cbn [app paragraph_starts]. rewrite B. destruct s; reflexivity.
  - cbn [app paragraph_starts]. rewrite IH by assumption. rewrite app_assoc. f_equal. destruct ls as [|l' ls]; reflexivity.
Qed.
Definition dep_line : string := " Deprecated: Do not use.".
Lemma trim_line : forall a, trim_nl (a ++ newline) = a.
Proof.
  induction a as [|c a IH]; [reflexivity|]. cbn [append]. destruct a as [|d a]; [reflexivity|].
  change (trim_nl (String c (String d a ++ newline))) with (String c (trim_nl (String d a ++ newline))). rewrite IH. reflexivity.
Qed.
Lemma suffix_marked : forall c, marked_deprecated (lines (trim_nl (appendDeprecationSuffix c true))) <-> marked_deprecated (lines c) \/ blank (last (lines c) "") = true.
Proof.
  intros c.
  assert (X : marked_deprecated (lines c ++ [dep_line]) <-> marked_deprecated (lines c) \/ blank (last (lines c) "") = true).
  { unfold marked_deprecated. rewrite starts_last by reflexivity.
    assert (NE : lines c <> []) by (clear; destruct c as [|x s]; [discriminate|cbn [lines]; destruct (lf x), (lines s); discriminate]).
    replace (match lines c with [] => true | _ => blank (last (lines c) "") end) with (blank (last (lines c) "")) by (destruct (lines c); [contradiction|reflexivity]).
    split.
    - intros (l & I & L). apply in_app_or in I. destruct I as [I|I]; [left; exists l; split; assumption|]. destruct (blank (last (lines c) "")); [right; reflexivity|destruct I].
    - intros [(l & I & L)|B]; [exists l; split; [apply in_or_app; left; exact I|exact L]|]. exists dep_line. rewrite B. split; [apply in_or_app; right; left; reflexivity|reflexivity]. }
  unfold appendDeprecationSuffix. destruct c as [|x s].
  - cbn [append]. replace (trim_nl _) with dep_line by reflexivity. split; intros _.
    + right. reflexivity.
    + exists dep_line. split; [left; reflexivity|reflexivity].
  - replace ((String x s ++ newline) ++ " Deprecated: Do not use." ++ newline) with ((String x s ++ newline ++ dep_line) ++ newline) by (rewrite !app_assoc_s; reflexivity).
    rewrite trim_line, lines_newline. exact X.
Qed.
Lemma deprecated_proof : forall f d start, good_file f = true -> element f d start -> deprecated d = true ->
  exists ls, has_doc (file_text f) start ls /\ (marked_deprecated ls <-> marked_deprecated (lines (leading d)) \/ blank (last (lines (leading d)) "") = true).
Proof.
  intros f d start G E D. destruct (element_occurs f d start G E) as (line & O & S & X). unfold lead in X. rewrite D in X.
  eexists. split; [eapply occurs_doc; [|exact X|exact O|exact S]|apply suffix_marked].
  unfold appendDeprecationSuffix. destruct (leading d); discriminate.
Qed.
Lemma lines_end : forall c, last (lines (c ++ newline)) "" = "".
Proof.
  intros c. replace (c ++ newline) with (c ++ newline ++ "") by (rewrite app_nil_s; reflexivity). rewrite lines_newline.
  change (lines "") with [""]. apply last_last.
Qed.
Lemma marked_proof : forall f d start, good_file f = true -> element f d start -> deprecated d = true ->
  leading d = "" \/ (exists c, leading d = c ++ newline) -> exists ls, has_doc (file_text f) start ls /\ marked_deprecated ls.
Proof.
  intros f d start G E D L. destruct (deprecated_proof f d start G E D) as (ls & X & Y). exists ls. split; [exact X|]. apply Y. right.
  destruct L as [-> |[c ->]]; [reflexivity|]. rewrite lines_end. reflexivity.
Qed.
