(** Facts about the text of generated files. *)
From Coq Require Import String Ascii.
From Verif Require Import Base StructTag SpecStructTag StructTagFacts ErrText GenText SpecText.
Local Open Scope string_scope.

Lemma concat_cons : forall x l, String.concat "" (x :: l) = x ++ String.concat "" l.
Proof. intros x [|y l]; [cbn; symmetry; apply app_nil_s|]. reflexivity. Qed.
Lemma concat_app : forall l m, String.concat "" (l ++ m)%list = String.concat "" l ++ String.concat "" m.
Proof. induction l; intros; [reflexivity|]. cbn [app]. rewrite !concat_cons, IHl, app_assoc_s. reflexivity. Qed.
Lemma eqb_nl : forall c, Ascii.eqb c nl = lf c.
Proof. intros [[|] [|] [|] [|] [|] [|] [|] [|]]; reflexivity. Qed.
Lemma lf_newline : forall c, lf c = true -> c = nl.
Proof. intros c H. rewrite <- eqb_nl in H. apply Ascii.eqb_eq. exact H. Qed.
Lemma split_lines : forall s, split_nl s = lines s.
Proof. induction s; [reflexivity|]. cbn [split_nl lines]. rewrite eqb_nl, IHs. reflexivity. Qed.
Lemma lines_one : forall s, one_line s = true -> lines s = [s].
Proof.
  induction s; [reflexivity|]. unfold one_line. cbn [all_chars lines]. rewrite andb_true_iff. intros [A B].
  unfold lf, is. destruct (N_of_ascii a =? 10)%N; [discriminate A|]. rewrite (IHs B). reflexivity.
Qed.
Lemma lines_nl : forall a b, lines (a ++ String nl b) = (lines a ++ lines b)%list.
Proof.
  induction a; intros; [reflexivity|]. cbn [append lines]. rewrite IHa. destruct (lf a); [reflexivity|].
  destruct (lines a0) eqn:E; [|reflexivity]. destruct a0 as [|x s]; [discriminate E|]. cbn in E. destruct (lf x), (lines s); discriminate E.
Qed.
Lemma lines_newline : forall a b, lines (a ++ newline ++ b) = (lines a ++ lines b)%list.
Proof. intros. exact (lines_nl a b). Qed.
Lemma lines_each : forall s, Forall (fun l => one_line l = true) (lines s).
Proof.
  induction s; [repeat constructor|]. cbn [lines]. destruct (lf a) eqn:E; [constructor; [reflexivity|exact IHs]|].
  destruct (lines s) as [|l r]; inversion IHs; subst; constructor; try assumption; unfold one_line in *; cbn [all_chars];
    unfold lf, is in E; rewrite E; auto.
Qed.
Lemma one_app : forall a b, one_line (a ++ b) = one_line a && one_line b.
Proof. intros. apply all_app. Qed.
Lemma blank_app : forall a b, blank (a ++ b) = blank a && blank b.
Proof. intros. apply all_app. Qed.
Lemma lf_false : forall c s, one_line (String c s) = true -> lf c = false /\ one_line s = true.
Proof. intros c s. unfold one_line, lf, is. cbn [all_chars]. destruct (N_of_ascii c =? 10)%N; [discriminate|]. auto. Qed.

(** ** Removal of comments *)
Lemma line_removed : forall l r, one_line l = true -> uncomment InLine (l ++ newline ++ r) = newline ++ uncomment InCode r.
Proof. induction l; intros r H; [reflexivity|]. apply lf_false in H. destruct H as [A B]. cbn [append uncomment]. rewrite A. apply (IHl _ B). Qed.
Lemma comment_removed : forall l r, one_line l = true -> uncomment InCode ("//" ++ l ++ newline ++ r) = newline ++ uncomment InCode r.
Proof. intros. exact (line_removed l r H). Qed.

(** Text that is complete in itself. *)
Definition closed (s : string) : Prop := forall r, uncomment InCode (s ++ r) = s ++ uncomment InCode r.
Definition plain_char (n : N) : bool := negb (n =? 34)%N && negb (n =? 39)%N && negb (n =? 96)%N && negb (n =? 47)%N.
Lemma closed_plain : forall s, all_chars plain_char s = true -> closed s.
Proof.
  induction s; intros H r; [reflexivity|]. cbn [all_chars] in H. rewrite andb_true_iff in H. destruct H as [A B]. cbn [append uncomment].
  unfold plain_char in A. unfold dquote, squote, bquote, slash, is.
  destruct (N_of_ascii a =? 34)%N, (N_of_ascii a =? 39)%N, (N_of_ascii a =? 96)%N, (N_of_ascii a =? 47)%N; try discriminate A.
  f_equal. exact (IHs B r).
Qed.
Lemma closed_app : forall a b, closed a -> closed b -> closed (a ++ b).
Proof. intros a b A B r. rewrite app_assoc_s, A, B, app_assoc_s. reflexivity. Qed.
Lemma raw_rest : forall s r, all_chars (fun n => negb (n =? 96)%N) s = true ->
  uncomment InRaw (s ++ String backtick r) = s ++ String backtick (uncomment InCode r).
Proof.
  induction s; intros r H; [reflexivity|]. cbn [all_chars] in H. rewrite andb_true_iff in H. destruct H as [A B]. cbn [append uncomment].
  unfold bquote at 1, is. destruct (N_of_ascii a =? 96)%N; [discriminate A|]. rewrite IHs by assumption. reflexivity.
Qed.
Lemma join_raw : forall ts, good_tags ts = true -> all_chars (fun n => negb (n =? 96)%N) (joinTags ts) = true.
Proof. intros. eapply all_impl; [|apply join_plain; eassumption]. cbn beta. intros n. destruct (n =? 96)%N; [discriminate|reflexivity]. Qed.
Lemma closed_tags : forall ts, good_tags ts = true -> closed (tagsString ts).
Proof.
  intros ts H r. unfold tagsString. destruct ts as [|t ts]; [reflexivity|]. cbn [append uncomment]. change (dquote backtick) with false.
  change (squote backtick) with false. change (bquote backtick) with true. cbn [uncomment]. f_equal. rewrite !app_assoc_s.
  apply (raw_rest (joinTags (t :: ts))). apply join_raw, H.
Qed.
Lemma closed_empty : closed (String (ascii_of_N 34) (String (ascii_of_N 34) EmptyString)).
Proof. intros r. reflexivity. Qed.

(** A piece of a line of code. *)
Definition part (s : string) : Prop := closed s /\ one_line s = true.
Lemma part_app : forall a b, part a -> part b -> part (a ++ b).
Proof. intros a b [A B] [C E]. split; [apply closed_app; assumption|]. rewrite one_app, B, E. reflexivity. Qed.
Lemma part_plain : forall s, all_chars plain_char s && one_line s = true -> part s.
Proof. intros s H. rewrite andb_true_iff in H. destruct H. split; [apply closed_plain|]; assumption. Qed.
Lemma part_word : forall s, word s = true -> part s.
Proof.
  intros s H. unfold word in H. rewrite andb_true_iff in H. destruct H as [_ H]. split; [apply closed_plain|]; (eapply all_impl; [|exact H]);
    intros n; unfold word_char, plain_char; cbn beta; destruct (n =? 10)%N eqn:E; try (apply N.eqb_eq in E; subst; discriminate);
    destruct (33 <=? n)%N; cbn [andb]; auto; discriminate.
Qed.
Lemma word_blank : forall s, word s = true -> blank s = false.
Proof.
  intros s H. unfold word in H. rewrite andb_true_iff in H. destruct H as [A B]. destruct s as [|c s]; [discriminate A|]. unfold blank. cbn [all_chars] in *.
  rewrite andb_true_iff in B. destruct B as [B _]. unfold word_char in B. destruct (33 <=? N_of_ascii c)%N eqn:L; [|discriminate B]. apply N.leb_le in L.
  destruct (N.eqb_spec (N_of_ascii c) 32); [lia|]. destruct (N.eqb_spec (N_of_ascii c) 9); [lia|]. destruct (N.eqb_spec (N_of_ascii c) 13); [lia|]. reflexivity.
Qed.
Lemma part_value : forall s, value_text s = true -> part s.
Proof.
  intros s H. unfold value_text in H. rewrite orb_true_iff in H. destruct H as [H|H]; [apply part_word, H|]. apply String.eqb_eq in H. subst.
  split; [exact closed_empty|reflexivity].
Qed.
Lemma escape_one : forall c, one_line (escape c) = true.
Proof. intros [[|] [|] [|] [|] [|] [|] [|] [|]]; vm_compute; reflexivity. Qed.
Lemma escapes_one : forall s, one_line (escapes s) = true.
Proof. induction s; [reflexivity|]. cbn [escapes]. rewrite one_app, escape_one, IHs. reflexivity. Qed.
Lemma replace_one : forall s, one_line s = true -> one_line (replace_backtick s) = true.
Proof.
  induction s; [reflexivity|]. intros H. cbn [replace_backtick]. apply lf_false in H. destruct H as [A B]. rewrite one_app, (IHs B).
  unfold one_line. destruct (Ascii.eqb a backtick); [reflexivity|]. unfold str1. cbn [all_chars]. unfold lf, is in A. rewrite A. reflexivity.
Qed.
Lemma key_one : forall k, good_key k = true -> one_line k = true.
Proof.
  intros k H. apply good_key_all in H. destruct H as [_ H]. eapply all_impl; [|exact H]. unfold key_code. intros n. destruct (N.eqb_spec n 10); [subst; discriminate|reflexivity].
Qed.
Lemma join_one : forall ts, good_tags ts = true -> one_line (joinTags ts) = true.
Proof.
  assert (T : forall t, good_key (fst t) && ascii_text (snd t) = true -> one_line (tagText t) = true).
  { intros t H. rewrite andb_true_iff in H. destruct H as [H _]. unfold tagText. rewrite one_app, (key_one _ H). unfold one_line. cbn [all_chars andb].
    apply replace_one. unfold Quote. unfold one_line. cbn [all_chars]. fold (one_line (escapes (snd t) ++ str1 quote_chr)). rewrite one_app, escapes_one. reflexivity. }
  induction ts as [|t ts IH]; [reflexivity|]. cbn [good_tags forallb]. rewrite andb_true_iff. intros [A B]. destruct ts as [|t' ts]; [apply T, A|].
  rewrite join_cons, one_app, (T _ A). unfold one_line at 1. cbn [all_chars andb]. apply IH, B.
Qed.
Lemma part_tags : forall ts, good_tags ts = true -> part (tagsString ts).
Proof.
  intros ts H. split; [apply closed_tags, H|]. unfold tagsString. destruct ts as [|t ts]; [reflexivity|]. unfold one_line. cbn [all_chars].
  fold (one_line (joinTags (t :: ts) ++ str1 backtick)). rewrite one_app, (join_one _ H). reflexivity.
Qed.
Lemma part_fmt : forall z, part (fmt_d z).
Proof.
  assert (U : forall u, all_chars (fun n => (45 <=? n)%N && (n <=? 57)%N && negb (n =? 47)%N) (DecimalString.NilEmpty.string_of_uint u) = true).
  { induction u; cbn; auto. }
  intros z. assert (X : all_chars (fun n => (45 <=? n)%N && (n <=? 57)%N && negb (n =? 47)%N) (fmt_d z) = true).
  { unfold fmt_d, DecimalString.NilZero.string_of_int, DecimalString.NilZero.string_of_uint. destruct (Z.to_int z); cbn [all_chars]; destruct d; try reflexivity; apply U. }
  split; [apply closed_plain|]; (eapply all_impl; [|exact X]); intros n; unfold plain_char; cbn beta; intros H; rewrite !andb_true_iff in H; destruct H as [[H1 H2] H3];
    apply N.leb_le in H1; apply N.leb_le in H2.
  - destruct (N.eqb_spec n 34); [lia|]. destruct (N.eqb_spec n 39); [lia|]. destruct (N.eqb_spec n 96); [lia|]. exact H3.
  - destruct (N.eqb_spec n 10); [lia|]. reflexivity.
Qed.
Lemma part_parts : forall l, Forall part l -> part (String.concat "" l).
Proof. induction 1; [split; [intros r|]; reflexivity|]. rewrite concat_cons. apply part_app; assumption. Qed.

(** ** What a piece of the file amounts to: lines of code, and directives *)
Section H.
Variable H : Prop.
Definition emits (a : string) (ls ds : list string) : Prop :=
  forall r, code_lines (a ++ r) = (ls ++ code_lines r)%list /\ (H -> directives (a ++ r) = (ds ++ directives r)%list).
Lemma emits_nil : emits "" [] [].
Proof. intros r. split; reflexivity. Qed.
Lemma emits_app : forall a l d b m e, emits a l d -> emits b m e -> emits (a ++ b) (l ++ m) (d ++ e).
Proof.
  intros a l d b m e A B r. rewrite app_assoc_s. destruct (A (b ++ r)) as [A1 A2]. destruct (B r) as [B1 B2]. split.
  - rewrite A1, B1, app_assoc. reflexivity.
  - intros h. rewrite (A2 h), (B2 h), app_assoc. reflexivity.
Qed.
(** Comment lines. *)
Lemma comment_code : forall l r, one_line l = true -> code_lines ("//" ++ l ++ newline ++ r) = code_lines r.
Proof. intros l r O. unfold code_lines. rewrite comment_removed by assumption. unfold newline, str1. cbn [append lines]. rewrite <- eqb_nl. reflexivity. Qed.
Lemma comment_line : forall l, one_line l = true -> emits ("//" ++ l ++ newline) [] (if directive ("//" ++ l) then ["//" ++ l] else []).
Proof.
  intros l O r. replace (("//" ++ l ++ newline) ++ r) with ("//" ++ l ++ newline ++ r) by (rewrite !app_assoc_s; reflexivity). split.
  - apply comment_code, O.
  - intros _. unfold directives. replace ("//" ++ l ++ newline ++ r) with (("//" ++ l) ++ newline ++ r) by (rewrite !app_assoc_s; reflexivity).
    rewrite lines_newline, lines_one by (rewrite one_app, O; reflexivity). rewrite filter_app. cbn [filter]. destruct (directive ("//" ++ l)); reflexivity.
Qed.
Definition tame_line (l : string) : bool := negb (directive ("//" ++ l)).
Lemma comment_lines : forall ls, Forall (fun l => one_line l = true) ls -> (H -> forallb tame_line ls = true) ->
  emits (String.concat "" (map (fun line => "//" ++ line ++ newline) ls)) [] [].
Proof.
  induction 1 as [|l ls O _ IH]; intros T; [exact emits_nil|]. cbn [map]. rewrite concat_cons.
  cbn [forallb] in T. change (@nil string) with (@nil string ++ [])%list. apply emits_app; [|apply IH; intros h; specialize (T h); apply andb_true_iff in T; apply T].
  intros r. destruct (comment_line l O r) as [A B]. split; [exact A|]. intros h. rewrite (B h). specialize (T h). apply andb_true_iff in T. destruct T as [T _].
  unfold tame_line in T. destruct (directive ("//" ++ l)); [discriminate T|reflexivity].
Qed.
Lemma lines_trim : forall c, exists t, lines c = (lines (trim_nl c) ++ t)%list.
Proof.
  induction c as [|a s [t IH]]; [exists []; reflexivity|]. destruct s as [|b s].
  - cbn [trim_nl lines]. rewrite eqb_nl. destruct (lf a) eqn:E; [exists [""]; reflexivity|]. exists []. cbn [lines]. rewrite E. reflexivity.
  - change (trim_nl (String a (String b s))) with (String a (trim_nl (String b s))). remember (String b s) as u. cbn [lines]. rewrite IH. exists t.
    destruct (lf a); [reflexivity|]. destruct (lines (trim_nl u)) as [|l r] eqn:E; [|reflexivity].
    exfalso. clear - E. destruct (trim_nl u) as [|x y]; [discriminate E|]. cbn in E. destruct (lf x), (lines y); discriminate E.
Qed.
Lemma Comments_eq : forall c, Comments c = if String.eqb c "" then "" else String.concat "" (map (fun line => "//" ++ line ++ newline) (lines (trim_nl c))).
Proof. intros [|a s]; [reflexivity|]. unfold Comments. rewrite split_lines. reflexivity. Qed.
Lemma comments_emit : forall c, (H -> harmless c = true) -> emits (Comments c) [] [].
Proof.
  intros c T. rewrite Comments_eq. destruct (String.eqb c ""); [exact emits_nil|]. apply comment_lines; [apply lines_each|].
  intros h. specialize (T h). unfold harmless in T. destruct (lines_trim c) as [t E]. rewrite E, forallb_app in T. apply andb_true_iff in T. apply T.
Qed.
Lemma harmless_nl : forall a b, harmless (a ++ newline ++ b) = harmless a && harmless b.
Proof. intros. unfold harmless. rewrite lines_newline, forallb_app. reflexivity. Qed.
Lemma suffix_harmless : forall c d, harmless c = true -> harmless (appendDeprecationSuffix c d) = true.
Proof.
  intros c [|] T; [|exact T]. unfold appendDeprecationSuffix. destruct c as [|a s]; [reflexivity|].
  rewrite app_assoc_s, harmless_nl, T. reflexivity.
Qed.
Lemma lead_emits : forall d, (H -> harmless (leading d) = true) -> emits (lead d) [] [].
Proof. intros d T. apply comments_emit. intros h. apply suffix_harmless, T, h. Qed.

(** What can follow the code on a line. *)
Definition tail (t : string) : Prop := t = "" \/ exists l, t = "//" ++ l /\ one_line l = true.
Lemma has_one : forall s, has_nl s = negb (one_line s).
Proof.
  induction s; [reflexivity|]. cbn [has_nl]. rewrite eqb_nl, IHs. unfold one_line, lf, is. cbn [all_chars]. destruct (N_of_ascii a =? 10)%N; reflexivity.
Qed.
Lemma trim_slashes : forall x, trim_nl ("//" ++ x) = "//" ++ trim_nl x.
Proof. intros [|a s]; reflexivity. Qed.
Lemma trailing_tail : forall c, tail (trailingComment c).
Proof.
  intros c. unfold trailingComment. destruct (has_nl _) eqn:E; [left; reflexivity|]. rewrite Comments_eq in *. destruct (String.eqb c ""); [left; reflexivity|].
  destruct (lines (trim_nl c)) as [|l r]; [left; reflexivity|]. right. cbn [map] in *. rewrite concat_cons, !app_assoc_s in *. rewrite trim_slashes in *.
  eexists. split; [reflexivity|]. rewrite has_one in E. change ("//" ++ ?x) with (String "/" (String "/" x)) in E. apply negb_false_iff in E.
  apply lf_false in E. destruct E as [_ E]. apply lf_false in E. apply E.
Qed.
Lemma tail_nil : tail "".
Proof. left. reflexivity. Qed.
Definition starts (s : string) : bool := match s with String c _ => negb (slash c) | EmptyString => false end.
Lemma starts_app : forall a b, starts a = true -> starts (a ++ b) = true.
Proof. intros [|c a] b E; [discriminate E|exact E]. Qed.
Lemma word_starts : forall s, word s = true -> starts s = true.
Proof.
  intros [|c s] E; [discriminate E|]. unfold word in E. cbn in E. rewrite andb_true_iff in E. destruct E as [E _]. unfold word_char in E.
  cbn [starts]. unfold slash, is. destruct (N_of_ascii c =? 47)%N; [|reflexivity]. rewrite !andb_false_r in E. discriminate E.
Qed.
Lemma starts_code : forall s, starts s = true -> directive s = false.
Proof.
  intros [|c s] E; [discriminate E|]. unfold directive. cbn [existsb String.prefix].
  destruct (ascii_dec "/" c) as [<-|N]; [discriminate E|]. reflexivity.
Qed.
Lemma line_emits : forall l t, part l -> tail t -> blank l = false -> starts l = true -> emits (l ++ t ++ newline) [l] [].
Proof.
  intros l t [C O] T B S r. rewrite !app_assoc_s. split.
  - unfold code_lines. rewrite C. replace (uncomment InCode (t ++ newline ++ r)) with (newline ++ uncomment InCode r).
    + rewrite lines_newline, (lines_one _ O), filter_app. cbn [filter]. rewrite B. reflexivity.
    + destruct T as [-> |(k & -> & K)]; [reflexivity|]. rewrite app_assoc_s, comment_removed by assumption. reflexivity.
  - intros _. unfold directives. replace (l ++ t ++ newline ++ r) with ((l ++ t) ++ newline ++ r) by apply app_assoc_s.
    rewrite lines_newline, lines_one, filter_app.
    + cbn [filter]. rewrite starts_code by (apply starts_app, S). reflexivity.
    + rewrite one_app, O. destruct T as [-> |(k & -> & K)]; [reflexivity|]. rewrite one_app, K. reflexivity.
Qed.
Lemma empty_emits : emits (P []) [] [].
Proof. intros r. split; reflexivity. Qed.
(** The three forms of a line. *)
Lemma code_line : forall parts, Forall part parts -> blank (String.concat "" parts) = false -> starts (String.concat "" parts) = true ->
  emits (P parts) [String.concat "" parts] [].
Proof. intros parts A B S. exact (line_emits _ "" (part_parts _ A) tail_nil B S). Qed.
Lemma doc_line : forall c parts, emits c [] [] -> Forall part parts -> blank (String.concat "" parts) = false -> starts (String.concat "" parts) = true ->
  emits (P (c :: parts)) [String.concat "" parts] [].
Proof.
  intros c parts E A B S. unfold P. rewrite concat_cons, app_assoc_s. exact (emits_app c [] [] _ [String.concat "" parts] [] E (code_line parts A B S)).
Qed.
Lemma doc_line_end : forall c parts t, emits c [] [] -> Forall part parts -> blank (String.concat "" parts) = false -> starts (String.concat "" parts) = true ->
  tail t -> emits (P (c :: parts ++ [t])) [String.concat "" parts] [].
Proof.
  intros c parts t E A B S T. unfold P. rewrite concat_cons, concat_app, !app_assoc_s. exact (emits_app c [] [] _ [String.concat "" parts] [] E (line_emits _ t (part_parts _ A) T B S)).
Qed.

(** ** Whole lines *)
Definition lined (a : string) : Prop := a = "" \/ exists b, a = b ++ newline.
(** The last line is not a comment. *)
Definition whole (a : string) : Prop := a = "" \/ exists b l, a = b ++ l ++ newline /\ lined b /\ one_line l = true /\ is_comment l = false.
Lemma whole_lined : forall a, whole a -> lined a.
Proof. intros a [-> |(b & l & -> & _)]; [left; reflexivity|]. right. exists (b ++ l). rewrite app_assoc_s. reflexivity. Qed.
Lemma lined_app : forall a b, lined a -> lined b -> lined (a ++ b).
Proof. intros a b A [-> |[c ->]]; [rewrite app_nil_s; exact A|]. right. exists (a ++ c). rewrite app_assoc_s. reflexivity. Qed.
Lemma whole_after : forall a b, lined a -> whole b -> b <> "" -> whole (a ++ b).
Proof.
  intros a b A [-> |(c & l & -> & L & O & N)] X; [contradiction X; reflexivity|]. right. exists (a ++ c), l. rewrite app_assoc_s.
  split; [reflexivity|split; [apply lined_app; assumption|split; assumption]].
Qed.
Lemma whole_app : forall a b, whole a -> whole b -> whole (a ++ b).
Proof.
  intros a b A B. destruct b as [|c b]; [rewrite app_nil_s; exact A|]. apply whole_after; [apply whole_lined, A|exact B|discriminate].
Qed.
Lemma whole_nil : whole "".
Proof. left. reflexivity. Qed.
Lemma whole_empty : whole (P []).
Proof. right. exists "", "". split; [reflexivity|split; [left; reflexivity|split; reflexivity]]. Qed.
Lemma starts_comment : forall s, starts s = true -> is_comment s = false.
Proof. intros [|c s] E; [discriminate E|]. unfold is_comment. cbn [String.prefix]. destruct (ascii_dec "/" c) as [<-|N]; [discriminate E|reflexivity]. Qed.
Lemma whole_line : forall c l t, lined c -> part l -> tail t -> starts l = true -> whole (c ++ l ++ t ++ newline).
Proof.
  intros c l t C [_ O] T S. right. exists c, (l ++ t). rewrite app_assoc_s. split; [reflexivity|split; [exact C|split]].
  - rewrite one_app, O. destruct T as [-> |(k & -> & K)]; [reflexivity|]. rewrite one_app, K. reflexivity.
  - apply starts_comment, starts_app, S.
Qed.
Lemma lined_comments : forall c, lined (Comments c).
Proof.
  intros c. rewrite Comments_eq. destruct (String.eqb c ""); [left; reflexivity|]. induction (lines (trim_nl c)) as [|l r IH]; [left; reflexivity|].
  cbn [map]. rewrite concat_cons. apply lined_app; [|exact IH]. right. exists ("//" ++ l). rewrite app_assoc_s. reflexivity.
Qed.
Lemma P_nonempty : forall l, P l <> "".
Proof. intros l E. unfold P in E. destruct (String.concat "" l); discriminate E. Qed.

(** ** Two texts that differ in comments only *)
Definition twin (a b : string) : Prop := exists ls ds, emits a ls ds /\ emits b ls ds /\ whole a /\ whole b.
(** Their last lines may be comments. *)
Definition twin0 (a b : string) : Prop := exists ls ds, emits a ls ds /\ emits b ls ds /\ lined a /\ lined b.
Lemma twin_app : forall a b c d, twin a b -> twin c d -> twin (a ++ c) (b ++ d).
Proof.
  intros a b c d (l & m & A & B & U & V) (n & o & C & E & W & X). eexists _, _.
  split; [eapply emits_app; eassumption|split; [eapply emits_app; eassumption|split; apply whole_app; assumption]].
Qed.
Lemma twin_after : forall a b c d, twin0 a b -> twin c d -> c <> "" -> d <> "" -> twin (a ++ c) (b ++ d).
Proof.
  intros a b c d (l & m & A & B & U & V) (n & o & C & E & W & X) Y Z. eexists _, _.
  split; [eapply emits_app; eassumption|split; [eapply emits_app; eassumption|split; apply whole_after; assumption]].
Qed.
Lemma twin_nil : twin "" "".
Proof. exists [], []. split; [apply emits_nil|split; [apply emits_nil|split; apply whole_nil]]. Qed.
Lemma twin_emits : forall a l d, emits a l d -> whole a -> twin a a.
Proof. intros a l d E W. exists l, d. repeat split; try assumption; apply E. Qed.
Lemma twin_empty : twin (P []) (P []).
Proof. exact (twin_emits _ _ _ empty_emits whole_empty). Qed.
Lemma P_line : forall c parts, P (c :: parts) = c ++ String.concat "" parts ++ newline.
Proof. intros. unfold P. rewrite concat_cons, app_assoc_s. reflexivity. Qed.
Lemma P_line_end : forall c parts t, P (c :: parts ++ [t]) = c ++ String.concat "" parts ++ t ++ newline.
Proof. intros. unfold P. rewrite concat_cons, concat_app, !app_assoc_s. reflexivity. Qed.
Lemma twin_code : forall parts, Forall part parts -> blank (String.concat "" parts) = false -> starts (String.concat "" parts) = true -> twin (P parts) (P parts).
Proof.
  intros parts A B S. eapply twin_emits; [apply code_line; assumption|].
  exact (whole_line "" _ "" (or_introl eq_refl) (part_parts _ A) tail_nil S).
Qed.
Lemma twin_doc : forall c c' parts, emits (Comments c) [] [] -> emits (Comments c') [] [] -> Forall part parts -> blank (String.concat "" parts) = false -> starts (String.concat "" parts) = true ->
  twin (P (Comments c :: parts)) (P (Comments c' :: parts)).
Proof.
  intros c c' parts E E' A B S. eexists _, _. split; [apply doc_line; assumption|split; [apply doc_line; assumption|]].
  rewrite !P_line. split; apply (whole_line _ _ ""); try apply tail_nil; try apply part_parts; try assumption; apply lined_comments.
Qed.
Lemma twin_doc_end : forall c c' parts t t', emits (Comments c) [] [] -> emits (Comments c') [] [] -> Forall part parts -> blank (String.concat "" parts) = false -> starts (String.concat "" parts) = true ->
  tail t -> tail t' -> twin (P (Comments c :: parts ++ [t])) (P (Comments c' :: parts ++ [t'])).
Proof.
  intros c c' parts t t' E E' A B S T T'. eexists _, _. split; [apply doc_line_end; assumption|split; [apply doc_line_end; assumption|]].
  rewrite !P_line_end. split; apply whole_line; try apply part_parts; try assumption; apply lined_comments.
Qed.
Lemma twin_list : forall {A} (f g : A -> string) l, Forall (fun x => twin (f x) (g x)) l -> twin (String.concat "" (map f l)) (String.concat "" (map g l)).
Proof. induction 1; [exact twin_nil|]. cbn [map]. rewrite !concat_cons. apply twin_app; assumption. Qed.
Lemma bare_lead : emits (lead no_doc) [] [].
Proof. exact emits_nil. Qed.
Lemma comment_twin : forall l, one_line l = true -> twin0 ("//" ++ l ++ newline) ("//" ++ l ++ newline).
Proof.
  intros l O. eexists _, _. split; [apply comment_line, O|split; [apply comment_line, O|]].
  split; right; exists ("//" ++ l); rewrite app_assoc_s; reflexivity.
Qed.
Lemma twin0_app : forall a b c d, twin0 a b -> twin0 c d -> twin0 (a ++ c) (b ++ d).
Proof.
  intros a b c d (l & m & A & B & U & V) (n & o & C & E & W & X). eexists _, _.
  split; [eapply emits_app; eassumption|split; [eapply emits_app; eassumption|split; apply lined_app; assumption]].
Qed.
End H.
