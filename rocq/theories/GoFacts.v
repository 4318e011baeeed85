(** Which struct declarations a generated file has. *)
From Coq Require Import String Ascii.
From Verif Require Import Base GoType StructTag SpecStructTag StructTagFacts ErrText GenText SpecText TextFacts TextThms SpecGo.
Local Open Scope string_scope.

(** ** Words *)
Definition spaceless (s : string) : bool := all_chars (fun n => negb (n =? 32)%N) s.
Lemma eqb_space : forall c, Ascii.eqb c space = (N_of_ascii c =? 32)%N.
Proof. intros [[|] [|] [|] [|] [|] [|] [|] [|]]; reflexivity. Qed.
Lemma words_space : forall a b, words (a ++ String space b) = (words a ++ words b)%list.
Proof.
  induction a as [|c a IH]; intros b; [reflexivity|]. cbn [append words]. rewrite IH. destruct (Ascii.eqb c space); [reflexivity|].
  destruct (words a) eqn:E; [|reflexivity]. destruct a as [|x s]; [discriminate E|]. cbn [words] in E. destruct (Ascii.eqb x space), (words s); discriminate E.
Qed.
Lemma words_one : forall a, spaceless a = true -> words a = [a].
Proof.
  induction a as [|c a IH]; intros S; [reflexivity|]. unfold spaceless in S. cbn [all_chars] in S. apply andb_true_iff in S. destruct S as [A B].
  cbn [words]. rewrite eqb_space. destruct (N_of_ascii c =? 32)%N; [discriminate A|]. rewrite (IH B). reflexivity.
Qed.
Lemma word_spaceless : forall s, word s = true -> spaceless s = true.
Proof.
  intros s W. unfold word in W. apply andb_true_iff in W. destruct W as [_ W]. eapply all_impl; [|exact W]. intros n. unfold word_char. cbn beta.
  destruct (N.eqb_spec n 32); [subst; discriminate|reflexivity].
Qed.
Lemma spaceless_app : forall a b, spaceless (a ++ b) = spaceless a && spaceless b.
Proof. intros. apply all_app. Qed.
(** Lines that start no struct. *)
Lemma header_first : forall w r, spaceless w = true -> String.eqb w "type" = false -> header (w ++ String space r) = None.
Proof.
  intros w r S N. unfold header. rewrite words_space, words_one by exact S. cbn [app]. destruct (words r) as [|a [|b [|c [|? ?]]]]; try reflexivity. rewrite N. reflexivity.
Qed.
Lemma header_third : forall a b c r, spaceless a = true -> spaceless b = true -> spaceless c = true -> String.eqb c "struct" = false ->
  header (a ++ String space (b ++ String space (c ++ String space r))) = None.
Proof.
  intros a b c r A B C N. unfold header. rewrite !words_space, !words_one by assumption. cbn [app]. destruct (words r) as [|d [|? ?]]; try reflexivity.
  rewrite N, andb_false_r. reflexivity.
Qed.
Lemma header_three : forall a b c, spaceless a = true -> spaceless b = true -> spaceless c = true -> header (a ++ String space (b ++ String space c)) = None.
Proof. intros a b c A B C. unfold header. rewrite !words_space, !words_one by assumption. reflexivity. Qed.
Lemma header_one : forall a, spaceless a = true -> header a = None.
Proof. intros a A. unfold header. rewrite words_one by assumption. reflexivity. Qed.
Lemma header_struct : forall n, spaceless n = true -> header ("type " ++ n ++ " struct {") = Some n.
Proof.
  intros n S. unfold header. change ("type " ++ n ++ " struct {") with ("type" ++ String space (n ++ String space "struct {")). rewrite !words_space, (words_one n) by exact S. reflexivity.
Qed.
(** ** What a piece of text amounts to *)
(** Lines of code. *)
Definition shows (a : string) (ls : list string) : Prop := forall r, code_lines (a ++ r) = (ls ++ code_lines r)%list.
Lemma emits_shows : forall a ls ds, emits False a ls ds -> shows a ls.
Proof. intros a ls ds E r. apply E. Qed.
Lemma shows_nil : shows "" [].
Proof. intros r. reflexivity. Qed.
Lemma shows_app : forall a l b m, shows a l -> shows b m -> shows (a ++ b) (l ++ m).
Proof. intros a l b m A B r. rewrite app_assoc_s, A, B, app_assoc. reflexivity. Qed.
Lemma shows_map : forall {A} (f : A -> string) (g : A -> list string) l, (forall x, In x l -> shows (f x) (g x)) -> shows (String.concat "" (map f l)) (flat_map g l).
Proof.
  induction l as [|x l IH]; intros F; [apply shows_nil|]. cbn [map flat_map]. rewrite concat_cons. apply shows_app; [apply F; left; reflexivity|apply IH; intros y I; apply F; right; exact I].
Qed.
Lemma lead_shows : forall d, emits False (lead d) [] [].
Proof. intros d. apply lead_emits. intros []. Qed.
Lemma any_comments : forall c, emits False (Comments c) [] [].
Proof. intros c. apply comments_emit. intros []. Qed.
(** Structs. *)
Definition reads (a : string) (ss : list (string * list string)) : Prop :=
  forall r, structs None (code_lines (a ++ r)) = (ss ++ structs None (code_lines r))%list.
Lemma reads_nil : reads "" [].
Proof. intros r. reflexivity. Qed.
Lemma reads_app : forall a l b m, reads a l -> reads b m -> reads (a ++ b) (l ++ m).
Proof. intros a l b m A B r. rewrite app_assoc_s, A, B, app_assoc. reflexivity. Qed.
Lemma reads_skip : forall a b m, reads a [] -> reads b m -> reads (a ++ b) m.
Proof. intros a b m A B. exact (reads_app a [] b m A B). Qed.
Lemma reads_then : forall a b m, reads a m -> reads b [] -> reads (a ++ b) m.
Proof. intros a b m A B. rewrite <- (app_nil_r m). apply reads_app; assumption. Qed.
Lemma reads_map : forall {A} (f : A -> string) (g : A -> list (string * list string)) l, (forall x, In x l -> reads (f x) (g x)) -> reads (String.concat "" (map f l)) (flat_map g l).
Proof.
  induction l as [|x l IH]; intros F; [apply reads_nil|]. cbn [map flat_map]. rewrite concat_cons. apply reads_app; [apply F; left; reflexivity|apply IH; intros y I; apply F; right; exact I].
Qed.
Lemma reads_none : forall {A} (f : A -> string) l, (forall x, In x l -> reads (f x) []) -> reads (String.concat "" (map f l)) [].
Proof.
  intros A f l F. assert (E : flat_map (fun _ : A => @nil (string * list string)) l = []) by (induction l; [reflexivity|]; apply IHl; intros y I; apply F; right; exact I).
  rewrite <- E. apply reads_map, F.
Qed.
Lemma shows_reads : forall a ls, shows a ls -> Forall (fun l => header l = None) ls -> reads a [].
Proof.
  intros a ls S F r. rewrite S. clear S. induction F as [|l ls N _ IH]; [reflexivity|]. cbn [app structs]. rewrite N. exact IH.
Qed.
Lemma reads_line : forall parts, Forall part parts -> blank (String.concat "" parts) = false -> starts (String.concat "" parts) = true ->
  header (String.concat "" parts) = None -> reads (P parts) [].
Proof. intros parts A B S N. eapply shows_reads; [eapply emits_shows, code_line; assumption|]. repeat constructor. exact N. Qed.
Lemma reads_doc : forall c parts, Forall part parts -> blank (String.concat "" parts) = false -> starts (String.concat "" parts) = true ->
  header (String.concat "" parts) = None -> reads (P (Comments c :: parts)) [].
Proof. intros c parts A B S N. eapply shows_reads; [eapply emits_shows, doc_line; try assumption; apply any_comments|]. repeat constructor. exact N. Qed.
Lemma reads_doc_end : forall c parts t, Forall part parts -> blank (String.concat "" parts) = false -> starts (String.concat "" parts) = true -> tail t ->
  header (String.concat "" parts) = None -> reads (P (Comments c :: parts ++ [t])) [].
Proof. intros c parts t A B S T N. eapply shows_reads; [eapply emits_shows, doc_line_end; try assumption; apply any_comments|]. repeat constructor. exact N. Qed.
Lemma reads_empty : reads (P []) [].
Proof. eapply shows_reads; [eapply emits_shows, empty_emits|]. constructor. Qed.
Lemma reads_comment : forall l, one_line l = true -> reads ("//" ++ l ++ newline) [].
Proof. intros l O. eapply shows_reads; [eapply emits_shows, comment_line, O|]. constructor. Qed.
(** A struct. *)
Lemma reads_struct : forall h n a ls, shows h ["type " ++ n ++ " struct {"] -> spaceless n = true -> shows a ls -> Forall (fun l => l <> "}") ls ->
  reads (h ++ a ++ P ["}"]) [(n, ls)].
Proof.
  intros h n a ls H S A F r. rewrite !app_assoc_s, H. cbn [app structs]. rewrite header_struct by exact S. rewrite A.
  assert (X : forall b, structs (Some (n, b)) (ls ++ code_lines (P ["}"] ++ r)) = (n, (b ++ ls)%list) :: structs None (code_lines r)).
  { clear A. induction F as [|l ls N _ IH]; intros b.
    - pose proof (emits_shows _ _ _ (code_line False ["}"] ltac:(repeat constructor; apply part_plain; reflexivity) eq_refl eq_refl)) as E.
      rewrite (E r). cbn [app structs]. rewrite app_nil_r. reflexivity.
    - cbn [app structs]. destruct (String.eqb_spec l "}"); [contradiction|]. rewrite IH, <- app_assoc. reflexivity. }
  rewrite X. reflexivity.
Qed.
