(** Tokens, blocks and declarations of a text. *)
From Coq Require Import String Ascii DecimalString DecimalZ.
From Verif Require Import Base GoType StructTag SpecStructTag StructTagFacts ErrText GenText SpecText TextFacts TextThms SpecGo SpecDesc GoFacts SpecDecl SpecMethods.
Local Open Scope string_scope.

(** ** Tokens *)
Lemma tokens_cons : forall c r, Ascii.eqb c space = false -> name_char c = false -> tokens (String c r) = one c :: tokens r.
Proof. intros c r S N. cbn [tokens]. rewrite S, N. destruct r; cbn [andb]; destruct (tokens _); reflexivity. Qed.
Lemma tokens_sp : forall r, tokens (String space r) = tokens r.
Proof. reflexivity. Qed.
Lemma space_name : name_char space = false.
Proof. reflexivity. Qed.
Lemma tokens_unfold : forall c r, tokens (String c r) =
  if Ascii.eqb c space then tokens r
  else match tokens r with
       | t :: ts => if match r with String d _ => name_char c && name_char d | EmptyString => false end then String c t :: ts else one c :: t :: ts
       | [] => [one c]
       end.
Proof. reflexivity. Qed.
Lemma tokens_none : forall d a, tokens (String d a) = [] -> Ascii.eqb d space = true.
Proof. intros d a. rewrite tokens_unfold. destruct (Ascii.eqb d space); [reflexivity|]. destruct (tokens a); [discriminate|]. destruct (match a with "" => _ | _ => _ end); discriminate. Qed.
Lemma tokens_split : forall a c b, name_char c = false -> tokens (a ++ String c b) = (tokens a ++ tokens (String c b))%list.
Proof.
  induction a as [|d a IH]; intros c b N; [reflexivity|]. change (String d a ++ String c b) with (String d (a ++ String c b)). rewrite (tokens_unfold d (a ++ String c b)), (tokens_unfold d a), (IH c b N).
  destruct (Ascii.eqb d space) eqn:S; [reflexivity|]. destruct a as [|e a].
  - cbn [append tokens app]. rewrite N, andb_false_r. destruct (if Ascii.eqb c space then _ else _); reflexivity.
  - change (String e a ++ String c b) with (String e (a ++ String c b)). cbv iota. destruct (tokens (String e a)) as [|t ts] eqn:E.
    + apply tokens_none in E. apply Ascii.eqb_eq in E. subst e. rewrite space_name, andb_false_r. cbn [app]. destruct (tokens (String c b)); reflexivity.
    + cbn [app]. destruct (name_char d && name_char e); reflexivity.
Qed.
Lemma name_cons : forall c s, all_name (String c s) = name_char c && all_name s.
Proof. reflexivity. Qed.
Lemma name_space : forall c, name_char c = true -> Ascii.eqb c space = false.
Proof. intros c N. destruct (Ascii.eqb_spec c space) as [->|]; [discriminate N|reflexivity]. Qed.
Lemma tokens_name : forall w, name w = true -> tokens w = [w].
Proof.
  intros w N. unfold name in N. apply andb_true_iff in N. destruct N as [E A]. destruct w as [|c w]; [discriminate E|]. clear E. revert c A.
  induction w as [|d w IH]; intros c A.
  - rewrite tokens_unfold. cbn [all_name] in A. rewrite andb_true_r in A. rewrite (name_space c A). reflexivity.
  - rewrite tokens_unfold. rewrite name_cons in A. apply andb_true_iff in A. destruct A as [C A]. rewrite (IH d A), (name_space c C), C.
    rewrite name_cons in A. apply andb_true_iff in A. destruct A as [D _]. rewrite D. reflexivity.
Qed.
Lemma tokens_word : forall w c b, name w = true -> name_char c = false -> tokens (w ++ String c b) = w :: tokens (String c b).
Proof. intros w c b W N. rewrite tokens_split by exact N. rewrite (tokens_name w W). reflexivity. Qed.
Lemma text_cons : forall t ts, text (t :: ts) = t ++ text ts.
Proof. intros. apply concat_cons. Qed.
Lemma text_tokens : forall s, spaceless s = true -> text (tokens s) = s.
Proof.
  induction s as [|c s IH]; intros S; [reflexivity|]. unfold spaceless in S. cbn [all_chars] in S. apply andb_true_iff in S. destruct S as [A B].
  rewrite tokens_unfold, eqb_space. destruct (N_of_ascii c =? 32)%N; [discriminate A|]. specialize (IH B). destruct (tokens s) as [|t ts].
  - change (text []) with "" in IH. subst s. reflexivity.
  - rewrite text_cons in IH. destruct (match s with "" => _ | _ => _ end); rewrite ?text_cons; cbn [one append]; rewrite ?text_cons, ?IH; [f_equal; exact IH|reflexivity].
Qed.
Lemma name_app : forall a b, all_name a = true -> name b = true -> name (a ++ b) = true.
Proof.
  intros a b A B. unfold name in *. apply andb_true_iff in B. destruct B as [E B]. apply andb_true_iff. split.
  - destruct a; [exact E|reflexivity].
  - induction a as [|c a IH]; [exact B|]. cbn [append all_name] in *. apply andb_true_iff in A. destruct A as [C A]. rewrite C, (IH A). reflexivity.
Qed.
Ltac named := first [assumption | reflexivity | apply name_app; [reflexivity|assumption]].
Ltac toks := repeat first [rewrite tokens_sp | rewrite tokens_cons by reflexivity | rewrite tokens_word by (first [reflexivity | named]) | rewrite tokens_name by named].
Lemma number_fmt : forall z, number (fmt_d z) = Some z.
Proof.
  intros z. unfold number, fmt_d. rewrite NilZero.isi; [cbn; rewrite DecimalZ.of_to; reflexivity| |];
    intro H; assert (K := f_equal Z.of_int H); rewrite DecimalZ.of_to in K; cbn in K; subst z; discriminate H.
Qed.

(** ** Blocks *)
Definition grows (ls : list string) (ns : list node) : Prop := forall st cur r, tree st cur (ls ++ r)%list = tree st (rev ns ++ cur)%list r.
Lemma grows_nil : grows [] [].
Proof. intros st cur r. reflexivity. Qed.
Lemma grows_app : forall a m b n, grows a m -> grows b n -> grows (a ++ b)%list (m ++ n)%list.
Proof. intros a m b n A B st cur r. rewrite <- app_assoc, A, B, rev_app_distr, <- app_assoc. reflexivity. Qed.
Definition leafy (l : string) : bool := match closer l with None => negb (String.eqb l "}" || String.eqb l ")") | Some _ => false end.
Lemma grows_line : forall l, leafy l = true -> grows [l] [Line l].
Proof.
  intros l L st cur r. unfold leafy in L. cbn [app tree rev]. destruct (closer l); [discriminate L|]. destruct (String.eqb l "}" || String.eqb l ")"); [discriminate L|]. reflexivity.
Qed.
Lemma grows_cons : forall l a n, leafy l = true -> grows a n -> grows (l :: a) (Line l :: n).
Proof. intros l a n L A. exact (grows_app [l] [Line l] a n (grows_line l L) A). Qed.
Lemma grows_block : forall h c ls ns, closer h = Some c -> grows ls ns -> grows (h :: ls ++ [c])%list [Block h ns].
Proof.
  intros h c ls ns H G st cur r. cbn [app tree]. rewrite H, <- app_assoc, G. cbn [app tree].
  assert (C : closer c = None /\ (String.eqb c "}" || String.eqb c ")") = true).
  { unfold closer in H. destruct (last_char h) as [d|]; [|discriminate H]. destruct (Ascii.eqb d "{"); [injection H as <-; split; reflexivity|].
    destruct (Ascii.eqb d "("); [injection H as <-; split; reflexivity|discriminate H]. }
  destruct C as [C1 C2]. rewrite C1, C2, String.eqb_refl, app_nil_r, rev_involutive. reflexivity.
Qed.
Lemma last_app : forall a c b, last_char (a ++ String c b) = last_char (String c b).
Proof.
  induction a as [|d a IH]; intros c b; [reflexivity|]. rewrite <- (IH c b). cbn [append]. change (last_char (String d (a ++ String c b)) = last_char (a ++ String c b)).
  destruct a; reflexivity.
Qed.
Lemma closer_app : forall a b, b <> "" -> closer (a ++ b) = closer b.
Proof. intros a [|c b] N; [contradiction|]. unfold closer. rewrite last_app. reflexivity. Qed.
(** Lines that end in some character. *)
Definition calm (n : N) : bool := negb (n =? 123)%N && negb (n =? 40)%N && negb (n =? 125)%N && negb (n =? 41)%N.
Lemma last_chars : forall p s, all_chars p s = true -> s <> "" -> exists c, last_char s = Some c /\ p (N_of_ascii c) = true.
Proof.
  induction s as [|c s IH]; intros A N; [contradiction|]. cbn [all_chars] in A. apply andb_true_iff in A. destruct A as [C A]. destruct s as [|d s].
  - exists c. auto.
  - apply IH; [exact A|discriminate].
Qed.
Lemma calm_last : forall s c, last_char s = Some c -> calm (N_of_ascii c) = true -> leafy s = true.
Proof.
  intros s c L C. unfold leafy, closer. rewrite L.
  destruct (Ascii.eqb_spec c "{") as [->|_]; [discriminate C|]. destruct (Ascii.eqb_spec c "(") as [->|_]; [discriminate C|].
  destruct (String.eqb_spec s "}") as [->|_]; [injection L as <-; discriminate C|]. destruct (String.eqb_spec s ")") as [->|_]; [injection L as <-; discriminate C|]. reflexivity.
Qed.
Lemma leafy_app : forall a c b d, last_char (String c b) = Some d -> calm (N_of_ascii d) = true -> leafy (a ++ String c b) = true.
Proof. intros a c b d L C. eapply calm_last; [|exact C]. rewrite last_app. exact L. Qed.
Lemma leafy_chars : forall a s, all_chars calm s = true -> s <> "" -> leafy (a ++ s) = true.
Proof.
  intros a s A N. destruct (last_chars calm s A N) as (c & L & C). destruct s as [|x s]; [contradiction|]. eapply leafy_app; eassumption.
Qed.
(** A line longer than a bracket that ends in a closing one. *)
Lemma leafy_close : forall a b, a <> "" -> last_char b = Some ")"%char \/ last_char b = Some "}"%char -> leafy (a ++ b) = true.
Proof.
  intros a b N L. destruct b as [|c b]; [destruct L as [L|L]; discriminate L|]. unfold leafy, closer. rewrite last_app.
  assert (E : forall x, a ++ String c b <> String x "") by (intros x E; destruct a as [|y [|z a]]; [contradiction|discriminate E|discriminate E]).
  destruct (String.eqb_spec (a ++ String c b) "}") as [F|_]; [destruct (E _ F)|]. destruct (String.eqb_spec (a ++ String c b) ")") as [F|_]; [destruct (E _ F)|].
  destruct L as [-> | ->]; reflexivity.
Qed.
Lemma ident_calm : forall c, ident_char c = true -> calm (N_of_ascii c) = true.
Proof. intros [[|] [|] [|] [|] [|] [|] [|] [|]]; vm_compute; auto. Qed.
Lemma all_ident_calm : forall s, all_ident s = true -> all_chars calm s = true.
Proof. induction s as [|c s IH]; intros A; [reflexivity|]. cbn [all_ident all_chars] in *. apply andb_true_iff in A. destruct A as [C A]. rewrite (ident_calm c C), (IH A). reflexivity. Qed.
Lemma all_name_ident : forall s, all_name s = true -> all_ident s = true.
Proof.
  induction s as [|c s IH]; intros A; [reflexivity|]. cbn [all_name all_ident] in *. apply andb_true_iff in A. destruct A as [C A]. unfold name_char in C. apply andb_true_iff in C.
  destruct C as [C _]. rewrite C, (IH A). reflexivity.
Qed.
Lemma name_identifier : forall s, name s = true -> identifier s = true.
Proof. intros s N. unfold name, identifier in *. apply andb_true_iff in N. destruct N as [E A]. rewrite E, (all_name_ident s A). reflexivity. Qed.
Lemma identifier_calm : forall s, identifier s = true -> all_chars calm s = true /\ s <> "".
Proof.
  intros s I. unfold identifier in I. apply andb_true_iff in I. destruct I as [E A]. split; [apply all_ident_calm, A|]. intros ->. discriminate E.
Qed.
Lemma leafy_ident : forall a s, identifier s = true -> leafy (a ++ s) = true.
Proof. intros a s I. destruct (identifier_calm s I). apply leafy_chars; assumption. Qed.
Lemma leafy_name : forall a s, name s = true -> leafy (a ++ s) = true.
Proof. intros a s I. apply leafy_ident, name_identifier, I. Qed.
Lemma fmt_calm : forall z, all_chars calm (fmt_d z) = true /\ fmt_d z <> "".
Proof.
  assert (U : forall u, all_chars calm (NilEmpty.string_of_uint u) = true) by (induction u; cbn; auto).
  intros z. unfold fmt_d, NilZero.string_of_int, NilZero.string_of_uint. destruct (Z.to_int z); destruct d; split; try reflexivity; try discriminate; cbn [all_chars]; apply U.
Qed.

(** ** Declarations of a piece of text *)
Lemma each_app : forall {A B} (f : A -> option B) a b x y, each f a = Some x -> each f b = Some y -> each f (a ++ b)%list = Some (x ++ y)%list.
Proof.
  induction a as [|n a IH]; intros b x y A1 B1; [injection A1 as <-; exact B1|]. cbn [app each] in *. destruct (f n); [|discriminate A1]. destruct (each f a) as [l|] eqn:E; [|discriminate A1].
  injection A1 as <-. rewrite (IH b l y eq_refl B1). reflexivity.
Qed.
Definition gives (a : string) (ds : list decl) : Prop := exists ls ns, shows a ls /\ grows ls ns /\ each as_decl ns = Some ds.
Lemma gives_nil : gives "" [].
Proof. exists [], []. split; [exact shows_nil|split; [exact grows_nil|reflexivity]]. Qed.
Lemma gives_app : forall a x b y, gives a x -> gives b y -> gives (a ++ b) (x ++ y)%list.
Proof.
  intros a x b y (l & m & S & G & E) (l' & m' & S' & G' & E'). exists (l ++ l')%list, (m ++ m')%list.
  split; [apply shows_app; assumption|split; [apply grows_app; assumption|apply each_app; assumption]].
Qed.
Lemma gives_skip : forall a b x, gives a [] -> gives b x -> gives (a ++ b) x.
Proof. intros a b x A B. exact (gives_app a [] b x A B). Qed.
Lemma gives_then : forall a b x, gives a x -> gives b [] -> gives (a ++ b) x.
Proof. intros a b x A B. rewrite <- (app_nil_r x). apply gives_app; assumption. Qed.
Lemma gives_map : forall {A} (f : A -> string) (g : A -> list decl) l, (forall x, In x l -> gives (f x) (g x)) -> gives (String.concat "" (map f l)) (flat_map g l).
Proof.
  induction l as [|x l IH]; intros F; [apply gives_nil|]. cbn [map flat_map]. rewrite concat_cons. apply gives_app; [apply F; left; reflexivity|apply IH; intros y I; apply F; right; exact I].
Qed.
Lemma gives_none : forall a, shows a [] -> gives a [].
Proof. intros a S. exists [], []. split; [exact S|split; [exact grows_nil|reflexivity]]. Qed.
Lemma gives_empty : gives (P []) [].
Proof. apply gives_none. eapply emits_shows, empty_emits. Qed.
Lemma gives_comment : forall l, one_line l = true -> gives ("//" ++ l ++ newline) [].
Proof. intros l O. apply gives_none. eapply emits_shows, comment_line, O. Qed.
Lemma gives_line : forall a l d, shows a [l] -> leafy l = true -> as_line (tokens l) = Some d -> gives a [d].
Proof. intros a l d S L E. exists [l], [Line l]. split; [exact S|split; [apply grows_line, L|]]. cbn [each as_decl]. rewrite E. reflexivity. Qed.
Lemma gives_block : forall a h c ls ns d, shows a (h :: ls ++ [c])%list -> closer h = Some c -> grows ls ns -> as_block (tokens h) ns = Some d -> gives a [d].
Proof.
  intros a h c ls ns d S C G E. exists (h :: ls ++ [c])%list, [Block h ns]. split; [exact S|split; [apply grows_block; assumption|]]. cbn [each as_decl]. rewrite E. reflexivity.
Qed.
Lemma gives_decls : forall a ds, gives a ds -> go_decls a = Some ds.
Proof.
  intros a ds (ls & ns & S & G & E). unfold go_decls. specialize (S ""). rewrite app_nil_s in S. rewrite S. change (code_lines "") with (@nil string).
  rewrite (G [] [] []). cbn [tree]. rewrite app_nil_r, rev_involutive. exact E.
Qed.
Lemma shows_line : forall parts, Forall part parts -> blank (String.concat "" parts) = false -> starts (String.concat "" parts) = true -> shows (P parts) [String.concat "" parts].
Proof. intros parts A B S. eapply emits_shows, code_line; assumption. Qed.
Lemma shows_doc : forall c parts, Forall part parts -> blank (String.concat "" parts) = false -> starts (String.concat "" parts) = true -> shows (P (Comments c :: parts)) [String.concat "" parts].
Proof. intros c parts A B S. eapply emits_shows, doc_line; try assumption. apply any_comments. Qed.
Lemma shows_doc_end : forall c parts t, Forall part parts -> blank (String.concat "" parts) = false -> starts (String.concat "" parts) = true -> tail t ->
  shows (P (Comments c :: parts ++ [t])) [String.concat "" parts].
Proof. intros c parts t A B S T. eapply emits_shows, doc_line_end; try assumption. apply any_comments. Qed.
