From Coq Require Import String Ascii DecimalString DecimalFacts DecimalZ Decimal Lia.
From Verif Require Import Base SpecStructTag StructTagFacts ErrText SpecErrText.
Local Open Scope string_scope.

Lemma fmt_inj : forall a b, fmt_d a = fmt_d b -> a = b.
Proof.
  intros a b E. unfold fmt_d in E. 
  assert (F : forall z, exists d, NilZero.int_of_string (NilZero.string_of_int (Z.to_int z)) = Some d /\ Z.of_int d = z).
  { intro z. exists (Z.to_int z). split; [|apply DecimalZ.of_to]. apply NilZero.isi; intro H; [|];
      assert (K := f_equal Z.of_int H); rewrite DecimalZ.of_to in K; cbn in K; subst z; discriminate H. }
  destruct (F a) as (d & Ea & <-). destruct (F b) as (d' & Eb & <-). congruence.
Qed.
Lemma app_sep : forall c x y a b, all_chars (fun n => negb (n =? N_of_ascii c)%N) x = true -> all_chars (fun n => negb (n =? N_of_ascii c)%N) y = true ->
  x ++ String c a = y ++ String c b -> x = y /\ a = b.
Proof.
  intros c. induction x as [|d x IH]; intros [|e y] a b X Y E; cbn in *; try (injection E as E1 E2).
  - injection E as ->. auto.
  - subst e. apply andb_prop in Y as [Y _]. rewrite N.eqb_refl in Y. discriminate Y.
  - subst d. apply andb_prop in X as [X _]. rewrite N.eqb_refl in X. discriminate X.
  - subst e. apply andb_prop in X as [_ X]. apply andb_prop in Y as [_ Y]. destruct (IH y a b X Y E2) as (-> & ->). auto.
Qed.
Lemma uint_chars : forall c u, (48 <=? N_of_ascii c)%N && (N_of_ascii c <=? 57)%N = false -> all_chars (fun n => negb (n =? N_of_ascii c)%N) (NilEmpty.string_of_uint u) = true.
Proof.
  intros c u H. induction u; cbn [NilEmpty.string_of_uint all_chars]; [reflexivity|..]; rewrite IHu, andb_true_r; apply negb_true_iff, N.eqb_neq;
    intro E; rewrite <- E in H; discriminate H.
Qed.
Lemma uint_chars0 : forall c u, (48 <=? N_of_ascii c)%N && (N_of_ascii c <=? 57)%N = false -> all_chars (fun n => negb (n =? N_of_ascii c)%N) (NilZero.string_of_uint u) = true.
Proof. intros c u H. destruct u; [apply (uint_chars c (D0 Nil) H)|..]; exact (uint_chars c _ H). Qed.
Lemma fmt_chars : forall c z, (48 <=? N_of_ascii c)%N && (N_of_ascii c <=? 57)%N = false -> N_of_ascii c <> 45%N ->
  all_chars (fun n => negb (n =? N_of_ascii c)%N) (fmt_d z) = true.
Proof.
  intros c z H M. unfold fmt_d. destruct (Z.to_int z) as [u|u]; cbn [NilZero.string_of_int]; [apply uint_chars0; exact H|].
  cbn [all_chars]. rewrite (uint_chars0 c u H), andb_true_r. apply negb_true_iff, N.eqb_neq. intro E. apply M. symmetry. exact E.
Qed.
Lemma text_located : forall path c, exists s, error_text (located path c) = Some s.
Proof.
  induction path as [|[n t] path IH]; intro c; [destruct c; eexists; reflexivity|]. destruct (IH c) as (s & E). cbn [located error_text]. rewrite E. eexists; reflexivity.
Qed.
Lemma text_inj : forall e e' s, error_text e = Some s -> error_text e' = Some s -> e = e'.
Proof.
  induction e as [ | | |w|n t e IH| | | ]; intros e' s E E'; try discriminate E; destruct e' as [ | | |w'|n' t' e'| | | ]; try discriminate E';
    cbn [error_text] in E, E';
    try (destruct (error_text e) as [s1|] eqn:E1; [|discriminate E]); try (destruct (error_text e') as [s2|] eqn:E2; [|discriminate E']);
    cbn [option_map] in *; try reflexivity; rewrite <- E in E'; clear E; try discriminate E'.
  - injection E' as E'. apply fmt_inj in E'. f_equal. lia.
  - injection E' as E'.
    apply (app_sep " "%char) in E' as (En & E'); [|apply fmt_chars; [reflexivity|discriminate]|apply fmt_chars; [reflexivity|discriminate]].
    injection E' as E'.
    apply (app_sep ":"%char) in E' as (Et & E'); [|apply fmt_chars; [reflexivity|discriminate]|apply fmt_chars; [reflexivity|discriminate]].
    injection E' as E'. apply fmt_inj in En, Et. subst. f_equal. apply (IH e' s1); [reflexivity|exact E2].
Qed.
Lemma text_distinct_proof : forall p c p' c', error_text (located p c) = error_text (located p' c') -> p = p' /\ c = c'.
Proof.
  intros p c p' c' E. destruct (text_located p c) as (s & T). pose proof T as T'. rewrite E in T'. pose proof (text_inj _ _ _ T T') as H. clear E T T' s.
  revert p' H. induction p as [|[n t] p IH]; intros [|[n' t'] p'] H; cbn [located] in H.
  - destruct c, c'; cbn in H; try discriminate H; [auto|auto|auto|injection H as ->; auto].
  - destruct c; discriminate H.
  - destruct c'; discriminate H.
  - injection H as -> -> H. destruct (IH p' H) as (-> & ->). auto.
Qed.
Lemma is_located : forall p c c', match c' with C_expected _ => False | _ => True end ->
  errors_is (located p c) (cause_error c') = true <-> c = c'.
Proof.
  intros p c c' N. induction p as [|[n t] p IH]; [|exact IH]. destruct c, c'; cbn; try tauto; split; intro H; try discriminate H; reflexivity.
Qed.
Lemma sapp_assoc : forall a b c, (a ++ b) ++ c = a ++ (b ++ c).
Proof. induction a as [|x a IH]; intros; [reflexivity|]. cbn [append]. rewrite IH. reflexivity. Qed.
Lemma text_message_proof : forall path c, error_text (located path c) = Some (message path c).
Proof.
  induction path as [|[n t] path IH]; intro c; [destruct c; reflexivity|]. cbn [located error_text]. rewrite IH. cbn [option_map]. f_equal.
  unfold message. cbn [map List.app String.concat].
  destruct (List.app (map field_phrase path) [cause_phrase c]) as [|y l] eqn:E; [destruct path; discriminate E|].
  unfold field_phrase at 1. cbn [fst snd]. rewrite !sapp_assoc. reflexivity.
Qed.
