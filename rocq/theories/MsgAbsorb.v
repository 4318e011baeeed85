(** What one version of a schema writes, merged with another into a message that holds
    something: specification level. *)
From Coq Require Import ZifyBool ZifyNat ZifyN.
From Verif Require Import Base Wire GoType Leaf Codec Tag Walker Resolve Typing CodecSim SpecWire SpecTag SpecMsg SpecVersions SpecJoin SpecAbsorb
  WireFacts DecodeFacts GenFacts TypingFacts TagFacts EncFacts MsgResolve MsgEnc MsgDec MsgRound MsgVersions MsgJoin.
Local Open Scope Z_scope.
Ltac Zify.zify_post_hook ::= Z.div_mod_to_equations.

(** ** Shapes *)
Section Fits.
Variable sch : schema.
Fixpoint fits (x : val) (f : fty) {struct x} : bool :=
  match f, x with
  | FMessage m, VPtr (Some (VStruct xs)) =>
    (fix all xs fs :=
      match xs, fs with
      | [], [] => true
      | _ :: xs, Hidden _ :: fs => all xs fs
      | x :: xs, Field _ f :: fs => fits x f && all xs fs
      | _, _ => false
      end) xs (msg sch m)
  | FMessage _, VPtr None => true
  | FMessage _, _ => false
  | FRepeated _, VSlice _ _ _ => true
  | FRepeated _, _ => false
  | FMap _ _, VMap _ => true
  | FMap _ _, _ => false
  | _, _ => true
  end.
Fixpoint fits_msg (xs : list val) (fs : list sfld) : bool :=
  match xs, fs with
  | [], [] => true
  | _ :: xs, Hidden _ :: fs => fits_msg xs fs
  | x :: xs, Field _ f :: fs => fits x f && fits_msg xs fs
  | _, _ => false
  end.
Lemma fits_struct xs m : fits (VPtr (Some (VStruct xs))) (FMessage m) = fits_msg xs (msg sch m).
Proof. reflexivity. Qed.
Lemma fits_nth xs : forall fs j n f, fits_msg xs fs = true -> nth_error fs j = Some (Field n f) -> exists x, nth_error xs j = Some x /\ fits x f = true.
Proof.
  induction xs as [|x xs IH]; intros [|[t|n' f'] fs] j n f H Hj; try discriminate H; [destruct j; discriminate Hj| |]; cbn [fits_msg] in H.
  - destruct j; [discriminate Hj|]. exact (IH fs j n f H Hj).
  - apply andb_true_iff in H. destruct H as [H1 H2]. destruct j; [inversion Hj; subst; exists x; auto|]. exact (IH fs j n f H2 Hj).
Qed.
Lemma fits_replace w xs : forall fs j n f, fits_msg xs fs = true -> nth_error fs j = Some (Field n f) -> fits w f = true -> fits_msg (replace xs j w) fs = true.
Proof.
  induction xs as [|x xs IH]; intros [|[t|n' f'] fs] j n f H Hj Hw; try discriminate H; [destruct j; discriminate Hj| |]; cbn [fits_msg] in H.
  - destruct j; [discriminate Hj|]. cbn. exact (IH fs j n f H Hj Hw).
  - apply andb_true_iff in H. destruct H as [H1 H2]. destruct j; cbn; [inversion Hj; subst; rewrite Hw; exact H2|]. rewrite H1. exact (IH fs j n f H2 Hj Hw).
Qed.
Lemma fits_length xs : forall fs, fits_msg xs fs = true -> length xs = length fs.
Proof. induction xs as [|x xs IH]; intros [|[t|n f] fs] H; try discriminate H; [reflexivity| |]; cbn in *; f_equal; apply IH; [exact H|]. apply andb_true_iff in H. apply H. Qed.
Lemma fits_zero f : fits (zero (go_type f)) f = true.
Proof. destruct f as [s|s|s|s| |m|e|k e]; try reflexivity; destruct s; reflexivity. Qed.
Lemma fits_zeros fs : fits_msg (zeros fs) fs = true.
Proof. induction fs as [|[t|n f] fs IH]; [reflexivity|exact IH|]. cbn [zeros map fits_msg fld_type]. rewrite fits_zero. exact IH. Qed.

Variable D : decls.
Hypothesis HI : implements D sch = true.
Definition fit (v : val) : Prop := forall f, wt D v (go_type f) = true -> fits v f = true.
Lemma fit_fields xs : Forall fit xs -> forall fs, all2 (wt D) xs (map fld_type fs) = true -> fits_msg xs fs = true.
Proof.
  induction 1 as [|x xs Hx _ IH]; intros [|[t|n f] fs] W; try discriminate W; [reflexivity| |]; cbn [map all2 fld_type fits_msg] in *;
    apply andb_true_iff in W; destruct W as [W1 W2]; rewrite (IH _ W2); [reflexivity|]. rewrite (Hx _ W1). reflexivity.
Qed.
Lemma fit_all : forall v, fit v.
Proof.
  induction v as [v IH] using val_ind2. intros f Hw. destruct f as [s|s|s|s| |m|e|k e]; try (destruct v; reflexivity); cbn [go_type] in Hw.
  - destruct (wt_msg _ _ _ Hw) as ([x|] & -> & Hx); [|reflexivity].
    destruct (wts_struct D x (SNamed m)) as (xs & -> & W); [discriminate|exact Hx|]. cbn [key_types] in W. rewrite (field_types_of D sch HI) in W.
    rewrite fits_struct. destruct IH as [_ IH]. apply fit_fields; assumption.
  - destruct (wt_slice _ _ _ Hw) as (nn & items & spare & -> & _ & _). reflexivity.
  - destruct (wt_map _ _ _ _ Hw) as (mm & -> & _). reflexivity.
Qed.
End Fits.

(** ** What is the same up to [norm] *)
Lemma norm_ptr_inv x o : norm x = VPtr o -> exists o', x = VPtr o'.
Proof. destruct x as [| | | | | | | | |[] ?| |[[|? ?]|]| | |]; intros H; try discriminate H; eexists; reflexivity. Qed.
Lemma slice_norm nn l sp x : norm x = norm (VSlice nn l sp) -> exists nn' l' sp', x = VSlice nn' l' sp' /\ map norm l' = map norm l.
Proof. rewrite norm_slice. destruct x as [| | | | | | | | |[] ?| |[[|? ?]|]|[?|]| |]; intros H; try discriminate H. rewrite norm_slice in H. inversion H. eauto 6. Qed.
Lemma extended_norm f x x' l l' : (match f with FRepeated _ => True | _ => False end) -> fits [] x f = true -> norm x = norm x' -> map norm l = map norm l' ->
  norm (extended x l) = norm (extended x' l').
Proof.
  intros Hf Hx Hn Hl. destruct f; try destruct Hf. destruct x; try discriminate Hx.
  destruct (slice_norm _ _ _ _ (eq_sym Hn)) as (nn' & l2 & sp' & -> & El).
  destruct l, l'; try discriminate Hl; [exact Hn|]. cbn [extended]. rewrite !norm_slice, !map_app, Hl, El. f_equal.
  destruct items, l2; try discriminate El; reflexivity.
Qed.
Lemma replace_norm l i x : map norm (replace l i x) = replace (map norm l) i (norm x).
Proof. revert i. induction l as [|y l IH]; intros [|i]; cbn; try reflexivity. rewrite IH. reflexivity. Qed.
Lemma nth_norm l l' j y : map norm l = map norm l' -> nth_error l j = Some y -> exists y', nth_error l' j = Some y' /\ norm y = norm y'.
Proof.
  intros H Hj. assert (K : nth_error (map norm l) j = Some (norm y)) by (rewrite nth_error_map, Hj; reflexivity).
  rewrite H, nth_error_map in K. destruct (nth_error l' j) as [y'|]; [|discriminate K]. inversion K. eauto.
Qed.
Lemma put_list_app s f : forall ps1 x y, MsgRound.put_list s f x ps1 y -> forall ps2 z, MsgRound.put_list s f y ps2 z -> MsgRound.put_list s f x (ps1 ++ ps2) z.
Proof. induction 1; intros ps2 zz Hz; [exact Hz|]. cbn [app]. econstructor; eauto. Qed.

Section Two.
Variables sch sch' : schema.
Variables D : decls.
Notation mg := (mg sch').
Notation pl := (pl sch').
Notation put_list := (put_list sch').
Notation records := (records sch).
Notation message := (message sch).
Notation encodable := (encodable sch).
Notation encodable_msg := (encodable_msg sch).
Notation absorb := (absorb sch sch').
Notation absorb_msg := (absorb_msg sch sch').
Notation sent := (sent sch sch').
Notation fits := (fits sch').
Notation fits_msg := (fits_msg sch').
Notation contents := (contents sch').

Lemma absorb_struct x ys m m' : absorb x (VPtr (Some (VStruct ys))) (FMessage m) (FMessage m') =
  VPtr (Some (VStruct (absorb_msg (contents x m') ys (msg sch m) (msg sch' m')))).
Proof.
  cbn [SpecAbsorb.absorb]. do 3 f_equal. generalize (contents x m'), (msg sch' m'). clear x. intros xs.
  induction xs as [|x xs IH]; intros [|[t|n f'] fs']; try reflexivity; cbn [SpecAbsorb.absorb_msg]; rewrite IH; [reflexivity|]. f_equal. clear.
  generalize (msg sch m). induction ys as [|y ys IH]; intros [|[t|n2 g] fs]; cbn; try reflexivity; [apply IH|]. destruct (n2 =? n)%N; [reflexivity|apply IH].
Qed.
Lemma fits_contents x m : fits x (FMessage m) = true -> fits_msg (contents x m) (msg sch' m) = true.
Proof.
  intros H. destruct x as [| | | | | | | | | | | |[x|]| |]; try discriminate H; [|apply fits_zeros]. destruct x; try discriminate H.
  rewrite fits_struct in H. exact H.
Qed.
Lemma contents_norm x x' m : fits x (FMessage m) = true -> norm x = norm x' -> map norm (contents x m) = map norm (contents x' m).
Proof.
  intros H Hn. destruct x as [| | | | | | | | | | | |[x|]| |]; try discriminate H.
  - destruct x; try discriminate H. cbn [norm] in Hn. destruct (norm_ptr_inv x' _ (eq_sym Hn)) as [[y|] ->]; [|discriminate Hn]. cbn [norm] in Hn.
    inversion Hn as [Hn2]. destruct y; try discriminate Hn2; cbn [norm] in Hn2; try (inversion Hn2; subst; assumption);
      exfalso; repeat match type of Hn2 with context [match ?o with _ => _ end] => destruct o end; discriminate Hn2.
  - cbn [norm] in Hn. destruct (norm_ptr_inv x' _ (eq_sym Hn)) as [[y|] ->]; [discriminate Hn|reflexivity].
Qed.
Lemma taken_steps f s : scalars f = Some s -> forall l y, fits y f = true -> fold_left (step f) l y = takes_in f y l.
Proof.
  intros Hs l y Hy.
  assert (A : match f with FRepeated _ => False | _ => True end -> forall l0 y, fold_left (step f) l0 y = match last_of l0 with Some x => gets f [x] | None => y end).
  { intros Hf. clear l y Hy. induction l0 as [|x l' IH]; intros y; [reflexivity|]. cbn [fold_left]. rewrite IH, last_cons. destruct (last_of l'); [reflexivity|].
    destruct f; try destruct Hf; reflexivity. }
  destruct f as [q|q|q|q| |m|e|k e]; try discriminate Hs;
    try (rewrite A by exact Logic.I; destruct l as [|x l]; [reflexivity|]; cbn [takes_in gets]; rewrite last_cons; destruct (last_of l); reflexivity).
  clear A. destruct y; try discriminate Hy. cbn [takes_in].
  assert (R : forall l0 nn acc sp, fold_left (step (FRepeated e)) l0 (VSlice nn acc sp) = extended (VSlice nn acc sp) (map (fun x => gets e [x]) l0)).
  { clear. induction l0 as [|x l0 IH]; intros nn acc sp; [reflexivity|]. cbn [fold_left step]. rewrite IH. cbn [map extended]. destruct l0; [reflexivity|].
    cbn [map]. rewrite <- app_assoc. reflexivity. }
  apply R.
Qed.
Lemma fits_taken f s l y : scalars f = Some s -> fits y f = true -> fits (takes_in f y l) f = true.
Proof.
  intros Hs Hy. destruct f as [q|q|q|q| |m|e|k e]; try discriminate Hs; try (destruct (takes_in _ y l); reflexivity).
  destruct y; try discriminate Hy. cbn [takes_in extended]. destruct (map _ l); reflexivity.
Qed.
Lemma taken_norm f s l y y' : scalars f = Some s -> fits y f = true -> norm y = norm y' -> norm (takes_in f y l) = norm (takes_in f y' l).
Proof.
  intros Hs Hy Hn. destruct f as [q|q|q|q| |m|e|k e]; try discriminate Hs; try (destruct l; [exact Hn|reflexivity]).
  cbn [takes_in]. apply (extended_norm (FRepeated e)); auto. destruct y; try discriminate Hy; reflexivity.
Qed.
Lemma accepts_compatible f : forall f', compatible f f' = true -> accepts Nat.eqb f f' = true.
Proof.
  induction f as [q|q|q|q| |m|e IH|k e IH]; intros f' H; try exact H.
  - destruct e as [| | | | |m| |]; try exact H. destruct f' as [| | | | |m'|e'|]; try exact H; try discriminate H; destruct e'; exact H.
  - destruct f'; try exact H; try discriminate H. cbn [compatible accepts] in *. apply andb_true_iff in H. destruct H as [-> H]. apply IH. exact H.
Qed.
Variable same : nat -> nat -> bool.
Lemma accepts_scalars f f' : accepts same f f' = true -> match f with FMessage _ | FMap _ _ | FRepeated (FMessage _) => False | _ => True end ->
  exists s s', scalars f = Some s /\ scalars f' = Some s' /\ change s s' = true.
Proof.
  intros H Hf. assert (K : match scalars f, scalars f' with Some s, Some s' => change s s' | _, _ => false end = true).
  { destruct f as [q|q|q|q| |m|e|k e]; try destruct Hf; try exact H. destruct e; try destruct Hf; try exact H. }
  destruct (scalars f) as [s|]; [|discriminate]. destruct (scalars f') as [s'|]; [|discriminate]. eauto.
Qed.

Hypothesis HI : implements D sch = true.
Hypothesis HS : schema_ok sch = true.
Hypothesis HC : in_scope sch = true.
Hypothesis HS' : schema_ok sch' = true.
Hypothesis HC' : in_scope sch' = true.
Hypothesis HU : accepted same sch sch'.

Definition absorbs (v : val) : Prop := forall n f f' x x', wt D v (go_type f) = true -> ok_fty f = true -> ok_fty f' = true -> accepts same f f' = true ->
  (n < 2^61)%N -> encodable v f = true -> zlen (ser (records v n f)) < Z63 -> fits x f' = true -> norm x = norm x' ->
  exists ps w, records v n f = recs n ps /\ put_list f' x ps w /\ fits w f' = true /\ norm w = norm (absorb x' v f f') /\
    (match f with FMessage _ => True | _ => False end -> if is_nil v then ps = [] else exists p, ps = [p]).

Definition slot (fs fs' : list sfld) (xs ys ys' zs : list val) (j : nat) : Prop :=
  match nth_error fs' j with
  | Some (Field n f') =>
    (In n (numbers fs) -> option_map norm (nth_error zs j) = option_map (fun y => norm (sent y n f' xs fs)) (nth_error ys' j)) /\
    (~ In n (numbers fs) -> nth_error zs j = nth_error ys j)
  | _ => nth_error zs j = nth_error ys j
  end.
Lemma absorb_fields fs' : nodup_N (numbers fs') = true -> fields_ok fs' -> forall fs xs ys ys',
  nodup_N (numbers fs) = true -> fields_ok fs ->
  (forall n f f', In (Field n f) fs -> In (Field n f') fs' -> accepts same f f' = true) ->
  all2 (wt D) xs (map fld_type fs) = true -> Forall absorbs xs -> encodable_msg xs fs = true -> zlen (ser (message xs fs)) < Z63 ->
  fits_msg ys fs' = true -> map norm ys = map norm ys' ->
  exists zs, mg fs' ys (ser (message xs fs)) = MOk zs /\ fits_msg zs fs' = true /\ (forall j, slot fs fs' xs ys ys' zs j) /\
    pl fs' (ser (message xs fs)) = true /\ bytes_okb (ser (message xs fs)) = true.
Proof.
  intros Hnd' Hok'. induction fs as [|f fs IH]; intros [|x xs] ys ys' Hnd Hok Hu Hw Hg He Hsm Hz HN; try discriminate.
  { exists ys. cbn [SpecMsg.message]. split; [reflexivity|]. split; [exact Hz|]. split; [|split; reflexivity].
    intros j. unfold slot. destruct (nth_error fs' j) as [[t|n f']|]; auto. split; [intros []|auto]. }
  cbn [all2 map] in Hw. apply andb_true_iff in Hw. destruct Hw as [Hx Hw]. inversion Hg as [|? ? Gx Gxs]; subst.
  assert (Hok2 : fields_ok fs) by (intros n g Hin; apply Hok; right; exact Hin).
  assert (Hu2 : forall n f f', In (Field n f) fs -> In (Field n f') fs' -> accepts same f f' = true) by (intros n g g' H1 H2; apply (Hu n); [right; exact H1|exact H2]).
  destruct f as [t|n f]; cbn [SpecMsg.message SpecMsg.encodable_msg fld_type numbers] in *.
  - destruct (IH xs ys ys') as (zs & E1 & E2 & E3 & E4 & E5); auto. exists zs. split; [exact E1|]. split; [exact E2|]. split; [|split; assumption].
    intros j. specialize (E3 j). unfold slot in *. cbn [numbers SpecAbsorb.sent]. exact E3.
  - apply andb_true_iff in He. destruct He as [He1 He]. rewrite ser_app in *. rewrite zlen_app in Hsm.
    pose proof (zlen_nonneg (ser (records x n f))). pose proof (zlen_nonneg (ser (message xs fs))).
    destruct (Hok n f (or_introl eq_refl)) as [Hf Hn]. cbn [nodup_N] in Hnd. apply andb_true_iff in Hnd. destruct Hnd as [Hn1 Hnd].
    assert (Hn2 : ~ In n (numbers fs)).
    { intros Hin. apply negb_true_iff in Hn1. assert (existsb (N.eqb n) (numbers fs) = true); [|congruence].
      apply existsb_exists. exists n. split; [exact Hin|apply N.eqb_refl]. }
    destruct (find_field 0 fs' n) as [[i f']|] eqn:Ef.
    + destruct (find_some _ _ _ _ _ Ef) as [_ Hi]. rewrite Nat.sub_0_r in Hi.
      assert (Hin' : In (Field n f') fs') by (eapply nth_error_In; exact Hi).
      destruct (fits_nth sch' ys fs' i n f' Hz Hi) as (y & Hy & Fy). destruct (nth_norm ys ys' i y HN Hy) as (y' & Hy' & Ny).
      destruct (Gx n f f' y y' Hx Hf (proj1 (Hok' _ _ Hin')) (Hu n f f' (or_introl eq_refl) Hin') Hn He1 ltac:(lia) Fy Ny) as (ps & w & Er & Hp & Fw & Nw & _).
      rewrite Er.
      rewrite (merge_recs sch' n _ _ f' Hn Ef ps _ w Hp _ _ Hy), (plain_recs sch' n _ _ f' Hn Ef ps _ w Hp).
      destruct (IH xs (replace ys i w) (replace ys' i (absorb y' x f f'))) as (zs & E1 & E2 & E3 & E4 & E5); auto; try lia.
      { exact (fits_replace sch' w ys fs' i n f' Hz Hi Fw). }
      { rewrite !replace_norm, HN, Nw. reflexivity. }
      exists zs. split; [exact E1|]. split; [exact E2|]. split; [|split; [exact E4|]].
      * intros j. specialize (E3 j). unfold slot in *. cbn [numbers SpecAbsorb.sent]. destruct (Nat.eq_dec j i) as [->|Hj].
        -- rewrite Hi in *. destruct E3 as [_ E3]. specialize (E3 Hn2). split; [|intros K; exfalso; apply K; left; reflexivity].
           intros _. rewrite E3, (nth_replace _ _ _ _ Hy), Hy'. cbn [option_map]. rewrite N.eqb_refl, Nw. reflexivity.
        -- rewrite !nth_replace_other in E3 by auto. destruct (nth_error fs' j) as [[t|n2 g']|] eqn:Ej; auto.
           assert (Hne : n <> n2) by (intros Hq; subst n2; exact (Hj (nth_same fs' Hnd' n j i g' f' Ej Hi))).
           destruct (N.eqb_spec n n2); [contradiction|]. split; [intros [K|K]; [contradiction|apply E3, K]|intros K; apply E3; intros K2; apply K; right; exact K2].
      * rewrite bytes_okb_app, E5, andb_true_r. eapply recs_ok, put_list_ok, Hp.
    + pose proof (find_none _ _ _ Ef) as Hni.
      destruct (good_all sch D HI HS HC x n f Hx Hf Hn He1 ltac:(lia)) as (ps & w & Er & Hp & _). apply put_list_ok in Hp. rewrite Er.
      destruct (skip_recs sch' n fs' Hn Ef ps Hp ys (ser (message xs fs))) as [S1 S2]. rewrite S1, S2.
      destruct (IH xs ys ys') as (zs & E1 & E2 & E3 & E4 & E5); auto; try lia.
      exists zs. split; [exact E1|]. split; [exact E2|]. split; [|split; [exact E4|]].
      * intros j. specialize (E3 j). unfold slot in *. cbn [numbers SpecAbsorb.sent]. destruct (nth_error fs' j) as [[t|n2 g']|] eqn:Ej; auto.
        assert (Hne : n <> n2) by (intros Hq; subst n2; exact (Hni (nth_numbers _ _ _ _ Ej))).
        destruct (N.eqb_spec n n2); [contradiction|]. split; [intros [K|K]; [contradiction|apply E3, K]|intros K; apply E3; intros K2; apply K; right; exact K2].
      * rewrite bytes_okb_app, E5, andb_true_r. apply recs_ok, Hp.
Qed.
Lemma sent_none x n f' : forall fs ys, ~ In n (numbers fs) -> sent x n f' ys fs = x.
Proof.
  induction fs as [|[t|n' f] fs IH]; intros [|y ys] H; cbn [SpecAbsorb.sent numbers] in *; try reflexivity; auto.
  destruct (N.eqb_spec n' n); [exfalso; apply H; left; assumption|]. apply IH. intros K. apply H. right. exact K.
Qed.
Lemma nth_absorb ys fs xs : forall fs' j, nth_error (absorb_msg xs ys fs fs') j =
  match nth_error fs' j, nth_error xs j with
  | Some (Hidden _), Some x => Some x
  | Some (Field n f'), Some x => Some (sent x n f' ys fs)
  | _, _ => None
  end.
Proof.
  induction xs as [|x xs IH]; intros [|[t|n f'] fs'] [|j]; cbn [SpecAbsorb.absorb_msg nth_error]; try reflexivity; try apply IH.
  all: destruct (nth_error fs' j) as [[|]|]; reflexivity.
Qed.
Lemma absorb_any fs fs' xs ys ys' : nodup_N (numbers fs') = true -> fields_ok fs' -> nodup_N (numbers fs) = true -> fields_ok fs ->
  (forall n f f', In (Field n f) fs -> In (Field n f') fs' -> accepts same f f' = true) ->
  all2 (wt D) xs (map fld_type fs) = true -> Forall absorbs xs -> encodable_msg xs fs = true -> zlen (ser (message xs fs)) < Z63 ->
  fits_msg ys fs' = true -> map norm ys = map norm ys' ->
  exists zs, mg fs' ys (ser (message xs fs)) = MOk zs /\ fits_msg zs fs' = true /\ map norm zs = map norm (absorb_msg ys' xs fs fs') /\
    pl fs' (ser (message xs fs)) = true /\ bytes_okb (ser (message xs fs)) = true.
Proof.
  intros H1 H2 H3 H4 H5 H6 H7 H8 H9 HF HN. destruct (absorb_fields fs' H1 H2 fs xs ys ys' H3 H4 H5 H6 H7 H8 H9 HF HN) as (zs & E1 & E2 & E3 & E4 & E5).
  exists zs. split; [exact E1|]. split; [exact E2|]. split; [|split; assumption]. pose proof (fits_length sch' _ _ E2) as L2. pose proof (fits_length sch' _ _ HF) as L1. clear - L1 L2 E3 HN.
  apply nth_all_eq. intros j. rewrite !nth_error_map, nth_absorb.
  assert (Hj : option_map norm (nth_error ys j) = option_map norm (nth_error ys' j)) by (rewrite <- !nth_error_map, HN; reflexivity).
  specialize (E3 j). unfold slot in E3. destruct (nth_error fs' j) as [[t|n f']|] eqn:Ej.
  - rewrite E3, Hj. destruct (nth_error ys' j); reflexivity.
  - destruct E3 as [E3 E4]. destruct (in_dec N.eq_dec n (numbers fs)) as [Hin|Hin].
    + rewrite (E3 Hin). destruct (nth_error ys' j); reflexivity.
    + rewrite (E4 Hin), Hj. destruct (nth_error ys' j); [|reflexivity]. rewrite sent_none by exact Hin. reflexivity.
  - apply nth_error_None in Ej. rewrite <- L2 in Ej. apply nth_error_None in Ej. rewrite Ej. reflexivity.
Qed.

Lemma absorb_scalar v n f f' s s' x x' : scalars f = Some s -> scalars f' = Some s' -> change s s' = true -> absorb x' v f f' = takes_in f' x' (sends f v) ->
  wt D v (go_type f) = true -> ok_fty f = true -> ok_fty f' = true -> encodable v f = true -> zlen (ser (records v n f)) < Z63 ->
  fits x f' = true -> norm x = norm x' ->
  exists ps w, records v n f = recs n ps /\ put_list f' x ps w /\ fits w f' = true /\ norm w = norm (absorb x' v f f') /\
    (match f with FMessage _ => True | _ => False end -> if is_nil v then ps = [] else exists p, ps = [p]).
Proof.
  intros Hs Hs' Hc Ht Hw Hf Hf' He Hsm Hx Hn. destruct (leaf_records sch D f s Hs Hf v n Hw He) as [R1 R2].
  exists (map (pay s) (sends f v)), (takes_in f' x (sends f v)). split; [exact R1|]. rewrite Ht. split; [|split; [|split]].
  - rewrite <- (taken_steps f' s' Hs') by exact Hx. eapply put_steps; try eassumption. rewrite R1 in Hsm.
    apply (recs_small sch D n s); [|exact R2|exact Hsm]. destruct s, s'; try discriminate Hc; reflexivity.
  - eapply fits_taken; eassumption.
  - eapply taken_norm; eassumption.
  - destruct f; intros []; discriminate Hs.
Qed.
Lemma msg_absorbs m m' xs n y y' : same m m' = true -> wt D (VPtr (Some (VStruct xs))) (TMsg m) = true -> Forall absorbs xs ->
  encodable (VPtr (Some (VStruct xs))) (FMessage m) = true -> zlen (ser (records (VPtr (Some (VStruct xs))) n (FMessage m))) < Z63 ->
  fits y (FMessage m') = true -> norm y = norm y' ->
  exists p zs, records (VPtr (Some (VStruct xs))) n (FMessage m) = [(n, p)] /\ pay_ok p /\ wire_of p = 2%N /\
    put sch' mg (FMessage m') p y = MOk (VPtr (Some (VStruct zs))) /\ plain_put sch' pl (FMessage m') p (length (ser_payload p)) = true /\
    fits_msg zs (msg sch' m') = true /\
    norm (VPtr (Some (VStruct zs))) = norm (absorb y' (VPtr (Some (VStruct xs))) (FMessage m) (FMessage m')).
Proof.
  intros Hc Hw Hg He Hsm Hy HN.
  destruct (wt_msg _ _ _ Hw) as (o & Eo & Hx). inversion Eo; subst o. clear Eo.
  destruct (wts_struct D (VStruct xs) (SNamed m)) as (xs' & Ex & W); [discriminate|exact Hx|]. inversion Ex; subst xs'. clear Ex. cbn [key_types] in W.
  rewrite (field_types_of D sch HI) in W. rewrite records_msg in *. rewrite encodable_eq in He. apply (ser_len_lt D sch) in Hsm.
  destruct (schema_ok_msg sch HS m) as (_ & Hnd & _). destruct (schema_ok_msg sch' HS' m') as (_ & Hnd' & _).
  destruct (absorb_any (msg sch m) (msg sch' m') xs (contents y m') (contents y' m') Hnd' (msg_fields_ok sch' HS' HC' m') Hnd (msg_fields_ok sch HS HC m) (HU m m' Hc) W Hg He Hsm
    (fits_contents y m' Hy) (contents_norm y y' m' Hy HN)) as (zs & E1 & EF & E2 & E3 & E4).
  exists (PLen (ser (message xs (msg sch m)))), zs. split; [reflexivity|]. split; [split; assumption|]. split; [reflexivity|].
  split; [cbn [put]; change (match y with VPtr (Some (VStruct xs)) => xs | _ => zeros (msg sch' m') end) with (contents y m'); rewrite E1; reflexivity|].
  split; [exact E3|]. split; [exact EF|]. rewrite absorb_struct. cbn [norm]. rewrite E2. reflexivity.
Qed.
Lemma absorb_items n m m' : accepts same (FMessage m) (FMessage m') = true -> (n < 2^61)%N -> forall items, Forall absorbs items ->
  forallb (fun x => wt D x (TMsg m)) items = true -> forallb (fun x => encodable x (FMessage m)) items = true ->
  zlen (ser (flat_map (fun x => records x n (FMessage m)) items)) < Z63 ->
  exists ps ws, flat_map (fun x => records x n (FMessage m)) items = recs n ps /\
    map norm ws = map norm (flat_map (fun x => if is_nil x then [] else [absorb (VPtr None) x (FMessage m) (FMessage m')]) items) /\
    (forall nn acc sp, put_list (FRepeated (FMessage m')) (VSlice nn acc sp) ps (extended (VSlice nn acc sp) ws)).
Proof.
  intros Hc Hn. induction items as [|x items IH]; intros Hg Hw Hen Hsm.
  - exists [], []. split; [reflexivity|]. split; [reflexivity|]. intros nn acc sp. constructor.
  - inversion Hg as [|? ? Gx Gi]; subst. cbn [forallb flat_map] in *. apply andb_true_iff in Hw, Hen. destruct Hw as [Wx Hw], Hen as [Ex Hen].
    rewrite ser_app, zlen_app in Hsm. pose proof (zlen_nonneg (ser (records x n (FMessage m)))). pose proof (zlen_nonneg (ser (flat_map (fun x => records x n (FMessage m)) items))).
    destruct (IH Gi Hw Hen ltac:(lia)) as (ps & ws & E1 & E2 & E3).
    destruct (Gx n (FMessage m) (FMessage m') (VPtr None) (VPtr None) Wx eq_refl eq_refl Hc Hn Ex ltac:(lia) eq_refl eq_refl) as (ps1 & w & F1 & F2 & _ & F3 & F4). specialize (F4 Logic.I).
    rewrite E1, F1. destruct (is_nil x).
    + subst ps1. exists ps, ws. split; [reflexivity|]. split; [exact E2|exact E3].
    + destruct F4 as [p ->]. exists (p :: ps), (w :: ws). split; [reflexivity|]. split; [cbn [app map]; rewrite E2, F3; reflexivity|].
      intros nn acc sp. inversion F2 as [|? ? z ? ? G1 G2 G3 G4 G5]; subst. inversion G5; subst.
      pose proof (E3 true (acc ++ [w]) []) as E. replace (extended (VSlice nn acc sp) (w :: ws)) with (extended (VSlice true (acc ++ [w]) []) ws).
      2:{ cbn [extended]. destruct ws; [reflexivity|]. rewrite <- app_assoc. reflexivity. }
      econstructor; [exact G1|exact G2| |exact G4|exact E]. cbn [SpecMsg.put go_type zero] in *. rewrite G3. reflexivity.
Qed.
Lemma absorb_elements n m m' : accepts same (FMessage m) (FMessage m') = true -> (n < 2^61)%N -> forall items, Forall absorbs items ->
  forallb (fun x => wt D x (TMsg m)) items = true -> forallb (fun x => encodable x (FMessage m)) items = true ->
  zlen (ser (flat_map (fun x => records x n (FMessage m)) items)) < Z63 ->
  forall y y', fits y (FMessage m') = true -> norm y = norm y' ->
  exists ps w, flat_map (fun x => records x n (FMessage m)) items = recs n ps /\ put_list (FMessage m') y ps w /\ fits w (FMessage m') = true /\
    norm w = norm (fold_left (fun y x => absorb y x (FMessage m) (FMessage m')) items y').
Proof.
  intros Hc Hn. induction items as [|x items IH]; intros Hg Hw Hen Hsm y y' Hy HN.
  - exists [], y. split; [reflexivity|]. split; [constructor|]. split; [exact Hy|exact HN].
  - inversion Hg as [|? ? Gx Gi]; subst. cbn [forallb flat_map fold_left] in *. apply andb_true_iff in Hw, Hen. destruct Hw as [Wx Hw], Hen as [Ex Hen].
    rewrite ser_app, zlen_app in Hsm. pose proof (zlen_nonneg (ser (records x n (FMessage m)))). pose proof (zlen_nonneg (ser (flat_map (fun x => records x n (FMessage m)) items))).
    destruct (Gx n (FMessage m) (FMessage m') y y' Wx eq_refl eq_refl Hc Hn Ex ltac:(lia) Hy HN) as (ps1 & w & F1 & F2 & F3 & F4 & _).
    destruct (IH Gi Hw Hen ltac:(lia) w _ F3 F4) as (ps & z & E1 & E2 & E3 & E4).
    exists (ps1 ++ ps), z. rewrite E1, F1. split; [unfold recs; rewrite map_app; reflexivity|]. split; [eapply put_list_app; eassumption|]. split; assumption.
Qed.
Lemma absorb_entries n k e e' : scope_key k = true -> scope_val e = true -> scope_val e' = true -> accepts same e e' = true -> (n < 2^61)%N -> forall l,
  Forall (fun kv => absorbs (fst kv) /\ absorbs (snd kv)) l ->
  forallb (fun kv => match kv with (a, x) => wt D a (TScalar (go_kind k)) && wt D x (go_type e) end) l = true ->
  forallb (fun kv => match kv with (_, x) => map_len_ok sch k e x && encodable x e end) l = true ->
  zlen (ser (records (VMap (Some l)) n (FMap k e))) < Z63 ->
  forall m old, map norm_kv (entries m) = map norm_kv old ->
  exists ps z, records (VMap (Some l)) n (FMap k e) = recs n ps /\ put_list (FMap k e') (VMap m) ps (VMap z) /\
    map norm_kv (entries z) = map norm_kv (fold_left (fun l kv => match kv with (a, y) => put_entry l a (absorb (zero (go_type e')) y e e') end) l old).
Proof.
  intros Hk Hv Hv' Hc Hn. assert (Ka : not_sfixed k = true) by (destruct k; try discriminate; reflexivity).
  assert (Kc : change k k = true) by (destruct k; try discriminate; reflexivity).
  induction l as [|[a x] l IH]; intros Hg Hw He Hsm m old Hm.
  { exists [], m. repeat split; [constructor|exact Hm]. }
  inversion Hg as [|? ? [Ga Gx] Gl]; subst. cbn [fst snd] in Ga, Gx.
  cbn [forallb] in Hw, He. btrue.
  assert (Er : records (VMap (Some ((a, x) :: l))) n (FMap k e) =
    (n, PLen (ser (message [a; x] (entry_fs k e)))) :: records (VMap (Some l)) n (FMap k e)) by (rewrite (entry_msg sch); reflexivity).
  rewrite Er in Hsm |- *. change ((n, PLen (ser (message [a; x] (entry_fs k e)))) :: records (VMap (Some l)) n (FMap k e)) with
    ([(n, PLen (ser (message [a; x] (entry_fs k e))))] ++ records (VMap (Some l)) n (FMap k e)) in Hsm.
  rewrite ser_app, zlen_app in Hsm.
  pose proof (zlen_nonneg (ser [(n, PLen (ser (message [a; x] (entry_fs k e))))])).
  pose proof (zlen_nonneg (ser (records (VMap (Some l)) n (FMap k e)))).
  assert (Hse : zlen (ser (message [a; x] (entry_fs k e))) < Z63) by (apply (ser_len_lt D sch n); lia).
  destruct (absorb_any (entry_fs k e) (entry_fs k e') [a; x] (zeros (entry_fs k e')) (zeros (entry_fs k e'))) as (ys & E1 & EF & E2 & E3 & E4).
  - reflexivity.
  - intros n' f' [Hin|[Hin|[]]]; inversion Hin; subst; (split; [|reflexivity]); [exact Ka|apply val_ok; exact Hv'].
  - reflexivity.
  - intros n' f' [Hin|[Hin|[]]]; inversion Hin; subst; (split; [|reflexivity]); [exact Ka|apply val_ok; exact Hv].
  - intros n' g g' [Hin|[Hin|[]]] [Hin'|[Hin'|[]]]; inversion Hin; inversion Hin'; subst; try discriminate; [exact Kc|exact Hc].
  - cbn [all2 map entry_fs fld_type go_type].
    repeat match goal with H : wt D _ _ = true |- _ => rewrite H; clear H end. reflexivity.
  - repeat constructor; assumption.
  - cbn [SpecMsg.encodable_msg entry_fs]. match goal with H : encodable x e = true |- _ => rewrite H end. destruct a; reflexivity.
  - exact Hse.
  - apply fits_zeros.
  - reflexivity.
  - destruct ys as [|a' [|x' [|? ?]]]; try discriminate E2. cbn [zeros SpecAbsorb.absorb_msg entry_fs map SpecAbsorb.sent N.eqb Pos.eqb fld_type] in E2.
    inversion E2 as [[Na Nx]]. clear E2.
    assert (Ea : a' = a).
    { assert (Ka' : absorb (zero_k (go_kind k)) a (FAlways k) (FAlways k) = a).
      { transitivity (become k a); [destruct a; reflexivity|]. apply (become_same D); assumption. }
      rewrite Ka' in Na. assert (Sa : scalar a = true) by (eapply wt_scalar; eassumption). apply (scalar_norm_inv a a' Sa). congruence. }
    subst a'.
    destruct (IH Gl ltac:(assumption) ltac:(assumption) ltac:(lia) (Some (put_entry (entries m) a x')) (put_entry old a (absorb (zero (go_type e')) x e e'))) as (ps & z & F1 & F2 & F3).
    + cbn [entries]. apply put_entry_norm; [exact Nx|exact Hm].
    + exists (PLen (ser (message [a; x] (entry_fs k e))) :: ps), z. split; [cbn [recs map]; rewrite F1; reflexivity|]. split; [|exact F3].
      econstructor; [split; [exact E4|exact Hse]|reflexivity| | |exact F2].
      * cbn [SpecMsg.put]. fold (entry_fs k e'). rewrite E1. reflexivity.
      * cbn [SpecMsg.plain_put]. exact E3.
Qed.

Lemma all_absorb : forall v, absorbs v.
Proof.
  induction v as [v IH] using val_ind2. intros n f f' y y' Hw Hf Hf' Hc Hn He Hsm Hy HN.
  destruct f as [q|q|q|q| |m|e|k e].
  1-5: destruct (accepts_scalars _ _ Hc Logic.I) as (s & s' & S1 & S2 & S3); eapply absorb_scalar; try eassumption; destruct v; reflexivity.
  - (* message *)
    assert (Hm : exists m', same m m' = true /\ (f' = FMessage m' \/ f' = FRepeated (FMessage m'))).
    { destruct f' as [q|q|q|q| |m'|e|k e]; try discriminate Hc; [exists m'; auto|]. destruct e; try discriminate Hc. exists m0; auto. }
    destruct Hm as (m' & Hm & Hf2). cbn [go_type] in Hw. destruct (wt_msg _ _ _ Hw) as ([x|] & -> & Hx).
    2:{ exists [], y. split; [reflexivity|]. split; [constructor|]. split; [exact Hy|]. split; [|intros _; reflexivity]. destruct Hf2 as [->| ->]; exact HN. }
    destruct (wts_struct D x (SNamed m)) as (xs & -> & W); [discriminate|exact Hx|]. destruct IH as [_ IH].
    destruct Hf2 as [->| ->].
    + destruct (msg_absorbs m m' xs n y y' Hm Hw IH He Hsm Hy HN) as (p & zs & E1 & E2 & E3 & E4 & E5 & EF & E6).
      exists [p], (VPtr (Some (VStruct zs))). split; [exact E1|]. split; [|split; [rewrite fits_struct; exact EF|split; [exact E6|intros _; eexists; reflexivity]]].
      econstructor; [exact E2|rewrite E3; reflexivity|exact E4|exact E5|constructor].
    + destruct (msg_absorbs m m' xs n (VPtr None) (VPtr None) Hm Hw IH He Hsm eq_refl eq_refl) as (p & zs & E1 & E2 & E3 & E4 & E5 & EF & E6).
      destruct y as [| | | | | | | | | |nn acc sp| | | |]; try discriminate Hy.
      exists [p], (extended (VSlice nn acc sp) [VPtr (Some (VStruct zs))]). split; [exact E1|]. split; [|split; [reflexivity|split; [|intros _; eexists; reflexivity]]].
      * econstructor; [exact E2|rewrite E3; reflexivity| |exact E5|constructor]. cbn [put go_type zero] in *. rewrite E4. reflexivity.
      * assert (T : absorb y' (VPtr (Some (VStruct xs))) (FMessage m) (FRepeated (FMessage m')) =
          extended y' [absorb (VPtr None) (VPtr (Some (VStruct xs))) (FMessage m) (FMessage m')]) by reflexivity.
        rewrite T. apply (extended_norm (FRepeated FBytes)); auto. cbn [map]. rewrite E6. reflexivity.
  - (* repeated *)
    assert (Hd : (exists m, e = FMessage m) \/ match e with FMessage _ => False | _ => True end) by (destruct e; eauto).
    destruct Hd as [(m & ->)|He2].
    2:{ destruct (accepts_scalars (FRepeated e) f') as (s & s' & S1 & S2 & S3); [destruct e; try exact Hc; destruct He2|destruct e; auto|].
        eapply absorb_scalar; try eassumption. destruct v, e; try reflexivity; try destruct He2; discriminate Hf. }
    cbn [go_type] in Hw. destruct (wt_slice _ _ _ Hw) as (nn & items & spare & -> & Hi & Hsp). destruct IH as [IH _].
    destruct f' as [q|q|q|q| |m'|e'|k e']; try discriminate Hc.
    + destruct (absorb_elements n m m' Hc Hn items IH Hi He Hsm y y' Hy HN) as (ps & w & E1 & E2 & E3 & E4).
      exists ps, w. split; [exact E1|]. split; [exact E2|]. split; [exact E3|]. split; [exact E4|intros []].
    + destruct e' as [q|q|q|q| |m'|e'|k e']; try discriminate Hc.
      destruct y as [| | | | | | | | | |on acc sp| | | |]; try discriminate Hy.
      destruct (absorb_items n m m' Hc Hn items IH Hi He Hsm) as (ps & ws & E1 & E2 & E3).
      exists ps, (extended (VSlice on acc sp) ws). split; [exact E1|]. split; [apply E3|]. split; [destruct ws; reflexivity|]. split; [|intros []].
      cbn [SpecAbsorb.absorb]. apply (extended_norm (FRepeated FBytes)); auto.
  - (* map *)
    destruct f' as [q|q|q|q| |m'|e'|k' e']; try discriminate Hc. cbn [accepts] in Hc. apply andb_true_iff in Hc. destruct Hc as [Hk Hc].
    destruct (sty_eq_dec k k') as [<-|]; [|discriminate Hk]. clear Hk.
    cbn [go_type] in Hw. destruct (wt_map _ _ _ _ Hw) as (mm & -> & Hm). clear Hw.
    cbn [ok_fty] in Hf, Hf'. apply andb_true_iff in Hf, Hf'. destruct Hf as [Hk Hv], Hf' as [_ Hv'].
    destruct mm as [[|kv l]|]; try discriminate He. destruct Hm as [Hm _].
    destruct y as [| | | | | | | | | | |om| | |]; try discriminate Hy.
    assert (Hy' : exists om', y' = VMap om' /\ map norm_kv (entries om) = map norm_kv (entries om')).
    { rewrite norm_map in HN. destruct y' as [| | | | | | | | |[] ?| |om'|[?|]| |]; try discriminate HN.
      eexists. split; [reflexivity|]. rewrite norm_map in HN. destruct (entries om), (entries _); try discriminate HN; [reflexivity|]. inversion HN. cbn [map]. congruence. }
    destruct Hy' as (om' & -> & Ho).
    destruct (absorb_entries n k e e' Hk Hv Hv' Hc Hn (kv :: l) IH Hm He Hsm om (entries om') Ho) as (ps & z & E1 & E2 & E3).
    exists ps, (VMap z). split; [exact E1|]. split; [exact E2|]. split; [reflexivity|]. split; [|intros []].
    cbn [SpecAbsorb.absorb]. rewrite !norm_map. change (match om' with Some old => old | None => [] end) with (entries om').
    cbn [entries]. destruct (entries z), (fold_left _ (kv :: l) (entries om')); try discriminate E3; [reflexivity|]. rewrite E3. reflexivity.
Qed.

Theorem merge_absorb m m' xs ys : same m m' = true -> all2 (wt D) ys (field_types D m) = true -> encodable_msg ys (msg sch m) = true ->
  zlen (ser (message ys (msg sch m))) < Z63 -> fits_msg xs (msg sch' m') = true ->
  exists zs, mg (msg sch' m') xs (ser (message ys (msg sch m))) = MOk zs /\
    map norm zs = map norm (absorb_msg xs ys (msg sch m) (msg sch' m')) /\
    pl (msg sch' m') (ser (message ys (msg sch m))) = true /\ bytes_okb (ser (message ys (msg sch m))) = true.
Proof.
  intros Hm Hw He Hsm Hx. rewrite (field_types_of D sch HI) in Hw. destruct (schema_ok_msg sch HS m) as (_ & Hnd & _). destruct (schema_ok_msg sch' HS' m') as (_ & Hnd' & _).
  destruct (absorb_any (msg sch m) (msg sch' m') ys xs xs) as (zs & E1 & _ & E2 & E3 & E4); auto; try (apply msg_fields_ok; assumption); try (apply HU; exact Hm).
  - apply Forall_forall. intros x _. apply all_absorb.
  - exists zs. auto.
Qed.
End Two.
