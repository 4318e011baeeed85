(** Facts about flat memory: loads, stores, allocation, and what they leave alone. *)
From Coq Require Import ZifyBool ZifyNat ZifyN.
From Verif Require Import Base Wire GoType Leaf Codec Walker Api Typing Unsafe SpecUnsafe.
Local Open Scope nat_scope.

(** ** Sets *)
Definition seteq (A B : cset) : Prop := forall b o, A b o <-> B b o.
Definition all : cset := fun _ _ => True.

Lemma seteq_refl A : seteq A A. Proof. intros b o. tauto. Qed.
Lemma seteq_sym A B : seteq A B -> seteq B A. Proof. intros H b o. symmetry. apply H. Qed.
Lemma seteq_trans A B C : seteq A B -> seteq B C -> seteq A C.
Proof. intros H1 H2 b o. rewrite (H1 b o). apply H2. Qed.
Lemma seteq_union A A' B B' : seteq A A' -> seteq B B' -> seteq (union A B) (union A' B').
Proof. intros H1 H2 b o. unfold union. rewrite (H1 b o), (H2 b o). tauto. Qed.
Lemma seteq_subset A B : seteq A B -> subset A B. Proof. intros H b o. apply H. Qed.
Lemma union_none_l A : seteq (union none A) A. Proof. intros b o. unfold union, none. tauto. Qed.
Lemma union_none_r A : seteq (union A none) A. Proof. intros b o. unfold union, none. tauto. Qed.
Lemma union_assoc A B C : seteq (union (union A B) C) (union A (union B C)).
Proof. intros b o. unfold union. tauto. Qed.
Lemma subset_refl A : subset A A. Proof. intros b o H. exact H. Qed.
Lemma subset_trans A B C : subset A B -> subset B C -> subset A C. Proof. intros H1 H2 b o H. auto. Qed.
Lemma subset_union A B C : subset A C -> subset B C -> subset (union A B) C.
Proof. intros H1 H2 b o [H|H]; auto. Qed.
Lemma disjoint_sym A B : disjoint A B -> disjoint B A. Proof. intros H b o H1 H2. eapply H; eassumption. Qed.
Lemma disjoint_sub A B A' B' : disjoint A B -> subset A' A -> subset B' B -> disjoint A' B'.
Proof. intros H H1 H2 b o Ha Hb. eapply H; eauto. Qed.
Lemma disjoint_none_r A : disjoint A none. Proof. intros b o _ []. Qed.
Lemma disjoint_none_l A : disjoint none A. Proof. intros b o []. Qed.
Lemma disjoint_union_l A B C : disjoint A C -> disjoint B C -> disjoint (union A B) C.
Proof. intros H1 H2 b o [H|H] Hc; eauto. Qed.
Lemma disjoint_union_r A B C : disjoint A B -> disjoint A C -> disjoint A (union B C).
Proof. intros H1 H2 b o Ha [H|H]; eauto. Qed.

(** ** Cells *)
Lemma cell_spot H b o : cell H b o = match spot H b o with Some (inl c) => Some c | _ => None end.
Proof.
  unfold cell, spot. destruct (nth_error H b) as [[c|s|l]|]; try reflexivity.
  destruct (nth_error c o); reflexivity.
Qed.
Lemma spot_born H b o x : spot H b o = Some x -> b < length H.
Proof. unfold spot. intros E. apply nth_error_Some. intros N. rewrite N in E. discriminate. Qed.

Lemma cells_spec H b : forall n o l, cells H b o n = Some l <->
  length l = n /\ forall i, i < n -> cell H b (o + i) = nth_error l i.
Proof.
  induction n as [|n IH]; intros o l; cbn [cells].
  - split.
    + intros E. inversion E; subst. split; [reflexivity|]. intros; lia.
    + intros [E _]. destruct l; [reflexivity|discriminate].
  - split.
    + intros E. destruct (cell H b o) as [c|] eqn:Ec; [|discriminate].
      destruct (cells H b (S o) n) as [r|] eqn:Er; [|discriminate]. inversion E; subst l.
      apply IH in Er as [L R]. split; [cbn; lia|]. intros [|i] Hi.
      * rewrite Nat.add_0_r. exact Ec.
      * cbn [nth_error]. rewrite <- R by lia. f_equal. lia.
    + intros [L R]. destruct l as [|c l]; [discriminate|].
      pose proof (R 0 ltac:(lia)) as R0. rewrite Nat.add_0_r in R0. cbn in R0. rewrite R0.
      assert (E : cells H b (S o) n = Some l).
      { apply IH. split; [cbn in L; lia|]. intros i Hi. specialize (R (S i) ltac:(lia)).
        replace (S o + i) with (o + S i) by lia. exact R. }
      rewrite E. reflexivity.
Qed.
Lemma load_spec H a n l : load H a n = Some l <->
  length l = n /\ forall i, i < n -> cell H (fst a) (snd a + i) = nth_error l i.
Proof. apply cells_spec. Qed.
Lemma load_length H a n l : load H a n = Some l -> length l = n.
Proof. intros E. apply load_spec in E. tauto. Qed.

(** Whether a load succeeds. *)
Lemma load_some H a n : (forall i, i < n -> cell H (fst a) (snd a + i) <> None) -> exists l, load H a n = Some l.
Proof.
  destruct a as [b o]. unfold load. cbn [fst snd]. revert o.
  induction n as [|n IH]; intros o E; [exists []; reflexivity|].
  cbn [cells]. destruct (cell H b o) as [c|] eqn:Ec.
  - destruct (IH (S o)) as [l El].
    { intros i Hi. replace (S o + i) with (o + S i) by lia. apply E. lia. }
    rewrite El. eauto.
  - exfalso. apply (E 0); [lia|]. rewrite Nat.add_0_r. exact Ec.
Qed.
Lemma load_ext H H' a a' n :
  (forall i, i < n -> cell H' (fst a') (snd a' + i) = cell H (fst a) (snd a + i)) -> load H' a' n = load H a n.
Proof.
  destruct a as [b o], a' as [b' o']. unfold load. cbn [fst snd]. revert o o'.
  induction n as [|n IH]; intros o o' E; [reflexivity|]. cbn [cells].
  pose proof (E 0 ltac:(lia)) as E0. rewrite !Nat.add_0_r in E0. rewrite E0.
  rewrite (IH (S o) (S o')); [reflexivity|]. intros i Hi. specialize (E (S i) ltac:(lia)).
  replace (S o' + i) with (o' + S i) by lia. replace (S o + i) with (o + S i) by lia. exact E.
Qed.
(** A load of a part. *)
Lemma load_part H a n l i m : load H a n = Some l -> i + m <= n -> load H (shift a i) m = Some (firstn m (skipn i l)).
Proof.
  intros E L. apply load_spec in E as [El E]. apply load_spec. split.
  - rewrite firstn_length, skipn_length. lia.
  - intros j Hj. cbn [shift fst snd]. rewrite <- Nat.add_assoc, E by lia.
    clear -Hj. revert l m j Hj. induction i as [|i IH]; intros l m j Hj; cbn [skipn Nat.add].
    + revert m j Hj. induction l as [|c l IHl]; intros [|m] [|j] Hj; try lia; try reflexivity.
      cbn [nth_error firstn]. apply IHl. lia.
    + destruct l as [|c l]; [destruct j, m; reflexivity|]. cbn [nth_error]. apply IH. exact Hj.
Qed.
Lemma load_app H a n m l l' : load H a n = Some l -> load H (shift a n) m = Some l' -> load H a (n + m) = Some (l ++ l').
Proof.
  intros E E'. apply load_spec in E as [L E]. apply load_spec in E' as [L' E']. apply load_spec.
  split; [rewrite app_length; lia|]. intros i Hi. destruct (Nat.lt_ge_cases i n) as [Hn|Hn].
  - rewrite nth_error_app1 by lia. auto.
  - rewrite nth_error_app2 by lia. rewrite <- E' by lia. cbn [shift fst snd]. f_equal. lia.
Qed.
Lemma load_cells H a n l i : load H a n = Some l -> i < n -> cell H (fst a) (snd a + i) <> None.
Proof.
  intros E Hi. apply load_spec in E as [L E]. rewrite E by lia. apply nth_error_Some. lia.
Qed.
Lemma cell_born H b o : cell H b o <> None -> b < length H.
Proof. unfold cell. intros E. apply nth_error_Some. intros N. rewrite N in E. apply E. reflexivity. Qed.
(** All bytes between two bytes of an object exist. *)
Lemma cell_between H b o o' : cell H b o' <> None -> o <= o' -> cell H b o <> None.
Proof.
  unfold cell. destruct (nth_error H b) as [[c|s|l]|]; try congruence. intros E L.
  apply nth_error_Some in E. apply nth_error_Some. lia.
Qed.
Lemma load_between H a n m : m + 1 <= n -> (exists l, load H (shift a m) (n - m) = Some l) -> exists l, load H a n = Some l.
Proof.
  intros L [l E]. apply load_some. intros i Hi. pose proof (load_cells _ _ _ _ (n - m - 1) E ltac:(lia)) as C.
  cbn [shift fst snd] in C. eapply cell_between; [exact C|]. lia.
Qed.

(** ** [holds] *)
Lemma holds_load H a cs : holds H a cs -> load H a (length cs) = Some cs. Proof. auto. Qed.
Lemma holds_cell H a cs i c : holds H a cs -> nth_error cs i = Some c -> cell H (fst a) (snd a + i) = Some c.
Proof.
  intros E N. apply load_spec in E as [_ E]. rewrite E; [exact N|]. apply nth_error_Some. congruence.
Qed.
Lemma holds_app H a cs cs' : holds H a (cs ++ cs') <-> holds H a cs /\ holds H (shift a (length cs)) cs'.
Proof.
  unfold holds. rewrite app_length. split.
  - intros E. split.
    + pose proof (load_part _ _ _ _ 0 (length cs) E ltac:(lia)) as P. cbn [skipn] in P.
      rewrite firstn_app, Nat.sub_diag, firstn_all, app_nil_r in P.
      replace (shift a 0) with a in P; [exact P|]. destruct a; unfold shift; cbn; f_equal; lia.
    + pose proof (load_part _ _ _ _ (length cs) (length cs') E ltac:(lia)) as P.
      rewrite skipn_app, Nat.sub_diag, skipn_all in P. cbn [skipn app] in P. rewrite firstn_all in P. exact P.
  - intros [E E']. apply load_app; assumption.
Qed.
Lemma shift_0 a : shift a 0 = a. Proof. destruct a. unfold shift. cbn. f_equal. lia. Qed.
Lemma shift_shift a i j : shift (shift a i) j = shift a (i + j).
Proof. unfold shift. cbn. f_equal. lia. Qed.
Lemma holds_move H H' a a' cs : holds H a cs ->
  load H' a' (length cs) = load H a (length cs) -> holds H' a' cs.
Proof. unfold holds. intros -> E. congruence. Qed.

(** ** Extension *)
Lemma extends_refl H : extends H H.
Proof. intros b. destruct (nth_error H b) as [[c|s|l]|]; eauto. Qed.
Lemma extends_trans H1 H2 H3 : extends H1 H2 -> extends H2 H3 -> extends H1 H3.
Proof.
  intros A B b. specialize (A b). specialize (B b). destruct (nth_error H1 b) as [[c|s|l]|]; [| | |exact Logic.I].
  - destruct A as (c' & E & L). rewrite E in B. destruct B as (c2 & E2 & L2). exists c2. split; [exact E2|congruence].
  - rewrite A in B. exact B.
  - destruct A as (l' & E). rewrite E in B. exact B.
Qed.
Lemma extends_length H H' : extends H H' -> length H <= length H'.
Proof.
  intros E. destruct (Nat.le_gt_cases (length H) (length H')) as [L|L]; [exact L|].
  specialize (E (length H')). assert (N : nth_error H (length H') <> None) by (apply nth_error_Some; exact L).
  assert (N' : nth_error H' (length H') = None) by (apply nth_error_None; lia). rewrite N' in E.
  destruct (nth_error H (length H')) as [[c|s|l]|]; [destruct E as (? & ? & _)| |destruct E as (? & ?)|]; congruence.
Qed.
Lemma extends_cell H H' b o : extends H H' -> cell H b o <> None -> cell H' b o <> None.
Proof.
  intros E C. specialize (E b). unfold cell in *. destruct (nth_error H b) as [[c|s|l]|]; try congruence.
  destruct E as (c' & -> & L). apply nth_error_Some in C. apply nth_error_Some. lia.
Qed.
Lemma extends_load H H' a n l : extends H H' -> load H a n = Some l -> exists l', load H' a n = Some l'.
Proof. intros E L. apply load_some. intros i Hi. eapply extends_cell; [exact E|]. eapply load_cells; eassumption. Qed.
Lemma extends_text H H' p s : extends H H' -> text H p s -> text H' p s.
Proof.
  intros E T. destruct T as [p|x o s n N L]; [constructor|]. constructor; [|exact L].
  specialize (E x). rewrite N in E. exact E.
Qed.

(** ** What a step leaves alone *)
(** Of the memory of [H] only [A] may differ in [H']. *)
Definition touch (A : cset) (H H' : heap) : Prop :=
  extends H H' /\ forall b o, b < length H -> ~ A b o -> spot H' b o = spot H b o.

Lemma touch_refl A H : touch A H H.
Proof. split; [apply extends_refl|]. reflexivity. Qed.
Lemma touch_trans A B H1 H2 H3 : touch A H1 H2 -> touch B H2 H3 -> subset B (union A (unborn H1)) -> touch A H1 H3.
Proof.
  intros [E1 T1] [E2 T2] HB. split; [eapply extends_trans; eassumption|].
  intros b o L N. rewrite T2; [apply T1; assumption| |].
  - apply extends_length in E1. lia.
  - intros Hb. apply HB in Hb as [Hb|Hb]; [contradiction|]. unfold unborn in Hb. lia.
Qed.
Lemma touch_weaken A B H H' : touch A H H' -> subset A (union B (unborn H)) -> touch B H H'.
Proof.
  intros [E T] HA. split; [exact E|]. intros b o L N. apply T; [exact L|]. intros Ha.
  apply HA in Ha as [Ha|Ha]; [contradiction|]. unfold unborn in Ha. lia.
Qed.
Lemma touch_ext A H H' : touch A H H' -> extends H H'. Proof. intros [E _]. exact E. Qed.
Lemma touch_len A H H' : touch A H H' -> length H <= length H'.
Proof. intros [E _]. apply extends_length. exact E. Qed.
(** Memory disjoint from [A] stays the same. *)
Definition born (H : heap) : cset := fun b _ => b < length H.
Lemma touch_same A H H' S : touch A H H' -> subset S (born H) -> disjoint S A -> same_on S H H'.
Proof. intros [_ T] HB HD b o Hs. apply T; [apply (HB _ _ Hs)|]. intros Ha. eapply HD; eassumption. Qed.
Lemma same_on_refl S H : same_on S H H. Proof. intros b o _. reflexivity. Qed.
Lemma same_on_trans S H1 H2 H3 : same_on S H1 H2 -> same_on S H2 H3 -> same_on S H1 H3.
Proof. intros A B b o Hs. rewrite (B _ _ Hs). apply A. exact Hs. Qed.
Lemma same_on_sub S S' H H' : same_on S H H' -> subset S' S -> same_on S' H H'.
Proof. intros A B b o Hs. apply A, B, Hs. Qed.
Lemma same_load S H H' a n : same_on S H H' -> subset (range a n) S -> load H' a n = load H a n.
Proof.
  intros A B. apply load_ext. intros i Hi. rewrite !cell_spot, A; [reflexivity|]. apply B. split; [reflexivity|lia].
Qed.
Lemma unborn_mono H H' : length H <= length H' -> subset (unborn H') (unborn H).
Proof. intros L b o U. unfold unborn in *. lia. Qed.
Lemma born_unborn H S : subset S (born H) -> disjoint S (unborn H).
Proof. intros A b o Hs U. apply A in Hs. unfold born, unborn in *. lia. Qed.

(** ** Stores *)
Lemma nth_set_same {A} (l : list A) i x : i < length l -> nth_error (list_set l i x) i = Some x.
Proof. revert i. induction l as [|y l IH]; intros [|i] L; cbn in *; try lia; [reflexivity|]. apply IH. lia. Qed.
Lemma nth_set_other {A} (l : list A) i j x : i <> j -> nth_error (list_set l i x) j = nth_error l j.
Proof. revert i j. induction l as [|y l IH]; intros [|i] [|j] N; cbn; try reflexivity; [congruence|]. apply IH. congruence. Qed.
Lemma length_set {A} (l : list A) i x : length (list_set l i x) = length l.
Proof. revert i. induction l as [|y l IH]; intros [|i]; cbn; try reflexivity. f_equal. apply IH. Qed.

Lemma set_cell_spec H b o c : cell H b o <> None -> exists H', set_cell H b o c = Some H' /\ extends H H' /\
  length H' = length H /\
  (forall b' o', spot H' b' o' = if (b' =? b) && (o' =? o) then Some (inl c) else spot H b' o').
Proof.
  unfold cell, set_cell. destruct (nth_error H b) as [[l|s|l]|] eqn:E; try congruence. intros N.
  apply nth_error_Some in N. destruct (o <? length l) eqn:El; [|lia].
  assert (Lb : b < length H) by (apply nth_error_Some; congruence).
  eexists. split; [reflexivity|]. split; [|split].
  - intros b'. destruct (Nat.eq_dec b b') as [<-|Nb].
    + rewrite E. exists (list_set l o c). split; [apply nth_set_same; exact Lb|apply length_set].
    + rewrite nth_set_other by exact Nb. destruct (nth_error H b') as [[c'|s|l']|]; eauto.
  - apply length_set.
  - intros b' o'. unfold spot. destruct (b' =? b) eqn:Eb.
    + apply Nat.eqb_eq in Eb. subst b'. rewrite nth_set_same by exact Lb. rewrite E. cbn [andb].
      destruct (o' =? o) eqn:Eo.
      * apply Nat.eqb_eq in Eo. subst o'. rewrite nth_set_same by exact N. reflexivity.
      * rewrite nth_set_other by lia. reflexivity.
    + rewrite nth_set_other by lia. reflexivity.
Qed.

Lemma store_spec : forall cs H a, (exists old, load H a (length cs) = Some old) ->
  exists H', store H a cs = Some H' /\ touch (range a (length cs)) H H' /\ length H' = length H /\ holds H' a cs.
Proof.
  intros cs H [b o]. unfold store. cbn [fst snd]. revert H o. induction cs as [|c cs IH]; intros H o [old L].
  - exists H. split; [reflexivity|]. split; [apply touch_refl|]. split; reflexivity.
  - cbn [length] in L. cbn [set_cells].
    pose proof (load_cells _ _ _ _ 0 L ltac:(lia)) as C. cbn [fst snd] in C. rewrite Nat.add_0_r in C.
    destruct (set_cell_spec H b o c C) as (H1 & -> & X1 & L1 & S1).
    destruct (IH H1 (S o)) as (H2 & E2 & T2 & L2 & K2).
    { eapply extends_load; [exact X1|]. replace (b, S o) with (shift (b, o) 1) by (unfold shift; cbn; f_equal; lia).
      eapply load_part; [exact L|]. lia. }
    exists H2. split; [exact E2|]. split; [|split; [congruence|]].
    + eapply touch_trans with (H2 := H1); [|exact T2|].
      * split; [exact X1|]. intros b' o' Lb N. rewrite S1. destruct (b' =? b) eqn:Eb; [|reflexivity].
        destruct (o' =? o) eqn:Eo; [|reflexivity]. exfalso. apply N. split; cbn [fst snd length]; lia.
      * intros b' o' [R1 R2]. left. split; cbn [fst snd length] in *; lia.
    + unfold holds. apply load_spec. split; [reflexivity|]. intros [|i] Hi; cbn [fst snd].
      * cbn [nth_error]. rewrite Nat.add_0_r. destruct T2 as [_ T2]. rewrite cell_spot, T2, S1.
        { rewrite !Nat.eqb_refl. reflexivity. }
        { rewrite L1. exact (cell_born _ _ _ C). }
        { intros [_ R]. cbn [fst snd] in R. lia. }
      * cbn [nth_error]. unfold holds in K2. apply load_spec in K2 as [_ K2]. cbn [fst snd length] in *.
        rewrite <- K2 by lia. f_equal. lia.
Qed.

Lemma alloc_touch A H x : touch A H (H ++ [x]).
Proof.
  split.
  - intros b. destruct (nth_error H b) as [y|] eqn:E; [|exact Logic.I].
    assert (E' : nth_error (H ++ [x]) b = Some y) by (rewrite nth_error_app1; [exact E|apply nth_error_Some; congruence]).
    destruct y; eauto.
  - intros b o L _. unfold spot. rewrite nth_error_app1 by exact L. reflexivity.
Qed.
Lemma alloc_nth H (x : obj) : nth_error (H ++ [x]) (length H) = Some x.
Proof. rewrite nth_error_app2 by lia. rewrite Nat.sub_diag. reflexivity. Qed.
Lemma alloc_holds H c : holds (H ++ [OMem c]) (length H, 0) c.
Proof.
  unfold holds. apply load_spec. split; [reflexivity|]. intros i Hi. cbn [fst snd Nat.add].
  unfold cell. rewrite alloc_nth. reflexivity.
Qed.
Lemma holds_ext_alloc H x a cs : holds H a cs -> holds (H ++ [x]) a cs.
Proof.
  intros K. eapply holds_move; [exact K|]. apply load_ext. intros i Hi.
  pose proof (load_cells _ _ _ _ i K Hi) as C. apply cell_born in C.
  rewrite !cell_spot. destruct (alloc_touch none H x) as [_ T]. rewrite T; [reflexivity|exact C|intros []].
Qed.
