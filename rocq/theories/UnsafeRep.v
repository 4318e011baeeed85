(** Facts about values represented in flat memory. *)
From Coq Require Import ZifyBool ZifyNat ZifyN.
From Verif Require Import Base Wire GoType Leaf Codec Walker Api Typing Unsafe SpecUnsafe UnsafeMem.
Local Open Scope nat_scope.

(** ** Numbers, pointers and lengths as bytes *)
Lemma le_cells_length k n : length (le_cells k n) = k.
Proof. revert n. induction k; intros n; cbn; [reflexivity|]. rewrite IHk. reflexivity. Qed.
Lemma le_le_cells k : forall n, (n < 256 ^ N.of_nat k)%N -> le (le_cells k n) = Some n.
Proof.
  induction k as [|k IH]; intros n L.
  - cbn in *. f_equal. lia.
  - cbn [le_cells le byte].
    assert (M : (n mod 256 < 256)%N) by (apply N.mod_lt; discriminate).
    destruct (n mod 256 <? 256)%N eqn:E; [|lia].
    rewrite IH.
    + f_equal. pose proof (N.div_mod n 256 ltac:(discriminate)). lia.
    + rewrite Nat2N.inj_succ, N.pow_succ_r' in L. apply N.div_lt_upper_bound; [discriminate|exact L].
Qed.
Lemma plain_map d : bytes_okb d = true -> plain (map MB d) = Some d.
Proof.
  induction d as [|c d IH]; [reflexivity|]. cbn [bytes_okb forallb map plain byte]. intros E.
  apply andb_prop in E as [E1 E2]. rewrite E1. rewrite IH by exact E2. reflexivity.
Qed.
Lemma mv_eqb_refl x : mv_eqb x x = true.
Proof. destruct x; cbn; rewrite ?N.eqb_refl, ?Nat.eqb_refl; reflexivity. Qed.
Lemma mvs_eqb_refl l : mvs_eqb l l = true.
Proof. induction l; cbn; [reflexivity|]. rewrite mv_eqb_refl. exact IHl. Qed.
Lemma ptr_of_cells p : ptr_of (ptr_cells p) = Some p.
Proof.
  destruct p as [a|]; [|reflexivity]. unfold ptr_of.
  replace (mvs_eqb (ptr_cells (Some a)) (ptr_cells None)) with false by reflexivity.
  cbn [ptr_cells seq map]. rewrite mvs_eqb_refl. reflexivity.
Qed.
Lemma len_of_cells n : len_of (len_cells n) = Some n.
Proof.
  destruct n as [|n]; [reflexivity|]. unfold len_of.
  replace (mvs_eqb (len_cells (S n)) (len_cells 0)) with false by reflexivity.
  cbn [len_cells seq map]. rewrite mvs_eqb_refl. reflexivity.
Qed.
Lemma ptr_cells_length p : length (ptr_cells p) = 8. Proof. destruct p; reflexivity. Qed.
Lemma len_cells_length n : length (len_cells n) = 8. Proof. destruct n; reflexivity. Qed.
Lemma hdr_length p l c : length (hdr p l c) = 24.
Proof. unfold hdr. rewrite !app_length, ptr_cells_length, !len_cells_length. reflexivity. Qed.
Lemma str_hdr_length p l : length (str_hdr p l) = 16.
Proof. unfold str_hdr. rewrite app_length, ptr_cells_length, len_cells_length. reflexivity. Qed.

Lemma holds_ptr H a p : holds H a (ptr_cells p) -> ld_ptr H a = Some p.
Proof. unfold holds, ld_ptr. rewrite ptr_cells_length. intros ->. apply ptr_of_cells. Qed.
Lemma holds_len H a n : holds H a (len_cells n) -> ld_len H a = Some n.
Proof. unfold holds, ld_len. rewrite len_cells_length. intros ->. apply len_of_cells. Qed.
Lemma holds_str_hdr H a p n : holds H a (str_hdr p n) -> ld_ptr H a = Some p /\ ld_len H (shift a 8) = Some n.
Proof.
  unfold str_hdr. intros K. apply holds_app in K as [K1 K2]. rewrite ptr_cells_length in K2.
  split; [apply holds_ptr|apply holds_len]; assumption.
Qed.
Lemma holds_hdr H a p n c : holds H a (hdr p n c) ->
  ld_ptr H a = Some p /\ ld_len H (shift a 8) = Some n /\ ld_len H (shift a 16) = Some c.
Proof.
  unfold hdr. intros K. apply holds_app in K as [K1 K2]. rewrite ptr_cells_length in K2.
  apply holds_app in K2 as [K2 K3]. rewrite len_cells_length, shift_shift in K3.
  split; [apply holds_ptr|split; apply holds_len]; assumption.
Qed.
Lemma hdr_ld H a p n c : holds H a (hdr p n c) -> ld_hdr H a = Some (p, n, c).
Proof. intros K. apply holds_hdr in K as (A & B & C). unfold ld_hdr. rewrite A, B, C. reflexivity. Qed.

Lemma k_cells_length D k v cs : wt D v (TScalar k) = true -> k_cells v = Some cs -> length cs = kind_size k.
Proof.
  destruct v as [| | | | | | | |[]| | |[]|[[]|]| |], k; try discriminate; intros _ E; cbn [k_cells] in E; inversion E; subst;
    try (destruct b; reflexivity); reflexivity.
Qed.

(** ** Every represented value lies in allocated memory *)
Lemma range_born H a n l : load H a n = Some l -> subset (range a n) (born H).
Proof.
  intros E b o [-> R]. unfold born.
  pose proof (load_cells _ _ _ _ (o - snd a) E ltac:(lia)) as C. apply cell_born in C. exact C.
Qed.

Scheme rep_mut := Minimality for rep Sort Prop
  with box_mut := Minimality for box Sort Prop.
Combined Scheme rep_box_ind from rep_mut, box_mut.

Section Rep.
Variable D : decls.
Variable other : nat -> nat -> nat * nat.
Variable sep : bool.
Notation rep := (rep D other sep).
Notation box := (box D other sep).

Lemma kind_size_pos k : 1 <= kind_size k. Proof. destruct k; cbn; lia. Qed.
Lemma opt_size k : tsize (TOption k) = opt_value k + kind_size k. Proof. destruct k; reflexivity. Qed.
Lemma opt_value_pos k : 1 <= opt_value k. Proof. destruct k; cbn; lia. Qed.

Lemma rep_load H t a v S : rep H t a v S -> exists l, load H a (tsize t) = Some l.
Proof.
  induction 1; cbn [tsize];
    try (match goal with K : holds _ _ _ |- _ => pose proof (holds_load _ _ _ K) as L; rewrite ?hdr_length, ?str_hdr_length, ?ptr_cells_length in L; eexists; exact L end; fail).
  - match goal with K : holds _ _ _ |- _ => apply holds_load in K as L end. erewrite k_cells_length in L by eassumption. eauto.
  - change (round_up (kind_align k) (opt_value k + kind_size k)) with (tsize (TOption k)). rewrite opt_size.
    apply load_between with (m := opt_value k).
    + pose proof (kind_size_pos k). lia.
    + replace (opt_value k + kind_size k - opt_value k) with (kind_size k) by lia. exact IHrep.
  - exists []. reflexivity.
Qed.
Lemma rep_range H t a v S : rep H t a v S -> subset (range a (tsize t)) (born H).
Proof. intros R. destruct (rep_load _ _ _ _ _ R) as [l E]. eapply range_born; exact E. Qed.

Lemma rep_box_born H : (forall t a v S, rep H t a v S -> subset S (born H)) /\
  (forall L vs S, box H L vs S -> subset S (born H)).
Proof.
  apply rep_box_ind; intros; try assumption; try (intros b o []; fail).
  - match goal with K : holds H p _ |- _ => apply holds_load in K as L; rewrite app_length, map_length in L;
      eapply range_born; exact L end.
  - apply subset_union; [|assumption]. intros b o Hb. unfold whole in Hb. subst b. unfold born.
    apply nth_error_Some. congruence.
  - apply subset_union; [|assumption]. apply subset_union; [|assumption]. eapply rep_range; eassumption.
Qed.
Lemma rep_born H t a v S : rep H t a v S -> subset S (born H). Proof. apply rep_box_born. Qed.
Lemma box_born H L vs S : box H L vs S -> subset S (born H). Proof. apply rep_box_born. Qed.

(** ** Moving values, and other memory changing *)
Lemma load_eq_part H H' a a' n i m : (exists l, load H a n = Some l) -> load H' a' n = load H a n -> i + m <= n ->
  load H' (shift a' i) m = load H (shift a i) m.
Proof.
  intros [l E] Q L. rewrite E in Q. rewrite (load_part _ _ _ _ i m E L), (load_part _ _ _ _ i m Q L). reflexivity.
Qed.
Lemma holds_prefix H H' a a' n cs : holds H a cs -> length cs <= n -> (exists l, load H a n = Some l) ->
  load H' a' n = load H a n -> holds H' a' cs.
Proof.
  intros K L X Q. eapply holds_move; [exact K|].
  pose proof (load_eq_part _ _ _ _ _ 0 (length cs) X Q ltac:(lia)) as P. rewrite !shift_0 in P. exact P.
Qed.

Lemma rep_box_frame H H' : extends H H' ->
  (forall t a v S, rep H t a v S -> forall a', load H' a' (tsize t) = load H a (tsize t) -> same_on S H H' -> rep H' t a' v S) /\
  (forall L vs S, box H L vs S -> same_on S H H' -> box H' L vs S).
Proof.
  intros X. apply rep_box_ind; intros.
  - eapply rep_num; try eassumption. eapply holds_prefix; try eassumption.
    + erewrite k_cells_length by eassumption. cbn [tsize]. lia.
    + eapply rep_load. eapply rep_num; eassumption.
  - eapply rep_str; try eassumption; [eapply extends_text; eassumption|]. eapply holds_prefix; try eassumption.
    + rewrite str_hdr_length. cbn. lia.
    + eapply rep_load. eapply rep_str; eassumption.
  - eapply rep_bytes_nil. eapply holds_prefix; try eassumption; [cbn; lia|]. eapply rep_load. eapply rep_bytes_nil. eassumption.
  - eapply rep_bytes; try eassumption.
    + eapply holds_prefix; try eassumption; [rewrite hdr_length; cbn; lia|]. eapply rep_load. eapply rep_bytes; eassumption.
    + eapply holds_move; [eassumption|]. eapply same_load; [eassumption|]. rewrite app_length, map_length. apply subset_refl.
  - assert (R : rep H (TOption k) a (VOpt f x) S) by (eapply rep_opt; eassumption). apply rep_load in R.
    rewrite opt_size in *. pose proof (opt_value_pos k).
    eapply rep_opt.
    + eapply holds_prefix with (n := opt_value k + kind_size k) (a := a); try eassumption. cbn [length]. lia.
    + apply H2; [|assumption]. eapply load_eq_part; try eassumption. cbn [tsize]. lia.
  - eapply rep_slice_nil. eapply holds_prefix; try eassumption; [cbn; lia|]. eapply rep_load. eapply (rep_slice_nil _ _ _ _ e). eassumption.
  - eapply rep_slice; [|auto].
    eapply holds_prefix; try eassumption; [rewrite hdr_length; cbn; lia|]. eapply rep_load. eapply (rep_slice _ _ _ _ e); eassumption.
  - eapply rep_map_nil. eapply holds_prefix; try eassumption; [cbn; lia|]. eapply rep_load. eapply (rep_map_nil _ _ _ _ k e). eassumption.
  - assert (R : rep H (TMap k e) a (VMap (Some kxs)) (union (whole m) S)) by (eapply rep_map; eassumption). apply rep_load in R.
    eapply rep_map with (l := l); try assumption.
    + eapply holds_prefix; try eassumption. cbn. lia.
    + match goal with K : same_on (union _ _) H H' |- _ => specialize (K m 0 (or_introl eq_refl)); unfold spot in K end.
      match goal with K : nth_error H m = _ |- _ => rewrite K in * end.
      destruct (nth_error H' m) as [[c|s|l']|]; try congruence. destruct (nth_error c 0); discriminate.
    + apply H4. eapply same_on_sub; [eassumption|]. intros b o Hb. right. exact Hb.
  - eapply rep_ptr_nil. eapply holds_prefix; try eassumption; [cbn; lia|]. eapply rep_load. eapply (rep_ptr_nil _ _ _ _ e). eassumption.
  - eapply rep_ptr; [|auto].
    eapply holds_prefix; try eassumption; [rewrite ptr_cells_length; cbn; lia|]. eapply rep_load. eapply (rep_ptr _ _ _ _ e); eassumption.
  - eapply rep_msg_nil. eapply holds_prefix; try eassumption; [cbn; lia|]. eapply rep_load. eapply (rep_msg_nil _ _ _ _ sid). eassumption.
  - eapply rep_msg; [assumption| |auto].
    eapply holds_prefix; try eassumption; [rewrite ptr_cells_length; cbn; lia|]. eapply rep_load. eapply (rep_msg _ _ _ _ sid); eassumption.
  - apply rep_other.
  - apply box_nil.
  - apply box_cons; try assumption.
    + apply H1.
      * eapply same_load; [eassumption|]. intros b o Hb. left. left. exact Hb.
      * eapply same_on_sub; [eassumption|]. intros b o Hb. left. right. exact Hb.
    + apply H3. eapply same_on_sub; [eassumption|]. intros b o Hb. right. exact Hb.
Qed.
Lemma rep_move H H' t a a' v S : rep H t a v S -> extends H H' -> load H' a' (tsize t) = load H a (tsize t) ->
  same_on S H H' -> rep H' t a' v S.
Proof. intros R X. eapply (proj1 (rep_box_frame H H' X)); eassumption. Qed.
Lemma rep_frame H H' t a v S : rep H t a v S -> extends H H' -> same_on (union (range a (tsize t)) S) H H' -> rep H' t a v S.
Proof.
  intros R X Q. eapply rep_move; try eassumption.
  - eapply same_load; [exact Q|]. intros b o Hb. left. exact Hb.
  - eapply same_on_sub; [exact Q|]. intros b o Hb. right. exact Hb.
Qed.
Lemma box_frame H H' L vs S : box H L vs S -> extends H H' -> same_on S H H' -> box H' L vs S.
Proof. intros R X. apply (proj2 (rep_box_frame H H' X)). exact R. Qed.

(** ** Zeroed memory *)
Lemma holds_zeros H a n i m : holds H a (zeros n) -> i + m <= n -> holds H (shift a i) (zeros m).
Proof.
  unfold holds, zeros. rewrite !repeat_length. intros E L. rewrite (load_part _ _ _ _ i m E L). f_equal.
  clear E. revert n m L. induction i as [|i IH]; intros n m L.
  - cbn [skipn]. revert n L. induction m as [|m IHm]; intros n L; [reflexivity|].
    destruct n as [|n]; [lia|]. cbn [repeat firstn]. f_equal. apply IHm. lia.
  - destruct n as [|n]; [lia|]. cbn [repeat skipn]. apply IH. lia.
Qed.
Lemma zero_rep H t a : holds H a (zeros (tsize t)) -> rep H t a (zero t) none.
Proof.
  assert (S : forall k a, holds H a (zeros (kind_size k)) -> rep H (TScalar k) a (zero_k k) none).
  { intros k a0 K. destruct k; try (eapply rep_num; [reflexivity|reflexivity|exact K]).
    apply (rep_str _ _ _ _ _ None); [reflexivity|constructor|exact K]. }
  destruct t; cbn [tsize zero]; intros K.
  - apply S. exact K.
  - apply rep_bytes_nil. exact K.
  - change (round_up (kind_align k) (opt_value k + kind_size k)) with (tsize (TOption k)) in K. rewrite opt_size in K.
    pose proof (opt_value_pos k). pose proof (kind_size_pos k). apply rep_opt.
    + pose proof (holds_zeros _ _ _ 0 1 K ltac:(lia)) as Z. rewrite shift_0 in Z. exact Z.
    + apply S. apply (holds_zeros _ _ _ _ _ K). lia.
  - apply rep_slice_nil. exact K.
  - apply rep_map_nil. exact K.
  - apply rep_ptr_nil. exact K.
  - apply rep_msg_nil. exact K.
  - apply rep_other.
Qed.

(** ** Boxes *)
Lemma apart_sub A B A' B' : apart sep A B -> subset A' A -> subset B' B -> apart sep A' B'.
Proof. intros X S1 S2 E. eapply disjoint_sub; [apply X; exact E|exact S1|exact S2]. Qed.
Lemma apart_union_l A B C : apart sep A C -> apart sep B C -> apart sep (union A B) C.
Proof. intros X Y E. apply disjoint_union_l; auto. Qed.
Lemma apart_union_r A B C : apart sep A B -> apart sep A C -> apart sep A (union B C).
Proof. intros X Y E. apply disjoint_union_r; auto. Qed.
Lemma apart_sym A B : apart sep A B -> apart sep B A.
Proof. intros X E. apply disjoint_sym; auto. Qed.
Lemma apart_none A : apart sep A none. Proof. intros _. apply disjoint_none_r. Qed.

Lemma box_inv H t a L vs S : box H ((t, a) :: L) vs S -> exists v vs' S1 S2,
  vs = v :: vs' /\ rep H t a v S1 /\ box H L vs' S2 /\ apart sep (range a (tsize t)) S1 /\
  apart sep (union (range a (tsize t)) S1) S2 /\ S = union (union (range a (tsize t)) S1) S2.
Proof. intros B. inversion B; subst. do 4 eexists. do 5 (split; [first [reflexivity|eassumption]|]). reflexivity. Qed.
Lemma box_inv_nil H vs S : box H [] vs S -> vs = [] /\ S = none.
Proof. intros B. inversion B; subst. split; reflexivity. Qed.
Lemma box_length H L vs S : box H L vs S -> length vs = length L.
Proof. revert vs S. induction L as [|[t a] L IH]; intros vs S B; inversion B; subst; [reflexivity|]. cbn. f_equal. eapply IH. eassumption. Qed.
Lemma box_split H L1 : forall L2 vs S, box H (L1 ++ L2) vs S -> exists vs1 vs2 S1 S2,
  vs = vs1 ++ vs2 /\ length vs1 = length L1 /\ box H L1 vs1 S1 /\ box H L2 vs2 S2 /\ apart sep S1 S2 /\ seteq S (union S1 S2).
Proof.
  induction L1 as [|[t a] L1 IH]; intros L2 vs S B; cbn [app] in B.
  - exists [], vs, none, S. split; [reflexivity|]. split; [reflexivity|]. split; [constructor|]. split; [exact B|].
    split; [intros _; apply disjoint_none_l|]. apply seteq_sym, union_none_l.
  - apply box_inv in B as (v & vs' & S1 & S2 & -> & R & B & A1 & A2 & ->).
    destruct (IH _ _ _ B) as (v1 & v2 & T1 & T2 & -> & Lv & B1 & B2 & A & Q).
    exists (v :: v1), v2, (union (union (range a (tsize t)) S1) T1), T2.
    split; [reflexivity|]. split; [cbn; lia|]. split; [|split; [exact B2|split]].
    + apply box_cons; try assumption. eapply apart_sub; [exact A2|apply subset_refl|]. intros b o Hb. apply Q. left. exact Hb.
    + apply apart_union_l; [|exact A]. eapply apart_sub; [exact A2|apply subset_refl|]. intros b o Hb. apply Q. right. exact Hb.
    + eapply seteq_trans; [apply seteq_union; [apply seteq_refl|exact Q]|]. apply seteq_sym, union_assoc.
Qed.
Lemma box_join H L1 : forall L2 vs1 vs2 S1 S2, box H L1 vs1 S1 -> box H L2 vs2 S2 -> apart sep S1 S2 ->
  exists S, box H (L1 ++ L2) (vs1 ++ vs2) S /\ seteq S (union S1 S2).
Proof.
  induction L1 as [|[t a] L1 IH]; intros L2 vs1 vs2 T1 T2 B1 B2 A.
  - apply box_inv_nil in B1 as [-> ->]. cbn [app]. exists T2. split; [exact B2|]. apply seteq_sym, union_none_l.
  - apply box_inv in B1 as (v & vs' & S1 & S2 & -> & R & B1 & A1 & A2 & ->). cbn [app].
    destruct (IH _ _ _ _ _ B1 B2) as (S & B & Q).
    { eapply apart_sub; [exact A| |apply subset_refl]. intros b o Hb. right. exact Hb. }
    eexists. split.
    + apply box_cons; [eassumption|exact B|assumption|]. eapply apart_sub; [|apply subset_refl|apply seteq_subset; exact Q].
      apply apart_union_r; [assumption|]. eapply apart_sub; [exact A| |apply subset_refl]. intros b o Hb. left. exact Hb.
    + eapply seteq_trans; [apply seteq_union; [apply seteq_refl|exact Q]|]. apply seteq_sym, union_assoc.
Qed.

(** One of the values, and the others. *)
Lemma list_set_app {A} (l1 l2 : list A) x y : list_set (l1 ++ x :: l2) (length l1) y = l1 ++ y :: l2.
Proof. induction l1; cbn; [reflexivity|]. f_equal. assumption. Qed.
Lemma box_focus H L vs S j t a : box H L vs S -> nth_error L j = Some (t, a) ->
  exists v Sv F, nth_error vs j = Some v /\ rep H t a v Sv /\ apart sep (range a (tsize t)) Sv /\
    apart sep (union (range a (tsize t)) Sv) F /\ seteq S (union (union (range a (tsize t)) Sv) F) /\
    (forall H' v' Sv', rep H' t a v' Sv' -> apart sep (range a (tsize t)) Sv' ->
       apart sep (union (range a (tsize t)) Sv') F -> extends H H' -> same_on F H H' ->
       exists S', box H' L (list_set vs j v') S' /\ seteq S' (union (union (range a (tsize t)) Sv') F)).
Proof.
  intros B N. apply nth_error_split in N as (L1 & L2 & -> & <-).
  destruct (box_split _ _ _ _ _ B) as (v1 & v2 & S1 & S2 & -> & Lv & B1 & B2 & A & Q).
  apply box_inv in B2 as (v & vs & S0 & S3 & -> & R & B2 & A3 & A4 & ->). exists v, S0, (union S1 S3).
  assert (Q1 : seteq S (union (union (range a (tsize t)) S0) (union S1 S3))).
  { eapply seteq_trans; [exact Q|]. intros b o. unfold union. tauto. }
  split; [rewrite nth_error_app2 by lia; rewrite Lv, Nat.sub_diag; reflexivity|].
  split; [assumption|]. split; [assumption|]. split.
  { apply apart_union_r; [|assumption]. apply apart_sym. eapply apart_sub; [exact A|apply subset_refl|]. intros b o Hb. left. exact Hb. }
  split; [exact Q1|]. intros H' v' Sv' R' A1 A2 X F.
  assert (B1' : box H' L1 v1 S1).
  { eapply box_frame; try eassumption. eapply same_on_sub; [exact F|]. intros b o Hb. left. exact Hb. }
  assert (B2' : box H' ((t, a) :: L2) (v' :: vs) (union (union (range a (tsize t)) Sv') S3)).
  { apply box_cons; try assumption.
    - eapply box_frame; try eassumption. eapply same_on_sub; [exact F|]. intros b o Hb. right. exact Hb.
    - eapply apart_sub; [exact A2|apply subset_refl|]. intros b o Hb. right. exact Hb. }
  destruct (box_join _ _ _ _ _ _ _ B1' B2') as (S' & B' & Q').
  { apply apart_union_r.
    - apply apart_sym. eapply apart_sub; [exact A2|apply subset_refl|]. intros b o Hb. left. exact Hb.
    - eapply apart_sub; [exact A|apply subset_refl|]. intros b o Hb. right. exact Hb. }
  exists S'. rewrite <- Lv, list_set_app. split; [exact B'|].
  eapply seteq_trans; [exact Q'|]. intros b o. unfold union. tauto.
Qed.

(** The bytes of the values themselves. *)
Definition ranges (L : list (gotype * addr)) : cset :=
  fun b o => exists t a, In (t, a) L /\ range a (tsize t) b o.

(** ** Layout *)
Lemma round_up_le a n : n <= round_up a n.
Proof.
  unfold round_up. destruct (a =? 0) eqn:E; [lia|]. apply Nat.eqb_neq in E.
  pose proof (Nat.div_mod (n + a - 1) a E). pose proof (Nat.mod_upper_bound (n + a - 1) a E). lia.
Qed.
Lemma fields_end_le l : forall o, o <= fields_end o l.
Proof.
  induction l as [|[s a] l IH]; intros o; cbn; [lia|]. pose proof (round_up_le a o). specialize (IH (round_up a o + s)). lia.
Qed.
Lemma aligned t : alignedSize t = tsize t.
Proof. destruct t as [[]| |[]| | | | |]; reflexivity. Qed.
Lemma offsets_length l : forall o, length (offsets o l) = length l.
Proof. induction l as [|[s a] l IH]; intros o; cbn; [reflexivity|]. rewrite IH. reflexivity. Qed.

Lemma zero_fields H a N : holds H a (zeros N) -> forall ts lay o,
  Forall2 (fun t l => tsize t <= fst l) ts lay -> fields_end o lay <= N ->
  exists S, box H (combine ts (map (shift a) (offsets o lay))) (map zero ts) S /\
    subset S (ranges (combine ts (map (shift a) (offsets o lay)))) /\
    subset S (range (shift a o) (N - o)).
Proof.
  intros Z ts lay o F. revert o. induction F as [|t [s al] ts lay Hs F IH]; intros o E.
  - exists none. split; [constructor|]. split; intros b q [].
  - cbn [offsets fields_end map combine fst] in *. pose proof (round_up_le al o).
    destruct (IH _ E) as (S & B & R1 & R2). pose proof (fields_end_le lay (round_up al o + s)).
    eexists. split; [|split].
    + apply box_cons; [apply zero_rep|exact B|apply apart_none|].
      * apply (holds_zeros _ _ _ _ _ Z). lia.
      * intros _. intros b q [Hr|[]] Hs'. apply R2 in Hs'. destruct Hr as [_ ?], Hs' as [_ ?]. cbn [shift fst snd] in *. lia.
    + intros b q [[Hr|[]]|Hs'].
      * exists t, (shift a (round_up al o)). split; [left; reflexivity|exact Hr].
      * apply R1 in Hs' as (t' & a' & I & R). exists t', a'. split; [right; exact I|exact R].
    + intros b q [[Hr|[]]|Hs'].
      * destruct Hr as [-> ?]. split; [reflexivity|]. cbn [shift fst snd] in *. lia.
      * apply R2 in Hs' as [-> ?]. split; [reflexivity|]. cbn [shift fst snd] in *. lia.
Qed.

(** The fields of a struct type. *)
Lemma decl_layout_fits sid fs : forall j, Forall2 (fun t l => tsize t <= fst l) (map gf_type fs) (decl_layout other sid j fs).
Proof.
  induction fs as [|f fs IH]; intros j; cbn [map decl_layout]; constructor; [|apply IH].
  destruct (gf_type f); cbn [type_layout fst tsize]; lia.
Qed.
Definition struct_types (k : skey) : list gotype :=
  match k with
  | SNamed sid => field_types D sid
  | SEntry k v _ _ => [TScalar k; v]
  | SOpt _ => []
  end.
Lemma layout_fits k : (forall q, k <> SOpt q) -> Forall2 (fun t l => tsize t <= fst l) (struct_types k) (layout D other k).
Proof.
  destruct k as [sid|k v kt vt|q]; intros N; [| |exfalso; eapply N; reflexivity]; cbn [struct_types layout].
  - unfold field_types. destruct (nth_error D sid); [apply decl_layout_fits|constructor].
  - repeat constructor.
Qed.
Lemma placed_eq k a : (forall q, k <> SOpt q) -> placed D other k a = combine (struct_types k) (map (shift a) (offsets 0 (layout D other k))).
Proof. destruct k as [sid|k v kt vt|q]; intros N; [reflexivity..|exfalso; eapply N; reflexivity]. Qed.
Lemma nth_combine {A B} (l : list A) (m : list B) j x y : nth_error l j = Some x -> nth_error m j = Some y ->
  nth_error (combine l m) j = Some (x, y).
Proof. revert m j. induction l as [|a l IH]; intros [|b m] [|j]; cbn; try congruence. apply IH. Qed.
Lemma F2_length {A B} (P : A -> B -> Prop) l m : Forall2 P l m -> length l = length m.
Proof. induction 1; cbn; congruence. Qed.
Lemma placed_nth k a j t : (forall q, k <> SOpt q) -> nth_error (struct_types k) j = Some t ->
  nth_error (placed D other k a) j = Some (t, shift a (foffset D other k j)).
Proof.
  intros N E. rewrite placed_eq by exact N. apply nth_combine; [exact E|]. apply map_nth_error.
  unfold foffset. apply nth_error_nth'. rewrite offsets_length.
  pose proof (F2_length _ _ _ (layout_fits k N)) as Q. rewrite <- Q. apply nth_error_Some. congruence.
Qed.
Lemma opt_ssize k : ssize D other (SOpt k) = tsize (TOption k). Proof. destruct k; reflexivity. Qed.

Lemma zero_struct_fields k : (forall q, k <> SOpt q) -> zero_struct D k = VStruct (map zero (struct_types k)).
Proof.
  destruct k as [sid|k v kt vt|q]; intros N; [| |exfalso; eapply N; reflexivity]; cbn.
  - unfold field_types. destruct (nth_error D sid); [|reflexivity]. rewrite map_map. reflexivity.
  - reflexivity.
Qed.
Lemma zero_placed H k a : holds H a (zeros (ssize D other k)) ->
  exists S, rep_struct D other sep H k a (zero_struct D k) S /\ subset S (ranges (placed D other k a)) /\
    subset S (range a (ssize D other k)).
Proof.
  intros Z. assert (C : (exists q, k = SOpt q) \/ forall q, k <> SOpt q).
  { destruct k; [right; discriminate|right; discriminate|left; eauto]. }
  destruct C as [[q ->]|N].
  - eexists. split; [|split].
    + cbn [rep_struct placed zero_struct]. apply box_cons; [|constructor|apply apart_none|apply apart_none].
      apply (zero_rep _ (TOption q)). rewrite <- opt_ssize. exact Z.
    + intros b o [[Hr|[]]|[]]. exists (TOption q), a. split; [left; reflexivity|exact Hr].
    + rewrite opt_ssize. intros b o [[Hr|[]]|[]]. exact Hr.
  - destruct (zero_fields _ _ _ Z (struct_types k) (layout D other k) 0 (layout_fits k N)) as (S & B & R1 & R2).
    { unfold ssize. apply round_up_le. }
    rewrite shift_0, Nat.sub_0_r in R2. rewrite <- placed_eq in * by exact N.
    exists S. split; [|split; assumption]. rewrite zero_struct_fields by exact N.
    destruct k; cbn [rep_struct]; [eauto|eauto|exfalso; eapply N; reflexivity].
Qed.

(** ** Elements of arrays *)
Lemma elems_S e a n : elems e a (S n) = elems e a n ++ [(e, shift a (n * tsize e))].
Proof. unfold elems. rewrite seq_S, map_app. reflexivity. Qed.
Lemma elems_nth e a n j : j < n -> nth_error (elems e a n) j = Some (e, shift a (j * tsize e)).
Proof.
  intros L. unfold elems. rewrite (map_nth_error _ j (seq 0 n) (d := j)); [reflexivity|].
  rewrite nth_error_nth' with (d := 0) by (rewrite seq_length; exact L). rewrite seq_nth by exact L. reflexivity.
Qed.
Lemma elems_app e a n m : elems e a (n + m) = elems e a n ++ elems e (shift a (n * tsize e)) m.
Proof.
  induction m as [|m IH].
  - rewrite Nat.add_0_r. cbn [elems seq map]. rewrite app_nil_r. reflexivity.
  - rewrite <- plus_n_Sm, !elems_S, IH, <- app_assoc. rewrite shift_shift, Nat.mul_add_distr_r. reflexivity.
Qed.
End Rep.
