(** Memory that represents values without overlap is typed. *)
From Coq Require Import ZifyBool ZifyNat ZifyN.
From Verif Require Import Base GoType Leaf Typing Unsafe SpecUnsafe UnsafeMem UnsafeRep SpecTyped TypedFacts.
Local Open Scope nat_scope.

Section Tree.
Variable D : decls.
Variable other : nat -> nat -> nat * nat.
Notation shaped := (shaped D other).
Notation struct_at := (struct_at D other).
Notation typed := (typed D other).
Notation cover := (cover D other).
Notation ssize := (ssize D other).
Notation placed := (placed D other).
Notation rep := (rep D other true).
Notation box := (box D other true).

Record within (W W' : world) : Prop := {
  in_val : forall t a, wval W t a -> wval W' t a;
  in_byte : forall a, wbyte W a -> wbyte W' a;
  in_map : forall m k e, wmap W m k e -> wmap W' m k e;
  in_entry : forall k a, wentry W k a -> wentry W' k a
}.
Lemma shaped_within W W' H t a : within W W' -> shaped W H t a -> shaped W' H t a.
Proof.
  intros G. destruct t; cbn [SpecTyped.shaped]; auto.
  - intros (p & n & c & K & L & P). exists p, n, c. split; [exact K|]. split; [exact L|].
    destruct p; [|exact P]. intros i Hi. apply (in_byte _ _ G), P, Hi.
  - intros (p & n & c & K & L & P). exists p, n, c. split; [exact K|]. split; [exact L|].
    destruct p; [|exact P]. intros i Hi. apply (in_val _ _ G), P, Hi.
  - intros (p & K & P). exists p. split; [exact K|]. destruct p; [|exact P]. destruct P as [P Q]. split; [exact P|apply (in_map _ _ G), Q].
  - intros (p & K & P). exists p. split; [exact K|]. destruct p; [|exact P]. apply (in_val _ _ G), P.
  - intros (p & K & P). exists p. split; [exact K|]. destruct p; [|exact P]. intros t' p' I. apply (in_val _ _ G), P, I.
Qed.
Lemma within_l W V : within W (plus W V). Proof. constructor; intros; left; assumption. Qed.
Lemma within_r W V : within V (plus W V). Proof. constructor; intros; right; assumption. Qed.

Lemma cov_val W t a b o : wval W t a -> range a (tsize t) b o -> cover W b o. Proof. intros V R. left. eauto. Qed.
Lemma cov_byte W p : wbyte W p -> cover W (fst p) (snd p). Proof. intros V. right. left. destruct p. exact V. Qed.
Lemma cov_map W m k e o : wmap W m k e -> cover W m o. Proof. intros V. right. right. left. eauto. Qed.
Lemma cov_entry W k a b o : wentry W k a -> range a (ssize k) b o -> cover W b o. Proof. intros V R. right. right. right. eauto. Qed.

(** Two worlds apart from each other. The second may point into the first. *)
Lemma typed_join W V H : disjoint (cover W) (cover V) -> typed W H ->
  (forall t a, wval V t a -> shaped (plus W V) H t a) ->
  (forall a, wbyte V a -> exists n, (n < 256)%N /\ cell H (fst a) (snd a) = Some (MB n)) ->
  (forall m k e, wmap V m k e -> exists l, nth_error H m = Some (OMap l) /\
    forall x y, In (x, y) l -> wval (plus W V) (TScalar k) (x, 0) /\ wval (plus W V) e (y, 0)) ->
  (forall m k e k' e', wmap V m k e -> wmap V m k' e' -> k = k' /\ e = e') ->
  (forall k a, wentry V k a -> struct_at (plus W V) k a /\ exists l, load H a (ssize k) = Some l) ->
  (forall t a t' a', wval V t a -> wval V t' a' -> (t = t' /\ a = a') \/ disjoint (range a (tsize t)) (range a' (tsize t'))) ->
  (forall t a p, wval V t a -> wbyte V p -> ~ range a (tsize t) (fst p) (snd p)) ->
  (forall k a t p, wentry V k a -> wval V t p -> In (t, p) (placed k a) \/ disjoint (range a (ssize k)) (range p (tsize t))) ->
  (forall k a p, wentry V k a -> wbyte V p -> ~ range a (ssize k) (fst p) (snd p)) ->
  typed (plus W V) H.
Proof.
  intros Dj T C1 C2 C3 C4 C5 C6 C7 C8 C9.
  constructor; cbn [plus wval wbyte wmap wentry].
  - intros t a [I|I]; [|auto]. eapply shaped_within; [apply within_l|apply (ty_val _ _ _ _ T _ _ I)].
  - intros a [I|I]; [|auto]. apply (ty_byte _ _ _ _ T _ I).
  - intros m k e [I|I]; [|exact (C3 _ _ _ I)]. destruct (ty_map _ _ _ _ T _ _ _ I) as (l & E & P). exists l. split; [exact E|].
    intros x y Hxy. destruct (P _ _ Hxy). split; left; assumption.
  - intros m k e k' e' [I|I] [J|J].
    + apply (ty_map_one _ _ _ _ T _ _ _ _ _ I J).
    + exfalso. apply (Dj m 0); eapply cov_map; eassumption.
    + exfalso. apply (Dj m 0); eapply cov_map; eassumption.
    + eauto.
  - intros k a [I|I]; [|exact (C5 _ _ I)]. destruct (ty_entry _ _ _ _ T _ _ I) as [S L]. split; [|exact L].
    intros t p Ip. left. apply S, Ip.
  - intros t a t' a' [I|I] [J|J].
    + apply (ty_val_val _ _ _ _ T _ _ _ _ I J).
    + right. intros b o R R'. apply (Dj b o); eapply cov_val; eassumption.
    + right. intros b o R R'. apply (Dj b o); eapply cov_val; eassumption.
    + auto.
  - intros t a p [I|I] [J|J].
    + apply (ty_val_byte _ _ _ _ T _ _ _ I J).
    + intros R. apply (Dj (fst p) (snd p)); [eapply cov_val; eassumption|apply cov_byte; assumption].
    + intros R. apply (Dj (fst p) (snd p)); [apply cov_byte; assumption|eapply cov_val; eassumption].
    + auto.
  - intros k a t p [I|I] [J|J].
    + apply (ty_entry_val _ _ _ _ T _ _ _ _ I J).
    + right. intros b o R R'. apply (Dj b o); [eapply cov_entry; eassumption|eapply cov_val; eassumption].
    + right. intros b o R R'. apply (Dj b o); [eapply cov_val; eassumption|eapply cov_entry; eassumption].
    + auto.
  - intros k a p [I|I] [J|J].
    + apply (ty_entry_byte _ _ _ _ T _ _ _ I J).
    + intros R. apply (Dj (fst p) (snd p)); [eapply cov_entry; eassumption|apply cov_byte; assumption].
    + intros R. apply (Dj (fst p) (snd p)); [apply cov_byte; assumption|eapply cov_entry; eassumption].
    + auto.
Qed.
Lemma typed_both W V H : typed W H -> typed V H -> disjoint (cover W) (cover V) -> typed (plus W V) H.
Proof.
  intros T T' Dj. apply typed_join; [exact Dj|exact T|..].
  - intros t a I. eapply shaped_within; [apply within_r|apply (ty_val _ _ _ _ T' _ _ I)].
  - apply (ty_byte _ _ _ _ T').
  - intros m k e I. destruct (ty_map _ _ _ _ T' _ _ _ I) as (l & E & P). exists l. split; [exact E|].
    intros x y Hxy. destruct (P _ _ Hxy). split; right; assumption.
  - apply (ty_map_one _ _ _ _ T').
  - intros k a I. destruct (ty_entry _ _ _ _ T' _ _ I) as [S L]. split; [|exact L]. intros t p Ip. right. apply S, Ip.
  - apply (ty_val_val _ _ _ _ T').
  - apply (ty_val_byte _ _ _ _ T').
  - apply (ty_entry_val _ _ _ _ T').
  - apply (ty_entry_byte _ _ _ _ T').
Qed.
Lemma cover_plus W V : subset (cover (plus W V)) (union (cover W) (cover V)).
Proof.
  intros b o [(t & a & [I|I] & R)|[[I|I]|[(k & e & [I|I])|(k & a & [I|I] & R)]]];
    [left|right|left|right|left|right|left|right];
    first [eapply cov_val; eassumption|right; left; exact I|eapply cov_map; eassumption|eapply cov_entry; eassumption].
Qed.
Definition empty : world := {| wval := fun _ _ => False; wbyte := fun _ => False; wmap := fun _ _ _ => False; wentry := fun _ _ => False |}.
Lemma typed_empty H : typed empty H. Proof. constructor; contradiction. Qed.
Lemma cover_empty : subset (cover empty) none.
Proof. intros b o [(t & a & [] & _)|[[]|[(k & e & [])|(k & a & [] & _)]]]. Qed.
Lemma cover_one t a : subset (cover (one t a)) (range a (tsize t)).
Proof. intros b o [(t' & a' & [-> ->] & R)|[[]|[(k & e & [])|(k & a' & [] & _)]]]. exact R. Qed.

(** What belongs to a value is typed; with several values, they are too. *)
Lemma tree_typed H : (forall t a v S, rep H t a v S -> exists W, typed W H /\ shaped W H t a /\ subset (cover W) S) /\
  (forall L vs S, box H L vs S -> exists W, typed W H /\ (forall t a, In (t, a) L -> wval W t a) /\ subset (cover W) S).
Proof.
  assert (Em : forall t a S, shaped empty H t a -> exists W, typed W H /\ shaped W H t a /\ subset (cover W) S).
  { intros t a S Sh. exists empty. split; [apply typed_empty|]. split; [exact Sh|]. intros b o C. apply cover_empty in C. destruct C. }
  apply rep_box_ind.
  - intros k a v cs Hw Hk K. apply Em. exists v. eapply rep_num; eassumption.
  - intros a p s Hs Tx K. apply Em. exists (VStr s). eapply rep_str; eassumption.
  - intros a K. apply Em. exists None, 0, 0. split; [exact K|]. split; [lia|reflexivity].
  - intros a p d r Hd K Kp Fr. set (c := length d + length r) in *. exists (plus empty (bytesw p c)).
    assert (Cv : subset (cover (bytesw p c)) (range p c)).
    { intros b o [(t & a' & [] & _)|[(i & Hi & Ei)|[(k & e & [])|(k & a' & [] & _)]]]. destruct p as [x q]. cbn [shift fst snd] in Ei.
      inversion Ei; subst. split; [reflexivity|]. cbn [snd]. lia. }
    split; [|split].
    + apply typed_join; try contradiction.
      * intros b o C. apply cover_empty in C. destruct C.
      * apply typed_empty.
      * intros q (i & Hi & ->).
        assert (Fa : Forall is_byte (map MB d ++ r)).
        { apply Forall_app. split; [|exact Fr]. apply Forall_forall. intros x I. apply in_map_iff in I as (n & <- & I). exists n. split; [|reflexivity].
          unfold bytes_okb in Hd. rewrite forallb_forall in Hd. apply N.ltb_lt, Hd, I. }
        destruct (nth_error (map MB d ++ r) i) as [x|] eqn:Ex.
        2:{ apply nth_error_None in Ex. rewrite app_length, map_length in Ex. unfold c in Hi. lia. }
        rewrite Forall_forall in Fa. destruct (Fa _ (nth_error_In _ _ Ex)) as (n & Ln & ->). exists n. split; [exact Ln|].
        pose proof (holds_cell _ _ _ _ _ Kp Ex) as Q. destruct p; exact Q.
    + exists (Some p), (length d), c. split; [exact K|]. split; [unfold c; lia|]. intros i Hi. right. exists i. auto.
    + intros b o C. apply cover_plus in C as [C|C]; [apply cover_empty in C; destruct C|apply Cv, C].
  - intros k a f x S K R (W & T & Sh & C). exists empty. split; [apply typed_empty|]. split.
    + exists (VOpt f x). assert (S = none) as -> by (inversion R; reflexivity). eapply rep_opt; eassumption.
    + intros b o Q. apply cover_empty in Q. destruct Q.
  - intros e a K. apply Em. exists None, 0, 0. split; [exact K|]. split; [lia|reflexivity].
  - intros e a p items spare S K B (W & T & V & C). exists W. split; [exact T|]. split; [|exact C].
    exists (Some p), (length items), (length items + length spare). split; [exact K|]. split; [lia|].
    intros i Hi. apply V. unfold elems. apply in_map_iff. exists i. split; [reflexivity|]. apply in_seq. lia.
  - intros k e a K. apply Em. exists None. split; [exact K|exact Logic.I].
  - intros k e a m l kxs S K El Ll B (W & T & V & C) Ap. exists (plus W (mapw m k e)).
    assert (Cv : subset (cover (mapw m k e)) (whole m)).
    { intros b o [(t & a' & [] & _)|[[]|[(k' & e' & (-> & _))|(k' & a' & [] & _)]]]. reflexivity. }
    split; [|split].
    + apply typed_join; try contradiction.
      * apply disjoint_sym. eapply disjoint_sub; [apply Ap; reflexivity|exact Cv|exact C].
      * exact T.
      * intros m' k' e' (-> & -> & ->). exists l. split; [exact El|]. intros x y I. split; left; apply V; unfold slots; apply in_flat_map;
          exists (x, y); (split; [exact I|]); [left; reflexivity|right; left; reflexivity].
      * intros m1 k1 e1 k2 e2 (_ & -> & ->) (_ & -> & ->). auto.
    + exists (Some (m, 0)). split; [exact K|]. split; [reflexivity|]. right. split; [reflexivity|split; reflexivity].
    + intros b o Q. apply cover_plus in Q as [Q|Q]; [right; apply C, Q|left; apply Cv, Q].
  - intros e a K. apply Em. exists None. split; [exact K|exact Logic.I].
  - intros e a p x S K B (W & T & V & C). exists W. split; [exact T|]. split; [|exact C].
    exists (Some p). split; [exact K|]. apply V. left. reflexivity.
  - intros sid a K. apply Em. exists None. split; [exact K|exact Logic.I].
  - intros sid a p xs S Ls K B (W & T & V & C). exists W. split; [exact T|]. split; [|exact C].
    exists (Some p). split; [exact K|]. intros t q I. apply V, I.
  - intros a n. apply Em. exact Logic.I.
  - exists empty. split; [apply typed_empty|]. split; [intros t a []|]. apply cover_empty.
  - intros t a v S1 L vs S2 R (W1 & T1 & Sh & C1) B (W2 & T2 & V2 & C2) A1 A2.
    assert (T12 : typed (plus W1 (one t a)) H).
    { apply typed_join; try contradiction.
      - apply disjoint_sym. eapply disjoint_sub; [apply A1; reflexivity|apply cover_one|exact C1].
      - exact T1.
      - intros t' a' [-> ->]. eapply shaped_within; [apply within_l|exact Sh].
      - intros t1 a1 t2 a2 [-> ->] [-> ->]. left. auto. }
    assert (C12 : subset (cover (plus W1 (one t a))) (union (range a (tsize t)) S1)).
    { intros b o Q. apply cover_plus in Q as [Q|Q]; [right; apply C1, Q|left; apply cover_one, Q]. }
    exists (plus (plus W1 (one t a)) W2). split; [|split].
    + apply typed_both; [exact T12|exact T2|]. eapply disjoint_sub; [apply A2; reflexivity|exact C12|exact C2].
    + intros t' a' [E|I]; [inversion E; subst; left; right; split; reflexivity|right; apply V2, I].
    + intros b o Q. apply cover_plus in Q as [Q|Q]; [left; apply C12, Q|right; apply C2, Q].
Qed.
Lemma struct_typed H k a x S : rep_struct D other true H k a x S -> exists W, typed W H /\ struct_at W k a /\ subset (cover W) S.
Proof.
  assert (Q : forall vs, box H (placed k a) vs S -> exists W, typed W H /\ struct_at W k a /\ subset (cover W) S).
  { intros vs B. destruct (proj2 (tree_typed H) _ _ _ B) as (W & T & V & C). exists W. split; [exact T|]. split; [|exact C]. intros t p I. apply V, I. }
  destruct k; cbn [rep_struct]; intros R; try destruct R as (xs & -> & R); eapply Q; exact R.
Qed.

(** The pools *)
Lemma cover_struct k a e : subset (cover (structw D other k a e)) (range a (ssize k)).
Proof.
  intros b o [(t & p & I & R)|[[]|[(k' & e' & [])|(k' & a' & (_ & -> & ->) & R)]]]; [|exact R].
  apply placed_in in I as (q & -> & L). destruct R as [-> R]. destruct a as [x y]. cbn [shift fst snd] in *. split; [reflexivity|]. cbn [snd]. lia.
Qed.
Lemma pool_typed H l P : pool D other H l P -> exists W, typed W H /\ pooled W l /\ subset (cover W) P.
Proof.
  induction 1 as [|k a l P K Po (W & T & Pw & C) Dj].
  - exists empty. split; [apply typed_empty|]. split; [intros k a []|apply cover_empty].
  - exists (plus W (structw D other k a true)). split; [|split].
    + apply typed_join; try contradiction.
      * apply disjoint_sym. eapply disjoint_sub; [exact Dj|apply cover_struct|exact C].
      * exact T.
      * intros t p I. apply placed_in in I as (q & -> & L). apply shaped_zero. eapply (holds_zeros other); [exact K|exact L].
      * intros k' a' (_ & -> & ->). split; [intros t p I; right; exact I|]. apply holds_load in K. unfold zeros in K at 1. rewrite repeat_length in K. eauto.
      * intros t1 p1 t2 p2 I J. exact (placed_sep D other k a _ _ _ _ I J).
      * intros k' a' t p (_ & -> & ->) J. left. exact J.
    + intros k' a' [E|I]; [inversion E; subst; right; split; [reflexivity|split; reflexivity]|left; apply Pw, I].
    + intros b o Q. apply cover_plus in Q as [Q|Q]; [right; apply C, Q|left; eapply cover_struct; exact Q].
Qed.
Theorem memory_typed H k a x S l P : rep_struct D other true H k a x S -> pool D other H l P -> disjoint S P ->
  exists W, typed W H /\ struct_at W k a /\ pooled W l /\ subset (cover W) (union S P).
Proof.
  intros R Po Dj. destruct (struct_typed _ _ _ _ _ R) as (W1 & T1 & A & C1). destruct (pool_typed _ _ _ Po) as (W2 & T2 & Pw & C2).
  exists (plus W1 W2). split; [|split; [|split]].
  - apply typed_both; [exact T1|exact T2|]. eapply disjoint_sub; eassumption.
  - intros t p I. left. apply A, I.
  - intros k' a' I. right. apply Pw, I.
  - intros b o Q. apply cover_plus in Q as [Q|Q]; [left; apply C1, Q|right; apply C2, Q].
Qed.
End Tree.
