(** Facts about typed memory: stores, new objects, and how the world grows. *)
From Verif Require Import Base GoType Leaf Typing Unsafe SpecUnsafe UnsafeMem UnsafeRep SpecTyped.
Local Open Scope nat_scope.

Definition plus (W V : world) : world := {|
  wval := fun t a => wval W t a \/ wval V t a;
  wbyte := fun a => wbyte W a \/ wbyte V a;
  wmap := fun m k e => wmap W m k e \/ wmap V m k e;
  wentry := fun k a => wentry W k a \/ wentry V k a |}.

Lemma grows_refl H W : grows H W W.
Proof. constructor; auto. Qed.
Lemma grows_trans H H1 W W1 W2 : grows H W W1 -> grows H1 W1 W2 -> length H <= length H1 -> grows H W W2.
Proof.
  intros A B L. constructor; intros.
  - apply (gr_val _ _ _ B), (gr_val _ _ _ A). assumption.
  - apply (gr_byte _ _ _ B), (gr_byte _ _ _ A). assumption.
  - apply (gr_map _ _ _ B), (gr_map _ _ _ A). assumption.
  - apply (gr_entry _ _ _ B), (gr_entry _ _ _ A). assumption.
  - apply (gr_val_new _ _ _ B) in H0 as [Q|Q]; [apply (gr_val_new _ _ _ A) in Q as [Q|Q]; auto|right; lia].
  - apply (gr_byte_new _ _ _ B) in H0 as [Q|Q]; [apply (gr_byte_new _ _ _ A) in Q as [Q|Q]; auto|right; lia].
  - apply (gr_map_new _ _ _ B) in H0 as [Q|Q]; [apply (gr_map_new _ _ _ A) in Q as [Q|Q]; auto|right; lia].
  - apply (gr_entry_new _ _ _ B) in H0 as [Q|Q]; [apply (gr_entry_new _ _ _ A) in Q as [Q|Q]; auto|right; lia].
Qed.

Section Facts.
Variable D : decls.
Variable other : nat -> nat -> nat * nat.
Notation shaped := (shaped D other).
Notation struct_at := (struct_at D other).
Notation typed := (typed D other).
Notation cover := (cover D other).
Notation ssize := (ssize D other).
Notation placed := (placed D other).

Lemma struct_mono H W W' k a : grows H W W' -> struct_at W k a -> struct_at W' k a.
Proof. intros G A t p I. apply (gr_val _ _ _ G), A, I. Qed.
Lemma shaped_mono H0 W W' H t a : grows H0 W W' -> shaped W H t a -> shaped W' H t a.
Proof.
  intros G. destruct t; cbn [SpecTyped.shaped]; auto.
  - intros (p & n & c & K & L & P). exists p, n, c. split; [exact K|]. split; [exact L|].
    destruct p; [|exact P]. intros i Hi. apply (gr_byte _ _ _ G), P, Hi.
  - intros (p & n & c & K & L & P). exists p, n, c. split; [exact K|]. split; [exact L|].
    destruct p; [|exact P]. intros i Hi. apply (gr_val _ _ _ G), P, Hi.
  - intros (p & K & P). exists p. split; [exact K|]. destruct p; [|exact P]. destruct P as [P Q]. split; [exact P|apply (gr_map _ _ _ G), Q].
  - intros (p & K & P). exists p. split; [exact K|]. destruct p; [|exact P]. apply (gr_val _ _ _ G), P.
  - intros (p & K & P). exists p. split; [exact K|]. destruct p; [|exact P]. eapply struct_mono; eassumption.
Qed.
Lemma shaped_load W H t a : shaped W H t a -> exists l, load H a (tsize t) = Some l.
Proof.
  destruct t; cbn [SpecTyped.shaped tsize].
  - intros [v R]. apply rep_load in R. exact R.
  - intros (p & n & c & K & _). apply holds_load in K. rewrite hdr_length in K. eauto.
  - intros [v R]. apply rep_load in R. exact R.
  - intros (p & n & c & K & _). apply holds_load in K. rewrite hdr_length in K. eauto.
  - intros (p & K & _). apply holds_load in K. rewrite ptr_cells_length in K. eauto.
  - intros (p & K & _). apply holds_load in K. rewrite ptr_cells_length in K. eauto.
  - intros (p & K & _). apply holds_load in K. rewrite ptr_cells_length in K. eauto.
  - intros _. exists []. destruct a. reflexivity.
Qed.
Lemma shaped_move W H H' t a a' : shaped W H t a -> extends H H' -> load H' a' (tsize t) = load H a (tsize t) -> shaped W H' t a'.
Proof.
  intros S X Q. pose proof (shaped_load _ _ _ _ S) as L. destruct t; cbn [SpecTyped.shaped tsize] in *.
  - destruct S as [v R]. exists v. eapply rep_move; [exact R|exact X|exact Q|intros b o []].
  - destruct S as (p & n & c & K & R). exists p, n, c. split; [|exact R]. eapply (holds_prefix other) with (n := 24); [exact K|rewrite hdr_length; lia|exact L|exact Q].
  - destruct S as [v R]. exists v. eapply rep_move; [exact R|exact X|exact Q|intros b o []].
  - destruct S as (p & n & c & K & R). exists p, n, c. split; [|exact R]. eapply (holds_prefix other) with (n := 24); [exact K|rewrite hdr_length; lia|exact L|exact Q].
  - destruct S as (p & K & R). exists p. split; [|exact R]. eapply (holds_prefix other) with (n := 8); [exact K|rewrite ptr_cells_length; lia|exact L|exact Q].
  - destruct S as (p & K & R). exists p. split; [|exact R]. eapply (holds_prefix other) with (n := 8); [exact K|rewrite ptr_cells_length; lia|exact L|exact Q].
  - destruct S as (p & K & R). exists p. split; [|exact R]. eapply (holds_prefix other) with (n := 8); [exact K|rewrite ptr_cells_length; lia|exact L|exact Q].
  - exact Logic.I.
Qed.
Lemma frame_load A H H' a n l : load H a n = Some l -> touch A H H' -> disjoint (range a n) A -> load H' a n = Some l.
Proof.
  intros L T Dj. rewrite <- L. eapply same_load; [|apply subset_refl]. eapply touch_same; [exact T|eapply range_born; exact L|exact Dj].
Qed.
Lemma shaped_frame W H H' A t a : shaped W H t a -> touch A H H' -> disjoint (range a (tsize t)) A -> shaped W H' t a.
Proof.
  intros S T Dj. destruct (shaped_load _ _ _ _ S) as [l L]. eapply shaped_move; [exact S|exact (touch_ext _ _ _ T)|].
  rewrite L. eapply frame_load; eassumption.
Qed.
Lemma shaped_zero W H t a : holds H a (zeros (tsize t)) -> shaped W H t a.
Proof.
  intros K. pose proof (zero_rep D other true _ _ _ K) as R.
  destruct t; cbn [SpecTyped.shaped tsize] in *.
  - eauto.
  - exists None, 0, 0. split; [exact K|]. split; [lia|reflexivity].
  - eauto.
  - exists None, 0, 0. split; [exact K|]. split; [lia|reflexivity].
  - exists None. split; [exact K|exact Logic.I].
  - exists None. split; [exact K|exact Logic.I].
  - exists None. split; [exact K|exact Logic.I].
  - exact Logic.I.
Qed.
Lemma typed_born W H t a : typed W H -> wval W t a -> subset (range a (tsize t)) (born H).
Proof. intros T V. destruct (shaped_load _ _ _ _ (ty_val _ _ _ _ T _ _ V)) as [l L]. eapply range_born. exact L. Qed.
Lemma byte_born W H p : typed W H -> wbyte W p -> fst p < length H.
Proof. intros T V. destruct (ty_byte _ _ _ _ T _ V) as (n & _ & C). eapply (cell_born _ _ (snd p)). congruence. Qed.
Lemma map_born W H m k e : typed W H -> wmap W m k e -> m < length H.
Proof. intros T V. destruct (ty_map _ _ _ _ T _ _ _ V) as (l & E & _). apply nth_error_Some. congruence. Qed.
Lemma entry_born W H k a : typed W H -> wentry W k a -> subset (range a (ssize k)) (born H).
Proof. intros T V. destruct (ty_entry _ _ _ _ T _ _ V) as (_ & l & L). eapply range_born. exact L. Qed.
Lemma cover_born W H : typed W H -> subset (cover W) (born H).
Proof.
  intros T b o [(t & a & V & R)|[V|[(k & e & V)|(k & a & V & R)]]].
  - eapply typed_born; eassumption.
  - apply (byte_born _ _ _ T V).
  - eapply map_born; eassumption.
  - eapply entry_born; eassumption.
Qed.
Lemma cover_grows H W W' : grows H W W' -> subset (cover W') (union (cover W) (unborn H)).
Proof.
  intros G b o [(t & a & V & R)|[V|[(k & e & V)|(k & a & V & R)]]].
  - apply (gr_val_new _ _ _ G) in V as [V|V]; [left; left; eauto|right]. destruct R as [-> _]. exact V.
  - apply (gr_byte_new _ _ _ G) in V as [V|V]; [left; right; left; exact V|right; exact V].
  - apply (gr_map_new _ _ _ G) in V as [V|V]; [left; right; right; left; eauto|right; exact V].
  - apply (gr_entry_new _ _ _ G) in V as [V|V]; [left; right; right; right; eauto|right]. destruct R as [-> _]. exact V.
Qed.

(** ** Writing *)
Lemma typed_write A W H H' : typed W H -> touch A H H' ->
  (forall t a, wval W t a -> shaped W H' t a \/ disjoint (range a (tsize t)) A) ->
  (forall p, wbyte W p -> (exists n, (n < 256)%N /\ cell H' (fst p) (snd p) = Some (MB n)) \/ ~ A (fst p) (snd p)) ->
  (forall m k e, wmap W m k e -> exists o, ~ A m o) -> typed W H'.
Proof.
  intros T X V B M. constructor.
  - intros t a I. destruct (V _ _ I) as [S|S]; [exact S|]. eapply shaped_frame; [apply (ty_val _ _ _ _ T _ _ I)|exact X|exact S].
  - intros p I. destruct (B _ I) as [S|S]; [exact S|]. destruct (ty_byte _ _ _ _ T _ I) as (n & L & C). exists n. split; [exact L|].
    destruct X as [_ X]. rewrite cell_spot, X; [rewrite <- cell_spot; exact C|eapply byte_born; eassumption|exact S].
  - intros m k e I. destruct (ty_map _ _ _ _ T _ _ _ I) as (l & E & P). exists l. split; [|exact P].
    destruct (M _ _ _ I) as [o N]. destruct X as [_ X].
    assert (Q : spot H' m o = spot H m o) by (apply X; [eapply map_born; eassumption|exact N]).
    unfold spot in Q. rewrite E in Q. destruct (nth_error H' m) as [[c|s|l']|]; try discriminate.
    + destruct (nth_error c o); discriminate.
    + inversion Q. reflexivity.
  - apply (ty_map_one _ _ _ _ T).
  - intros k a I. destruct (ty_entry _ _ _ _ T _ _ I) as (S & l & L). split; [exact S|]. eapply extends_load; [exact (touch_ext _ _ _ X)|exact L].
  - apply (ty_val_val _ _ _ _ T).
  - apply (ty_val_byte _ _ _ _ T).
  - apply (ty_entry_val _ _ _ _ T).
  - apply (ty_entry_byte _ _ _ _ T).
Qed.
Lemma range_out a n m : exists o, ~ range a n m o.
Proof. exists (snd a + n). intros [_ L]. lia. Qed.
Lemma typed_store W H H' t a A : typed W H -> wval W t a -> touch A H H' -> subset A (range a (tsize t)) -> shaped W H' t a -> typed W H'.
Proof.
  intros T V X Q S. apply (typed_write A _ _ _ T X).
  - intros t' a' V'. destruct (ty_val_val _ _ _ _ T _ _ _ _ V' V) as [[-> ->]|Dj]; [left; exact S|right].
    eapply disjoint_sub; [exact Dj|apply subset_refl|exact Q].
  - intros p B. right. intros I. apply (ty_val_byte _ _ _ _ T _ _ _ V B). apply Q, I.
  - intros m k e _. destruct (range_out a (tsize t) m) as [o N]. exists o. intros I. apply N, Q, I.
Qed.
Lemma typed_bytes W H H' p n : typed W H -> (forall i, i < n -> wbyte W (shift p i)) -> touch (range p n) H H' ->
  (forall i, i < n -> exists x, (x < 256)%N /\ cell H' (fst p) (snd p + i) = Some (MB x)) -> typed W H'.
Proof.
  intros T B X C. apply (typed_write (range p n) _ _ _ T X).
  - intros t a V. right. intros b o R [-> L]. apply (ty_val_byte _ _ _ _ T _ _ _ V (B (o - snd p) ltac:(lia))).
    cbn [shift fst snd]. destruct p as [x y]. cbn [fst snd] in *. replace (y + (o - y)) with o by lia. exact R.
  - intros q Bq. assert (range p n (fst q) (snd q) \/ ~ range p n (fst q) (snd q)) as [[E L]|N].
    { unfold range. destruct (Nat.eq_dec (fst q) (fst p)); [|right; lia]. destruct (le_lt_dec (snd p) (snd q)); [|right; lia].
      destruct (le_lt_dec (snd p + n) (snd q)); [right; lia|left; lia]. }
    + left. destruct (C (snd q - snd p) ltac:(lia)) as (x & Lx & Cx). exists x. split; [exact Lx|]. rewrite E, <- Cx. f_equal. lia.
    + right. exact N.
  - intros m k e _. apply range_out.
Qed.

(** ** New memory *)
Lemma plus_grows W V H : (forall t a, wval V t a -> length H <= fst a) -> (forall a, wbyte V a -> length H <= fst a) ->
  (forall m k e, wmap V m k e -> length H <= m) -> (forall k a, wentry V k a -> length H <= fst a) -> grows H W (plus W V).
Proof.
  intros A B C E. constructor; cbn [plus wval wbyte wmap wentry]; auto.
  - intros t a [I|I]; [auto|right; eauto].
  - intros a [I|I]; [auto|right; eauto].
  - intros m k e [I|I]; [auto|right; eauto].
  - intros k a [I|I]; [auto|right; eauto].
Qed.
Lemma typed_plus W V H H' : typed W H -> touch none H H' ->
  (forall t a, wval V t a -> length H <= fst a) -> (forall a, wbyte V a -> length H <= fst a) ->
  (forall m k e, wmap V m k e -> length H <= m) -> (forall k a, wentry V k a -> length H <= fst a) ->
  (forall t a, wval V t a -> shaped (plus W V) H' t a) ->
  (forall a, wbyte V a -> exists n, (n < 256)%N /\ cell H' (fst a) (snd a) = Some (MB n)) ->
  (forall m k e, wmap V m k e -> exists l, nth_error H' m = Some (OMap l) /\
    forall x y, In (x, y) l -> wval (plus W V) (TScalar k) (x, 0) /\ wval (plus W V) e (y, 0)) ->
  (forall m k e k' e', wmap V m k e -> wmap V m k' e' -> k = k' /\ e = e') ->
  (forall k a, wentry V k a -> struct_at (plus W V) k a /\ exists l, load H' a (ssize k) = Some l) ->
  (forall t a t' a', wval V t a -> wval V t' a' -> (t = t' /\ a = a') \/ disjoint (range a (tsize t)) (range a' (tsize t'))) ->
  (forall t a p, wval V t a -> wbyte V p -> ~ range a (tsize t) (fst p) (snd p)) ->
  (forall k a t p, wentry V k a -> wval V t p -> In (t, p) (placed k a) \/ disjoint (range a (ssize k)) (range p (tsize t))) ->
  (forall k a p, wentry V k a -> wbyte V p -> ~ range a (ssize k) (fst p) (snd p)) ->
  typed (plus W V) H'.
Proof.
  intros T X N1 N2 N3 N4 C1 C2 C3 C4 C5 C6 C7 C8 C9.
  assert (G : grows H W (plus W V)) by (apply plus_grows; assumption).
  assert (T' : typed W H').
  { apply (typed_write none _ _ _ T X); [intros; right; apply disjoint_none_r|intros; right; intros []|].
    intros m k e _. exists 0. intros []. }
  constructor; cbn [plus wval wbyte wmap wentry].
  - intros t a [I|I]; [|auto]. eapply shaped_mono; [exact G|apply (ty_val _ _ _ _ T' _ _ I)].
  - intros a [I|I]; [|auto]. apply (ty_byte _ _ _ _ T' _ I).
  - intros m k e [I|I]; [|exact (C3 _ _ _ I)]. destruct (ty_map _ _ _ _ T' _ _ _ I) as (l & E & P). exists l. split; [exact E|].
    intros x y Hxy. destruct (P _ _ Hxy). split; left; assumption.
  - intros m k e k' e' [I|I] [J|J].
    + apply (ty_map_one _ _ _ _ T _ _ _ _ _ I J).
    + apply (map_born _ _ _ _ _ T) in I. apply N3 in J. lia.
    + apply (map_born _ _ _ _ _ T) in J. apply N3 in I. lia.
    + eauto.
  - intros k a [I|I]; [|exact (C5 _ _ I)]. destruct (ty_entry _ _ _ _ T' _ _ I) as [S L]. split; [|exact L]. eapply struct_mono; eassumption.
  - intros t a t' a' [I|I] [J|J].
    + apply (ty_val_val _ _ _ _ T _ _ _ _ I J).
    + right. intros b o R [-> _]. apply (typed_born _ _ _ _ T I) in R. apply N1 in J. unfold born in R. lia.
    + right. intros b o [-> _] R. apply (typed_born _ _ _ _ T J) in R. apply N1 in I. unfold born in R. lia.
    + auto.
  - intros t a p [I|I] [J|J].
    + apply (ty_val_byte _ _ _ _ T _ _ _ I J).
    + intros R. apply (typed_born _ _ _ _ T I) in R. apply N2 in J. unfold born in R. lia.
    + intros [E _]. apply (byte_born _ _ _ T) in J. apply N1 in I. lia.
    + auto.
  - intros k a t p [I|I] [J|J].
    + apply (ty_entry_val _ _ _ _ T _ _ _ _ I J).
    + right. intros b o R [-> _]. apply (entry_born _ _ _ _ T I) in R. apply N1 in J. unfold born in R. lia.
    + right. intros b o [-> _] R. apply (typed_born _ _ _ _ T J) in R. apply N4 in I. unfold born in R. lia.
    + auto.
  - intros k a p [I|I] [J|J].
    + apply (ty_entry_byte _ _ _ _ T _ _ _ I J).
    + intros R. apply (entry_born _ _ _ _ T I) in R. apply N2 in J. unfold born in R. lia.
    + intros [E _]. apply (byte_born _ _ _ T) in J. apply N4 in I. lia.
    + auto.
Qed.

(** A new object with values in it. *)
Definition objw (L : gotype -> addr -> Prop) (E : skey -> addr -> Prop) : world :=
  {| wval := L; wbyte := fun _ => False; wmap := fun _ _ _ => False; wentry := E |}.
Lemma typed_object W H c (L : gotype -> addr -> Prop) (E : skey -> addr -> Prop) : typed W H ->
  (forall t a, L t a -> fst a = length H /\ shaped (plus W (objw L E)) (H ++ [OMem c]) t a) ->
  (forall t a t' a', L t a -> L t' a' -> (t = t' /\ a = a') \/ disjoint (range a (tsize t)) (range a' (tsize t'))) ->
  (forall k a, E k a -> a = (length H, 0) /\ ssize k = length c /\ forall t p, In (t, p) (placed k a) <-> L t p) ->
  typed (plus W (objw L E)) (H ++ [OMem c]) /\ grows H W (plus W (objw L E)).
Proof.
  intros T S Dj Q.
  assert (N1 : forall t a, L t a -> length H <= fst a) by (intros t a I; apply S in I as [I _]; lia).
  assert (N4 : forall k a, E k a -> length H <= fst a) by (intros k a I; apply Q in I as [-> _]; cbn; lia).
  split; [|apply plus_grows; cbn [objw wval wbyte wmap wentry]; auto; contradiction].
  eapply (typed_plus W (objw L E) H); cbn [objw wval wbyte wmap wentry]; auto; try contradiction.
  - apply alloc_touch.
  - intros t a I. apply S, I.
  - intros k a I. apply Q in I as (-> & Z & P). split.
    + intros t p I. right. apply P, I.
    + rewrite Z. exists c. apply alloc_holds.
  - intros k a t p I J. left. apply Q in I as (_ & _ & P). apply P, J.
Qed.

(** ** The fields of a struct *)
Lemma fields_sep a : forall ts lay o, Forall2 (fun t l => tsize t <= fst l) ts lay ->
  let L := combine ts (map (shift a) (offsets o lay)) in
  (forall t p, In (t, p) L -> exists q, p = shift a q /\ o <= q /\ q + tsize t <= fields_end o lay) /\
  (forall t p t' p', In (t, p) L -> In (t', p') L -> (t = t' /\ p = p') \/ disjoint (range p (tsize t)) (range p' (tsize t'))).
Proof.
  intros ts lay o F. revert o. induction F as [|t [s al] ts lay Hs F IH]; intros o; [split; intros; contradiction|].
  cbn [offsets fields_end map combine fst] in *. pose proof (round_up_le other al o). destruct (IH (round_up al o + s)) as [I1 I2].
  pose proof (fields_end_le other lay (round_up al o + s)) as Le.
  assert (B : forall t' p', In (t', p') (combine ts (map (shift a) (offsets (round_up al o + s) lay))) ->
    disjoint (range (shift a (round_up al o)) (tsize t)) (range p' (tsize t'))).
  { intros t' p' I. apply I1 in I as (q & -> & L & _). intros b x [-> A] [_ B]. cbn [shift fst snd] in *. lia. }
  cbv zeta. split.
  - intros t' p [E|I].
    + inversion E; subst. exists (round_up al o). split; [reflexivity|]. split; [lia|]. lia.
    + apply I1 in I as (q & -> & L & M). exists q. split; [reflexivity|]. split; [lia|exact M].
  - intros t1 p1 t2 p2 [E|I] [E'|J].
    + inversion E; inversion E'; subst. left. auto.
    + inversion E; subst. right. apply B, J.
    + inversion E'; subst. right. apply disjoint_sym, B, I.
    + apply I2; assumption.
Qed.
Lemma skey_opt k : (exists q, k = SOpt q) \/ forall q, k <> SOpt q.
Proof. destruct k; [right; discriminate|right; discriminate|left; eauto]. Qed.
Lemma placed_in k a t p : In (t, p) (placed k a) -> exists q, p = shift a q /\ q + tsize t <= ssize k.
Proof.
  intros I. destruct (skey_opt k) as [[q ->]|N].
  - destruct I as [E|[]]. inversion E; subst. exists 0. rewrite shift_0, opt_ssize. split; [reflexivity|lia].
  - rewrite placed_eq in I by exact N. destruct (fields_sep a _ _ 0 (layout_fits D other k N)) as [F _].
    apply F in I as (q & -> & _ & L). exists q. split; [reflexivity|]. eapply Nat.le_trans; [exact L|]. apply (round_up_le other).
Qed.
Lemma placed_sep k a t p t' p' : In (t, p) (placed k a) -> In (t', p') (placed k a) ->
  (t = t' /\ p = p') \/ disjoint (range p (tsize t)) (range p' (tsize t')).
Proof.
  intros I J. destruct (skey_opt k) as [[q ->]|N].
  - destruct I as [E|[]], J as [E'|[]]. inversion E; inversion E'; subst. left. auto.
  - rewrite placed_eq in I, J by exact N. destruct (fields_sep a _ _ 0 (layout_fits D other k N)) as [_ F]. eapply F; eassumption.
Qed.

(** ** New objects of the kinds the codecs make *)
Notation newH H c := (H ++ [OMem c]).
Definition one (t : gotype) (a : addr) : world := objw (fun t' a' => t' = t /\ a' = a) (fun _ _ => False).
Lemma new_val W H t c : typed W H -> shaped (plus W (one t (length H, 0))) (newH H c) t (length H, 0) ->
  typed (plus W (one t (length H, 0))) (newH H c) /\ grows H W (plus W (one t (length H, 0))).
Proof.
  intros T S. apply typed_object; [exact T| | |contradiction].
  - intros t' a' [-> ->]. split; [reflexivity|exact S].
  - intros t1 a1 t2 a2 [-> ->] [-> ->]. left. auto.
Qed.
Definition structw (k : skey) (a : addr) (e : bool) : world :=
  objw (fun t p => In (t, p) (placed k a)) (fun k' a' => e = true /\ k' = k /\ a' = a).
Lemma new_struct W H k e : typed W H -> let V := structw k (length H, 0) e in
  typed (plus W V) (newH H (zeros (ssize k))) /\ grows H W (plus W V).
Proof.
  intros T V. apply typed_object; [exact T| | |].
  - intros t a I. apply placed_in in I as (q & -> & L). split; [reflexivity|]. apply shaped_zero.
    eapply (holds_zeros other); [apply alloc_holds|exact L].
  - intros t a t' a' I J. eapply placed_sep; eassumption.
  - intros k' a' (_ & -> & ->). split; [reflexivity|]. split; [symmetry; apply repeat_length|reflexivity].
Qed.
Definition arrayw (t : gotype) (a : addr) (n : nat) : world :=
  objw (fun t' a' => t' = t /\ exists i, i < n /\ a' = shift a (i * tsize t)) (fun _ _ => False).
Lemma new_array W H t n c : typed W H -> let V := arrayw t (length H, 0) n in
  (forall i, i < n -> shaped (plus W V) (newH H c) t (length H, i * tsize t)) ->
  typed (plus W V) (newH H c) /\ grows H W (plus W V).
Proof.
  intros T V S. apply typed_object; [exact T| | |contradiction].
  - intros t' a [-> (i & L & ->)]. split; [reflexivity|]. apply S, L.
  - intros t1 a1 t2 a2 [-> (i & L & ->)] [-> (j & M & ->)]. destruct (Nat.eq_dec i j) as [->|N]; [left; auto|right].
    intros b o [_ A] [_ B]. cbn [shift fst snd] in *. nia.
Qed.
Definition bytesw (a : addr) (n : nat) : world :=
  {| wval := fun _ _ => False; wbyte := fun p => exists i, i < n /\ p = shift a i; wmap := fun _ _ _ => False; wentry := fun _ _ => False |}.
Lemma new_bytes W H n c : typed W H -> let V := bytesw (length H, 0) n in
  (forall i, i < n -> exists x, (x < 256)%N /\ nth_error c i = Some (MB x)) ->
  typed (plus W V) (newH H c) /\ grows H W (plus W V).
Proof.
  intros T V B. assert (N : forall a, wbyte V a -> length H <= fst a) by (intros a (i & _ & ->); cbn; lia).
  split; [|apply plus_grows; cbn [V bytesw wval wbyte wmap wentry]; auto; contradiction].
  eapply (typed_plus W V H); auto; try contradiction; [apply alloc_touch|].
  intros a (i & L & ->). destruct (B i L) as (x & Lx & E). exists x. split; [exact Lx|]. cbn [shift fst snd Nat.add].
  unfold cell. rewrite alloc_nth. exact E.
Qed.
Definition mapw (m : nat) (k : skind) (e : gotype) : world :=
  {| wval := fun _ _ => False; wbyte := fun _ => False; wmap := fun m' k' e' => m' = m /\ k' = k /\ e' = e; wentry := fun _ _ => False |}.
Lemma new_map W H k e : typed W H -> let V := mapw (length H) k e in typed (plus W V) (H ++ [OMap []]) /\ grows H W (plus W V).
Proof.
  intros T V. assert (N : forall m k' e', wmap V m k' e' -> length H <= m) by (intros m k' e' (-> & _); lia).
  split; [|apply plus_grows; cbn [V mapw wval wbyte wmap wentry]; auto; contradiction].
  eapply (typed_plus W V H); auto; try contradiction; [apply alloc_touch| |].
  - intros m k' e' (-> & -> & ->). exists []. split; [apply alloc_nth|intros x y []].
  - intros m k1 e1 k2 e2 (_ & -> & ->) (_ & -> & ->). auto.
Qed.

(** ** Headers that only grow *)
Definition keeps_at (H H' : heap) (t : gotype) (a : addr) : Prop :=
  match t with
  | TSlice _ => forall p n c, holds H a (hdr p n c) -> exists p' n' c', holds H' a (hdr p' n' c') /\ c <= c'
  | TMap _ _ => forall p, holds H a (ptr_cells (Some p)) -> exists p', holds H' a (ptr_cells (Some p'))
  | _ => True
  end.
Definition keep (W : world) (H H' : heap) : Prop := forall t a, wval W t a -> keeps_at H H' t a.
Lemma keeps_same H H' t a : (exists l, load H a (tsize t) = Some l) -> load H' a (tsize t) = load H a (tsize t) -> keeps_at H H' t a.
Proof.
  intros L Q. destruct t; cbn [keeps_at tsize] in *; auto.
  - intros p n c K. exists p, n, c. split; [|lia]. eapply (holds_prefix other) with (n := 24); [exact K|rewrite hdr_length; lia|exact L|exact Q].
  - intros p K. exists p. eapply (holds_prefix other) with (n := 8); [exact K|rewrite ptr_cells_length; lia|exact L|exact Q].
Qed.
Lemma keeps_trans H1 H2 H3 t a : keeps_at H1 H2 t a -> keeps_at H2 H3 t a -> keeps_at H1 H3 t a.
Proof.
  destruct t; cbn [keeps_at]; auto.
  - intros A B p n c K. apply A in K as (p1 & n1 & c1 & K & L). apply B in K as (p2 & n2 & c2 & K & M). exists p2, n2, c2. split; [exact K|lia].
  - intros A B p K. apply A in K as [p1 K]. apply B in K. exact K.
Qed.
Lemma keep_touch A W H H' : typed W H -> touch A H H' -> (forall t a, wval W t a -> keeps_at H H' t a \/ disjoint (range a (tsize t)) A) -> keep W H H'.
Proof.
  intros T X C t a V. destruct (C _ _ V) as [K|Dj]; [exact K|].
  destruct (shaped_load _ _ _ _ (ty_val _ _ _ _ T _ _ V)) as [l L]. apply keeps_same; [eauto|]. rewrite L. eapply frame_load; eassumption.
Qed.
Lemma keep_none W H H' : typed W H -> touch none H H' -> keep W H H'.
Proof. intros T X. apply (keep_touch none _ _ _ T X). intros. right. apply disjoint_none_r. Qed.
Lemma keep_store W H H' t a A : typed W H -> wval W t a -> touch A H H' -> subset A (range a (tsize t)) -> keeps_at H H' t a -> keep W H H'.
Proof.
  intros T V X Q S. apply (keep_touch A _ _ _ T X). intros t' a' V'.
  destruct (ty_val_val _ _ _ _ T _ _ _ _ V' V) as [[-> ->]|Dj]; [left; exact S|right].
  eapply disjoint_sub; [exact Dj|apply subset_refl|exact Q].
Qed.

(** ** What a step of decoding leaves *)
Record step (W : world) (H : heap) (W' : world) (H' : heap) : Prop := {
  s_typed : typed W' H';
  s_grows : grows H W W';
  s_touch : touch (cover W) H H';
  s_keep : keep W H H' }.
Lemma step_refl W H : typed W H -> step W H W H.
Proof. intros T. constructor; [exact T|apply grows_refl|apply touch_refl|apply keep_none; [exact T|apply touch_refl]]. Qed.
Lemma step_trans W H W1 H1 W2 H2 : step W H W1 H1 -> step W1 H1 W2 H2 -> step W H W2 H2.
Proof.
  intros [T1 G1 X1 K1] [T2 G2 X2 K2]. constructor.
  - exact T2.
  - eapply grows_trans; [exact G1|exact G2|exact (touch_len _ _ _ X1)].
  - eapply touch_trans; [exact X1|exact X2|]. apply cover_grows, G1.
  - intros t a V. eapply keeps_trans; [apply K1, V|]. apply K2. apply (gr_val _ _ _ G1), V.
Qed.
Lemma step_store W H H' t a A : typed W H -> wval W t a -> touch A H H' -> subset A (range a (tsize t)) -> shaped W H' t a ->
  keeps_at H H' t a -> step W H W H'.
Proof.
  intros T V X Q S K. constructor.
  - eapply typed_store; eassumption.
  - apply grows_refl.
  - eapply touch_weaken; [exact X|]. intros b o I. left. left. exists t, a. split; [exact V|apply Q, I].
  - eapply keep_store; eassumption.
Qed.
Lemma step_bytes W H H' p n : typed W H -> (forall i, i < n -> wbyte W (shift p i)) -> touch (range p n) H H' ->
  (forall i, i < n -> exists x, (x < 256)%N /\ cell H' (fst p) (snd p + i) = Some (MB x)) -> step W H W H'.
Proof.
  intros T B X C. constructor.
  - eapply typed_bytes; eassumption.
  - apply grows_refl.
  - eapply touch_weaken; [exact X|]. intros b o [-> L]. left. right. left. specialize (B (o - snd p) ltac:(lia)).
    unfold shift in B. destruct p as [x y]. cbn [fst snd] in *. replace (y + (o - y)) with o in B by lia. exact B.
  - apply (keep_touch _ _ _ _ T X). intros t a V. right. intros b o R [-> L].
    apply (ty_val_byte _ _ _ _ T _ _ _ V (B (o - snd p) ltac:(lia))).
    cbn [shift fst snd]. destruct p as [x y]. cbn [fst snd] in *. replace (y + (o - y)) with o by lia. exact R.
Qed.
Lemma step_new W H W' x : typed W H -> typed W' (H ++ [x]) /\ grows H W W' -> step W H W' (H ++ [x]).
Proof. intros T [T' G]. constructor; [exact T'|exact G|apply alloc_touch|apply keep_none; [exact T|apply alloc_touch]]. Qed.
Lemma step_shaped W H W' H' t a : step W H W' H' -> wval W t a -> shaped W' H' t a.
Proof. intros S V. apply (ty_val _ _ _ _ (s_typed _ _ _ _ S)). apply (gr_val _ _ _ (s_grows _ _ _ _ S)), V. Qed.
End Facts.
