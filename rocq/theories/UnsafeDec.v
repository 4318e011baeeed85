(** Unmarshal on flat memory does what it does on trees, and touches only the
    memory of the message, of pooled map entries, and new memory. *)
From Coq Require Import ZifyBool ZifyNat ZifyN.
From Verif Require Import Base Wire GoType Leaf Codec Tag Walker Resolve Api Typing SpecWire WireFacts DecodeFacts TypingFacts CodecSim
  Unsafe SpecUnsafe UnsafeMem UnsafeRep UnsafeLeaf UnsafeEqs UnsafeEnc.
Local Open Scope nat_scope.

Section Dec.
Variable D : decls.
Hypothesis HD : decls_fit D = true.
Variable other : nat -> nat -> nat * nat.
Variable grow : nat -> nat.
Variable pick : ust -> skey -> option nat.
Notation rep := (rep D other true).
Notation box := (box D other true).
Notation rep_struct := (rep_struct D other true).
Notation pool := (pool D other).
Notation ssize := (ssize D other).
Notation udec := (udec grow pick plook (piget D) D other).
Notation udecs := (udecs grow pick plook (piget D) D other).
Notation dec := (dec plook (piget D) D).
Notation decs := (decs plook (piget D) D).

(** ** Frames *)
Lemma frame_rep H H' A t a v S : rep H t a v S -> touch A H H' -> disjoint (union (range a (tsize t)) S) A -> rep H' t a v S.
Proof.
  intros R T Dj. eapply rep_frame; [exact R|apply (touch_ext _ _ _ T)|]. eapply touch_same; [exact T| |exact Dj].
  apply subset_union; [eapply rep_range; exact R|eapply rep_born; exact R].
Qed.
Lemma frame_box H H' A L vs S : box H L vs S -> touch A H H' -> disjoint S A -> box H' L vs S.
Proof.
  intros R T Dj. eapply box_frame; [exact R|apply (touch_ext _ _ _ T)|]. eapply touch_same; [exact T| |exact Dj].
  eapply box_born; exact R.
Qed.
Lemma struct_born H k a x S : rep_struct H k a x S -> subset S (born H).
Proof. destruct k; cbn [SpecUnsafe.rep_struct]; intros R; try destruct R as (xs & _ & R); eapply box_born; exact R. Qed.
Lemma frame_struct H H' A k a x S : rep_struct H k a x S -> touch A H H' -> disjoint S A -> rep_struct H' k a x S.
Proof.
  destruct k; cbn [SpecUnsafe.rep_struct]; intros R T Dj; try destruct R as (xs & -> & R); try (exists xs; split; [reflexivity|]);
    eapply frame_box; eassumption.
Qed.
Lemma frame_holds H H' A a cs n : holds H a cs -> length cs = n -> touch A H H' -> disjoint (range a n) A -> holds H' a cs.
Proof.
  intros K <- T Dj. eapply holds_move; [exact K|]. eapply same_load; [|apply subset_refl].
  eapply touch_same; [exact T| |exact Dj]. eapply range_born. apply holds_load. exact K.
Qed.
Lemma pool_born H l P : pool H l P -> subset P (born H).
Proof.
  induction 1 as [|k a l P K R IH Dj]; [intros b o []|]. apply subset_union; [|exact IH].
  apply holds_load in K. unfold zeros in K at 1. rewrite repeat_length in K. eapply range_born. exact K.
Qed.
Lemma zeros_length n : length (zeros n) = n. Proof. apply repeat_length. Qed.
Lemma frame_pool H H' A l P : pool H l P -> touch A H H' -> disjoint P A -> pool H' l P.
Proof.
  intros R T. induction R as [|k a l P K R IH Dj]; intros Da; [constructor|]. constructor.
  - eapply frame_holds; [exact K|apply zeros_length|exact T|]. eapply disjoint_sub; [exact Da| |apply subset_refl].
    intros b o Hb. left. exact Hb.
  - apply IH. eapply disjoint_sub; [exact Da| |apply subset_refl]. intros b o Hb. right. exact Hb.
  - exact Dj.
Qed.
Lemma pool_remove H l P : pool H l P -> forall j k a, nth_error l j = Some (k, a) -> exists P1,
  pool H (remove_at j l) P1 /\ holds H a (zeros (ssize k)) /\ disjoint (range a (ssize k)) P1 /\ seteq P (union (range a (ssize k)) P1).
Proof.
  induction 1 as [|k' a' l P K R IH Dj]; intros [|j] k a E; cbn in E; try discriminate.
  - inversion E; subst. exists P. split; [exact R|]. split; [exact K|]. split; [exact Dj|apply seteq_refl].
  - destruct (IH _ _ _ E) as (P1 & R1 & K1 & D1 & Q1). exists (union (range a' (ssize k')) P1). cbn [remove_at].
    split; [|split; [exact K1|split]].
    + constructor; [exact K|exact R1|]. eapply disjoint_sub; [exact Dj|apply subset_refl|]. intros b o Hb. apply Q1. right. exact Hb.
    + apply disjoint_union_r; [|exact D1]. apply disjoint_sym. eapply disjoint_sub; [exact Dj|apply subset_refl|].
      intros b o Hb. apply Q1. left. exact Hb.
    + eapply seteq_trans; [apply seteq_union; [apply seteq_refl|exact Q1]|]. intros b o. unfold union. tauto.
Qed.

(** ** What decoding a value, or a struct, guarantees *)
Definition good (H : heap) (t : gotype) (a : addr) (v' : val) (S P : cset) (st' : ust) : Prop :=
  exists S' P', rep (hp st') t a v' S' /\ disjoint (range a (tsize t)) S' /\
    pool (hp st') (pl st') P' /\ disjoint (union (range a (tsize t)) S') P' /\
    subset S' (union S (unborn H)) /\ subset P' (union P (unborn H)) /\
    touch (union (union (range a (tsize t)) S) P) H (hp st').
Definition goods (H : heap) (k : skey) (a : addr) (x' : val) (S P : cset) (st' : ust) : Prop :=
  exists S' P', rep_struct (hp st') k a x' S' /\
    pool (hp st') (pl st') P' /\ disjoint S' P' /\
    subset S' (union S (unborn H)) /\ subset P' (union P (unborn H)) /\
    touch (union S P) H (hp st').

Lemma sub_unborn A B H H2 : length H <= length H2 -> subset A (union B (unborn H2)) -> forall C, subset B (union C (unborn H)) -> subset A (union C (unborn H)).
Proof.
  intros L Q C Q2 b o Ha. apply Q in Ha as [Ha|Ha]; [apply Q2, Ha|]. right. eapply unborn_mono; [exact L|exact Ha].
Qed.
Lemma good_weaken H H2 t a v' S S2 P P2 st' : good H2 t a v' S2 P2 st' ->
  touch (union (union (range a (tsize t)) S) P) H H2 ->
  subset S2 (union S (unborn H)) -> subset P2 (union P (unborn H)) -> good H t a v' S P st'.
Proof.
  intros (S' & P' & R & D1 & Po & D2 & Q1 & Q2 & T) T0 Q3 Q4. exists S', P'.
  split; [exact R|]. split; [exact D1|]. split; [exact Po|]. split; [exact D2|].
  pose proof (touch_len _ _ _ T0) as L.
  split; [eapply sub_unborn; eassumption|]. split; [eapply sub_unborn; eassumption|].
  eapply touch_trans; [exact T0|exact T|].
  intros b o [[Hb|Hb]|Hb]; [left; left; left; exact Hb| |].
  - apply Q3 in Hb as [Hb|Hb]; [left; left; right; exact Hb|right; exact Hb].
  - apply Q4 in Hb as [Hb|Hb]; [left; right; exact Hb|right; exact Hb].
Qed.
Lemma goods_weaken H H2 k a x' S S2 P P2 st' : goods H2 k a x' S2 P2 st' ->
  touch (union S P) H H2 ->
  subset S2 (union S (unborn H)) -> subset P2 (union P (unborn H)) -> goods H k a x' S P st'.
Proof.
  intros (S' & P' & R & Po & D2 & Q1 & Q2 & T) T0 Q3 Q4. exists S', P'.
  split; [exact R|]. split; [exact Po|]. split; [exact D2|].
  pose proof (touch_len _ _ _ T0) as L.
  split; [eapply sub_unborn; eassumption|]. split; [eapply sub_unborn; eassumption|].
  eapply touch_trans; [exact T0|exact T|].
  intros b o [Hb|Hb].
  - apply Q3 in Hb as [Hb|Hb]; [left; left; exact Hb|right; exact Hb].
  - apply Q4 in Hb as [Hb|Hb]; [left; right; exact Hb|right; exact Hb].
Qed.
(** Nothing happened. *)
Lemma good_same st t a v S P : rep (hp st) t a v S -> disjoint (range a (tsize t)) S -> pool (hp st) (pl st) P ->
  disjoint (union (range a (tsize t)) S) P -> good (hp st) t a v S P st.
Proof.
  intros R D1 Po D2. exists S, P. split; [exact R|]. split; [exact D1|]. split; [exact Po|]. split; [exact D2|].
  split; [intros b o Hb; left; exact Hb|]. split; [intros b o Hb; left; exact Hb|apply touch_refl].
Qed.
Lemma goods_same st k a x S P : rep_struct (hp st) k a x S -> pool (hp st) (pl st) P ->
  disjoint S P -> goods (hp st) k a x S P st.
Proof.
  intros R Po D2. exists S, P. split; [exact R|]. split; [exact Po|]. split; [exact D2|].
  split; [intros b o Hb; left; exact Hb|]. split; [intros b o Hb; left; exact Hb|apply touch_refl].
Qed.

Definition codec_ok (fuel : nat) : Prop := forall p t st b a v S P v' n e,
  codec_fits D p t = true -> type_depth t <= Nat.max 1 (decls_depth D) ->
  rep (hp st) t a v S -> disjoint (range a (tsize t)) S -> pool (hp st) (pl st) P ->
  disjoint (union (range a (tsize t)) S) P -> bytes_okb b = true -> small b ->
  dec fuel p b v = DRet v' n e -> exists st', udec fuel p st b a = DRet st' n e /\ good (hp st) t a v' S P st'.
Definition struct_ok (fuel : nat) : Prop := forall k st b off a x S P x' n e,
  key_ok D k -> rep_struct (hp st) k a x S -> pool (hp st) (pl st) P -> disjoint S P -> bytes_okb b = true -> small b ->
  decs fuel k b off x = DRet x' n e -> exists st', udecs fuel k k st b off a = DRet st' n e /\ goods (hp st) k a x' S P st'.

(** ** Pointers *)
Lemma store_ptr H a p : (exists l, load H a 8 = Some l) -> exists H', store H a (ptr_cells p) = Some H' /\
  touch (range a 8) H H' /\ length H' = length H /\ holds H' a (ptr_cells p).
Proof.
  intros L. destruct (store_spec (ptr_cells p) H a) as (H' & E & T & Ln & K); rewrite ptr_cells_length in *; [exact L|]. eauto.
Qed.
(** A new object and a pointer to it at [a]. *)
Lemma new_object H a n A : (exists l, load H a 8 = Some l) -> subset (range a 8) A -> exists H',
  store (H ++ [OMem (zeros n)]) a (ptr_cells (Some (length H, 0))) = Some H' /\
  touch A H H' /\ holds H' a (ptr_cells (Some (length H, 0))) /\ holds H' (length H, 0) (zeros n).
Proof.
  intros [l L] HA. set (H1 := H ++ [OMem (zeros n)]).
  assert (T1 : touch A H H1) by apply alloc_touch.
  destruct (store_ptr H1 a (Some (length H, 0))) as (H' & E & T & _ & K).
  { eapply extends_load; [apply (touch_ext _ _ _ T1)|exact L]. }
  exists H'. split; [exact E|]. split; [|split; [exact K|]].
  - eapply touch_trans; [exact T1|exact T|]. intros b o Hb. left. apply HA, Hb.
  - eapply frame_holds; [apply alloc_holds|reflexivity|exact T|]. rewrite zeros_length.
    intros b o [-> _] Hb. pose proof (range_born _ _ _ _ L _ _ Hb) as B. unfold born in B. cbn in B. lia.
Qed.

Section Step.
Variable fuel : nat.
Hypothesis IH1 : codec_ok fuel.
Hypothesis IH2 : struct_ok fuel.

Lemma step_static s t st b a v S P v' n e : static_fits s t = true ->
  rep (hp st) t a v S -> disjoint (range a (tsize t)) S -> pool (hp st) (pl st) P ->
  disjoint (union (range a (tsize t)) S) P -> bytes_okb b = true -> small b ->
  l_decode (static s) b v = DRet v' n e ->
  exists st', lift st (u_decode grow s (hp st) b a) = DRet st' n e /\ good (hp st) t a v' S P st'.
Proof.
  intros Hf R D1 Po D2 B Sm E.
  destruct (leaf_decode D other grow s t (hp st) b a v S n e v' Hf R D1 B Sm E) as (H' & S' & -> & R' & D1' & Q & T).
  exists (with_hp st H'). split; [reflexivity|]. exists S', P. cbn [with_hp hp pl].
  split; [exact R'|]. split; [exact D1'|]. split; [eapply frame_pool; [exact Po|exact T|apply disjoint_sym; exact D2]|].
  split; [|split; [exact Q|split; [intros b0 o0 Hb; left; exact Hb|]]].
  - intros b0 o0 [Hb|Hb] Hp; [eapply D2; [left; exact Hb|exact Hp]|]. apply Q in Hb as [Hb|Hb].
    + eapply D2; [right; exact Hb|exact Hp].
    + eapply born_unborn; [eapply pool_born; exact Po|exact Hp|exact Hb].
  - eapply touch_weaken; [exact T|]. intros b0 o0 Hb. left. left. exact Hb.
Qed.

(** Decoding behind a pointer at [a], once it points to [q]. *)
Lemma behind_ptr t a q H H' S1 S1' P P' st' : tsize t = 8 -> holds H a (ptr_cells (Some q)) ->
  disjoint (union (range a 8) S1) P -> disjoint (range a 8) S1 ->
  pool H' (pl st') P' -> hp st' = H' -> disjoint S1' P' ->
  subset S1' (union S1 (unborn H)) -> subset P' (union P (unborn H)) -> touch (union S1 P) H H' ->
  holds H' a (ptr_cells (Some q)) /\ (forall v', rep H' t a v' S1' -> good H t a v' S1 P st').
Proof.
  intros Ht K D2 D1 Po <- Dp Q1 Q2 T.
  assert (Ba : subset (range a 8) (born H)).
  { apply holds_load in K as L. rewrite ptr_cells_length in L. eapply range_born. exact L. }
  assert (Du : disjoint (range a 8) (union S1 P)).
  { apply disjoint_union_r; [exact D1|]. eapply disjoint_sub; [exact D2| |apply subset_refl]. intros b o Hb. left. exact Hb. }
  assert (Dn : forall X, subset X (union (union S1 P) (unborn H)) -> disjoint (range a 8) X).
  { intros X Q b o Hb Hx. apply Q in Hx as [Hx|Hx]; [eapply Du; eassumption|].
    eapply born_unborn; [exact Ba|exact Hb|exact Hx]. }
  split.
  - eapply frame_holds; [exact K|apply ptr_cells_length|exact T|exact Du].
  - intros v' R. exists S1', P'. rewrite Ht. split; [exact R|]. split; [|split; [exact Po|split; [|split; [exact Q1|split; [exact Q2|]]]]].
    + apply Dn. intros b o Hb. apply Q1 in Hb as [Hb|Hb]; [left; left; exact Hb|right; exact Hb].
    + apply disjoint_union_l; [|exact Dp]. apply Dn. intros b o Hb. apply Q2 in Hb as [Hb|Hb]; [left; right; exact Hb|right; exact Hb].
    + eapply touch_weaken; [exact T|]. intros b o [Hb|Hb]; left; [left; right; exact Hb|right; exact Hb].
Qed.

Lemma step_ptr e q st b a v S P v' n er : flat_fits D q e = true -> type_depth (TPtr e) <= Nat.max 1 (decls_depth D) ->
  rep (hp st) (TPtr e) a v S -> disjoint (range a 8) S -> pool (hp st) (pl st) P ->
  disjoint (union (range a 8) S) P -> bytes_okb b = true -> small b ->
  dec (Datatypes.S fuel) (PPtr e q) b v = DRet v' n er ->
  exists st', udec (Datatypes.S fuel) (PPtr e q) st b a = DRet st' n er /\ good (hp st) (TPtr e) a v' S P st'.
Proof.
  intros Hf Hd R D1 Po D2 B Sm E. cbn [type_depth] in Hd. rewrite dec_S in E. cbn [plook] in E. rewrite udec_S. cbn [plook].
  (* decoding once the pointer is there *)
  assert (Go : forall st2 p x S1, pl st2 = pl st -> holds (hp st2) a (ptr_cells (Some p)) -> box (hp st2) [(e, p)] [x] S1 ->
    disjoint (range a 8) S1 -> pool (hp st2) (pl st2) P -> disjoint (union (range a 8) S1) P ->
    dmap (fun x => VPtr (Some x)) (dec fuel q b x) = DRet v' n er ->
    exists st', udec fuel q st2 b p = DRet st' n er /\ good (hp st2) (TPtr e) a v' S1 P st').
  { intros st2 p x S1 Epl K Bx Da Po2 Dp Ed.
    apply box_inv in Bx as (x0 & vs & Sx & S2 & Ev & Rx & Bn & Ax & _ & ->). inversion Ev; subst x0 vs. apply box_inv_nil in Bn as [_ ->].
    destruct (dec fuel q b x) as [x' n' er'|c|] eqn:Edx; try discriminate. cbn [dmap] in Ed. inversion Ed; subst; clear Ed.
    destruct (IH1 q e st2 b p x Sx P x' n er (flat_codec_fits _ _ _ Hf) ltac:(lia) Rx (Ax eq_refl) Po2) as (st' & Eu & G); try assumption.
    { eapply disjoint_sub; [exact Dp| |apply subset_refl]. intros b0 o0 Hb. right. left. exact Hb. }
    exists st'. split; [exact Eu|]. destruct G as (S' & P' & R' & D1' & Po' & D2' & Q1 & Q2 & T).
    destruct (behind_ptr (TPtr e) a p (hp st2) (hp st') (union (union (range p (tsize e)) Sx) none)
      (union (union (range p (tsize e)) S') none) P P' st') as [K' F]; try assumption; try reflexivity.
    - apply disjoint_union_l; [exact D2'|apply disjoint_none_l].
    - intros b0 o0 [[Hb|Hb]|[]]; [left; left; left; exact Hb|]. apply Q1 in Hb as [Hb|Hb]; [left; left; right; exact Hb|right; exact Hb].
    - eapply touch_weaken; [exact T|]. intros b0 o0 [Hb|Hb]; left; [left; left; exact Hb|right; exact Hb].
    - apply F. eapply rep_ptr; [exact K'|]. apply box_cons; [exact R'|constructor|intros _; exact D1'|intros _; apply disjoint_none_r]. }
  inversion R; subst.
  - erewrite holds_ptr by eassumption. cbn [dbind alloc]. cbv zeta in E.
    destruct (new_object (hp st) a (tsize e) (union (union (range a 8) none) P)) as (H2 & Es & T & K & Z).
    { apply rep_load in R. exact R. }
    { intros b0 o0 Hb. left. left. exact Hb. }
    rewrite Es. cbn [dbind]. set (st2 := with_hp st H2).
    pose proof (rep_range _ _ _ _ _ _ _ _ R) as Ba. cbn [tsize] in Ba.
    assert (Nx : subset (range (length (hp st), 0) (tsize e)) (unborn (hp st))).
    { intros b0 o0 [-> _]. unfold unborn. cbn. lia. }
    assert (Po2 : pool (hp st2) (pl st2) P).
    { cbn. assert (Es2 : touch (union (range a 8) (unborn (hp st))) (hp st) H2).
      { destruct (store_ptr (hp st ++ [OMem (zeros (tsize e))]) a (Some (length (hp st), 0))) as (H3 & E3 & T3 & _).
        - apply rep_load in R as [l Ll]. eapply extends_load; [apply (touch_ext none), alloc_touch|exact Ll].
        - rewrite Es in E3. inversion E3; subst H3. eapply touch_trans; [apply alloc_touch|exact T3|]. intros b0 o0 Hb. left. left. exact Hb. }
      eapply frame_pool; [exact Po|exact Es2|]. apply disjoint_union_r.
      - apply disjoint_sym. eapply disjoint_sub; [exact D2| |apply subset_refl]. intros b0 o0 Hb. left. exact Hb.
      - apply born_unborn. eapply pool_born. exact Po. }
    destruct (Go st2 (length (hp st), 0) (zero e) (union (union (range (length (hp st), 0) (tsize e)) none) none)) as (st' & Eu & G); try assumption; try reflexivity.
    + apply box_cons; [apply zero_rep; exact Z|constructor|intros _; apply disjoint_none_r|intros _; apply disjoint_none_r].
    + eapply disjoint_sub; [apply born_unborn; exact Ba|apply subset_refl|]. intros b0 o0 [[Hb|[]]|[]]. apply Nx, Hb.
    + apply disjoint_union_l.
      * eapply disjoint_sub; [exact D2| |apply subset_refl]. intros b0 o0 Hb. left. exact Hb.
      * apply disjoint_sym. eapply disjoint_sub; [apply born_unborn; eapply pool_born; exact Po|apply subset_refl|]. intros b0 o0 [[Hb|[]]|[]]. apply Nx, Hb.
    + exists st'. split; [exact Eu|]. eapply good_weaken; [exact G|exact T| |intros b0 o0 Hb; left; exact Hb].
      intros b0 o0 [[Hb|[]]|[]]. right. apply Nx, Hb.
  - erewrite holds_ptr by eassumption. cbn [dbind]. eapply Go; try eassumption. reflexivity.
Qed.
(** *** Slices of the input *)
Lemma small_len (b b' : bytes) : length b' <= length b -> small b -> small b'.
Proof. unfold small, zlen. lia. Qed.
Lemma from_sub b n b' : from_ b n = Some b' -> bytes_okb b = true -> small b -> bytes_okb b' = true /\ small b'.
Proof.
  unfold from_. destruct (_ && _)%bool; [|discriminate]. intros E B Sm. inversion E. split; [apply bytes_okb_skipn, B|apply small_skipn, Sm].
Qed.
Lemma sub_sub b n m b' : sub_ b n m = Some b' -> bytes_okb b = true -> small b -> bytes_okb b' = true /\ small b'.
Proof.
  unfold sub_. destruct (_ && _)%bool; [|discriminate]. intros E B Sm. inversion E. split; [apply bytes_okb_firstn, bytes_okb_skipn, B|].
  apply small_firstn, small_skipn, Sm.
Qed.
Lemma field_data_sub b off wt d : field_data b off wt = FData d -> bytes_okb b = true -> small b -> bytes_okb d = true /\ small d.
Proof.
  unfold field_data. intros E B Sm.
  repeat match type of E with
  | context [match ?x with _ => _ end] => destruct x eqn:?; try discriminate
  end; inversion E; subst; eapply sub_sub; eassumption.
Qed.

(** *** A nil pointer that is filled in *)
Lemma fill_nil st a n P : (exists l, load (hp st) a 8 = Some l) -> pool (hp st) (pl st) P -> disjoint (range a 8) P ->
  exists H2, store (hp st ++ [OMem (zeros n)]) a (ptr_cells (Some (length (hp st), 0))) = Some H2 /\
  touch (range a 8) (hp st) H2 /\ holds H2 a (ptr_cells (Some (length (hp st), 0))) /\ holds H2 (length (hp st), 0) (zeros n) /\
  pool H2 (pl st) P /\
  (forall X, subset X (range (length (hp st), 0) n) -> subset X (unborn (hp st)) /\ disjoint (range a 8) X /\ disjoint (union (range a 8) X) P).
Proof.
  intros L Po Dp. destruct (new_object (hp st) a n (range a 8) L (subset_refl _)) as (H2 & E & T & K & Z).
  exists H2. split; [exact E|]. split; [exact T|]. split; [exact K|]. split; [exact Z|].
  split; [eapply frame_pool; [exact Po|exact T|apply disjoint_sym, Dp]|].
  intros X Q.
  assert (U : subset X (unborn (hp st))).
  { intros b o Hb. apply Q in Hb as [-> _]. unfold unborn. cbn. lia. }
  destruct L as [l L]. split; [exact U|]. split.
  - eapply disjoint_sub; [apply born_unborn; eapply range_born; exact L|apply subset_refl|exact U].
  - apply disjoint_union_l; [exact Dp|]. apply disjoint_sym.
    eapply disjoint_sub; [apply born_unborn; eapply pool_born; exact Po|apply subset_refl|exact U].
Qed.

(** *** Messages and options behind a pointer *)
Lemma struct_ptr_inv H k t a v S : flat_fits D (PStruct k) t = true -> rep H t a v S ->
  tsize t = 8 /\ key_ok D k /\
  (v = VPtr None /\ holds H a (ptr_cells None) /\ S = none \/
   exists p x, v = VPtr (Some x) /\ holds H a (ptr_cells (Some p)) /\ rep_struct H k p x S).
Proof.
  destruct k as [sid|? ? ? ?|q], t as [| | | | |[]| |]; try discriminate; cbn [flat_fits]; intros Hf R; btrue; inversion R; subst.
  - split; [reflexivity|]. split; [cbn; assumption|]. left. auto.
  - split; [reflexivity|]. split; [cbn; assumption|]. right. do 2 eexists. split; [reflexivity|]. split; [eassumption|]. cbn. eauto.
  - split; [reflexivity|]. split; [exact Logic.I|]. left. auto.
  - split; [reflexivity|]. split; [exact Logic.I|]. right. do 2 eexists. split; [reflexivity|]. split; [eassumption|]. cbn.
    assumption.
Qed.
Lemma struct_ptr_mk H k t a p x S : flat_fits D (PStruct k) t = true -> holds H a (ptr_cells (Some p)) -> rep_struct H k p x S ->
  rep H t a (VPtr (Some x)) S.
Proof.
  destruct k as [sid|? ? ? ?|q], t as [| | | | |[]| |]; try discriminate; cbn [flat_fits SpecUnsafe.rep_struct]; intros Hf K R; btrue.
  - destruct R as (xs & -> & R). econstructor; [assumption|exact K|exact R].
  - econstructor; [exact K|exact R].
Qed.

Lemma step_struct k t st b a v S P v' n er : flat_fits D (PStruct k) t = true ->
  rep (hp st) t a v S -> disjoint (range a (tsize t)) S -> pool (hp st) (pl st) P ->
  disjoint (union (range a (tsize t)) S) P -> bytes_okb b = true -> small b ->
  dec (Datatypes.S fuel) (PStruct k) b v = DRet v' n er ->
  exists st', udec (Datatypes.S fuel) (PStruct k) st b a = DRet st' n er /\ good (hp st) t a v' S P st'.
Proof.
  intros Hf R D1 Po D2 B Sm E. destruct (struct_ptr_inv _ _ _ _ _ _ Hf R) as (Ht & Hk & C). rewrite Ht in *.
  rewrite dec_S in E. cbn [plook] in E. rewrite udec_S. cbn [plook].
  assert (Go : forall st2 p x S1, holds (hp st2) a (ptr_cells (Some p)) -> rep_struct (hp st2) k p x S1 ->
    disjoint (range a 8) S1 -> pool (hp st2) (pl st2) P -> disjoint (union (range a 8) S1) P ->
    (let '(_, n, e) := decodeVarint b in
     match e with
     | Some e => DRet (VPtr (Some x)) n (Some e)
     | None => match from_ b n with
               | None => DCrash Bounds
               | Some b' => match decs fuel k b' 0 x with DRet x l e => DRet (VPtr (Some x)) (n + l)%Z e | DCrash c => DCrash c | DFuel => DFuel end
               end
     end) = DRet v' n er ->
    exists st', (let '(_, n, e) := decodeVarint b in
      match e with
      | Some e => DRet st2 n (Some e)
      | None => match from_ b n with
                | None => DCrash Bounds
                | Some b' => match udecs fuel k k st2 b' 0 p with DRet s l e => DRet s (n + l)%Z e | DCrash c => DCrash c | DFuel => DFuel end
                end
      end) = DRet st' n er /\ good (hp st2) t a v' S1 P st').
  { clear E. intros st2 p x S1 K Rx Da Po2 Dp E. destruct (decodeVarint b) as [[w m] [ev|]].
    - inversion E; subst. exists st2. split; [reflexivity|]. apply good_same; rewrite ?Ht; try assumption.
      eapply struct_ptr_mk; eassumption.
    - destruct (from_ b m) as [b'|] eqn:Eb; [|discriminate]. destruct (from_sub _ _ _ Eb B Sm) as [B' Sm'].
      destruct (decs fuel k b' 0 x) as [x' l e'|c|] eqn:Ed; try discriminate. inversion E; subst; clear E.
      destruct (IH2 k st2 b' 0%Z p x S1 P x' l er Hk Rx Po2) as (st' & -> & G); try assumption.
      { eapply disjoint_sub; [exact Dp| |apply subset_refl]. intros b0 o0 Hb. right. exact Hb. }
      exists st'. split; [reflexivity|]. destruct G as (S' & P' & R' & Po' & D2' & Q1 & Q2 & T).
      destruct (behind_ptr t a p (hp st2) (hp st') S1 S' P P' st') as [K' F]; try assumption; try reflexivity.
      apply F. eapply struct_ptr_mk; eassumption. }
  destruct C as [(-> & K & ->)|(p & x & -> & K & Rx)].
  - rewrite (holds_ptr _ _ _ K). cbn [dbind alloc].
    destruct (fill_nil st a (ssize k) P) as (H2 & Es & T & K2 & Z & Po2 & X).
    { apply rep_load in R. rewrite Ht in R. exact R. }
    { exact Po. }
    { eapply disjoint_sub; [exact D2| |apply subset_refl]. intros b0 o0 Hb. left. exact Hb. }
    rewrite Es. cbn [option_map dbind]. destruct (zero_placed D other true H2 k _ Z) as (S1 & R1 & _ & Q).
    destruct (X S1 Q) as (U & X1 & X2).
    destruct (Go (with_hp st H2) (length (hp st), 0) (zero_struct D k) S1) as (st' & Eu & G); try assumption.
    exists st'. split; [exact Eu|]. eapply good_weaken; [exact G| | |intros b0 o0 Hb; left; exact Hb].
    + rewrite Ht. eapply touch_weaken; [exact T|]. intros b0 o0 Hb. left. left. left. exact Hb.
    + intros b0 o0 Hb. right. apply U, Hb.
  - rewrite (holds_ptr _ _ _ K). cbn [dbind]. destruct st as [hh pp]. apply (Go {| hp := hh; pl := pp |} p x S); assumption.
Qed.

(** *** Structs *)
Lemma lookup_in k fn f : lookup_field (piget D k) fn = Some f -> In f (i_index (piget D k)).
Proof.
  unfold lookup_field. intros E. apply find_some in E as [E _]. apply in_rev in E. exact E.
Qed.

Lemma step_structs k st b off a x S P x' n er :
  key_ok D k -> rep_struct (hp st) k a x S -> pool (hp st) (pl st) P -> disjoint S P -> bytes_okb b = true -> small b ->
  decs (Datatypes.S fuel) k b off x = DRet x' n er ->
  exists st', udecs (Datatypes.S fuel) k k st b off a = DRet st' n er /\ goods (hp st) k a x' S P st'.
Proof.
  intros Hk R Po D2 B Sm E. rewrite decs_S in E. rewrite udecs_S.
  assert (Same : x' = x -> goods (hp st) k a x' S P st) by (intros ->; apply goods_same; assumption).
  destruct (off <? zlen b)%Z; [|inversion E; subst; eexists; split; [reflexivity|auto]].
  destruct (from_ b off) as [tl|]; [|discriminate].
  destruct (decodeTag tl) as [[[fn wt] m] [et|]]; [inversion E; subst; eexists; split; [reflexivity|auto]|].
  cbv zeta in E |- *. destruct (lookup_field (piget D k) fn) as [f|] eqn:Ef.
  2:{ destruct (skip_unknown b (off + m) wt) as [[o' [es|]]|c]; try discriminate.
      - inversion E; subst; eexists; split; [reflexivity|auto].
      - eapply IH2; eassumption. }
  destruct (negb (wt =? wireType f)%N); [inversion E; subst; eexists; split; [reflexivity|auto]|].
  destruct (field_data b (off + m) wt) as [d|o' es|] eqn:Ed; [|inversion E; subst; eexists; split; [reflexivity|auto]|discriminate].
  destruct (field_data_sub _ _ _ _ Ed B Sm) as [Bd Smd].
  apply lookup_in in Ef. destruct (piget_field D k f HD Hk Ef) as (t & Et & C & Hd). rewrite <- struct_types_key in Et.
  assert (N : forall q, k <> SOpt q) by (intros q ->; cbn in Ef; contradiction).
  assert (Rx : exists xs, x = VStruct xs /\ box (hp st) (placed D other k a) xs S).
  { destruct k; cbn [SpecUnsafe.rep_struct] in R; [exact R|exact R|exfalso; eapply N; reflexivity]. }
  destruct Rx as (xs & -> & Bx).
  destruct (box_focus _ _ _ _ _ _ _ _ _ _ Bx (placed_nth D other k a _ _ N Et)) as (y & Sy & F & Ey & Ry & A1 & A2 & Q & Back).
  specialize (A1 eq_refl). specialize (A2 eq_refl). cbn [get_field] in E. rewrite Ey in E.
  destruct (dec fuel (f_codec f) d y) as [y' m' e'|c|] eqn:Edy; try discriminate.
  set (fa := shift a (foffset D other k (f_idx f))) in *.
  assert (D2y : disjoint (union (range fa (tsize t)) Sy) P).
  { eapply disjoint_sub; [exact D2| |apply subset_refl]. intros b0 o0 Hb. apply Q. left. exact Hb. }
  assert (D2F : disjoint F P).
  { eapply disjoint_sub; [exact D2| |apply subset_refl]. intros b0 o0 Hb. apply Q. right. exact Hb. }
  assert (BF : subset F (born (hp st))).
  { eapply subset_trans; [|eapply box_born; exact Bx]. intros b0 o0 Hb. apply Q. right. exact Hb. }
  destruct (IH1 (f_codec f) t st d fa y Sy P y' m' e' C Hd Ry A1 Po D2y Bd Smd Edy) as (st1 & Eu & S1 & P1 & R1 & D11 & Po1 & D21 & Q1 & Q2 & T).
  unfold field_addr. fold fa. rewrite Eu.
  assert (DF : disjoint (union (range fa (tsize t)) S1) F).
  { apply disjoint_union_l; [eapply disjoint_sub; [exact A2| |apply subset_refl]; intros b0 o0 Hb; left; exact Hb|].
    intros b0 o0 Hb Hf. apply Q1 in Hb as [Hb|Hb]; [eapply A2; [right; exact Hb|exact Hf]|].
    eapply born_unborn; [exact BF|exact Hf|exact Hb]. }
  destruct (Back (hp st1) y' S1 R1 (fun _ => D11) (fun _ => DF) (touch_ext _ _ _ T)) as (S' & Bx' & Q').
  { eapply touch_same; [exact T|exact BF|]. apply disjoint_union_r; [apply disjoint_sym, A2|exact D2F]. }
  assert (G1 : goods (hp st) k a (VStruct (list_set xs (f_idx f) y')) S P st1).
  { exists S', P1. split; [|split; [exact Po1|split; [|split; [|split; [exact Q2|]]]]].
    - destruct k; [eexists; split; [reflexivity|exact Bx']..|exfalso; eapply N; reflexivity].
    - intros b0 o0 Hb Hp. apply Q' in Hb as [Hb|Hb]; [eapply D21; eassumption|].
      apply Q2 in Hp as [Hp|Hp]; [eapply D2F; eassumption|eapply born_unborn; [exact BF|exact Hb|exact Hp]].
    - intros b0 o0 Hb. apply Q' in Hb as [[Hb|Hb]|Hb]; [left; apply Q; left; left; exact Hb| |left; apply Q; right; exact Hb].
      apply Q1 in Hb as [Hb|Hb]; [left; apply Q; left; right; exact Hb|right; exact Hb].
    - eapply touch_weaken; [exact T|]. intros b0 o0 [Hb|Hb]; left; [left; apply Q; left; exact Hb|right; exact Hb]. }
  cbn [set_field] in E. destruct e' as [e'|].
  - inversion E; subst. eexists. split; [reflexivity|exact G1].
  - destruct G1 as (S2 & P2 & R2 & Po2 & D22 & Q3 & Q4 & T2).
    destruct (IH2 k st1 b (off + m + m')%Z a _ S2 P2 x' n er Hk R2 Po2 D22 B Sm E) as (st' & -> & G).
    exists st'. split; [reflexivity|]. eapply goods_weaken; eassumption.
Qed.
(** *** Slices *)
Lemma elems_cons e a n : elems e a (S n) = (e, a) :: elems e (shift a (tsize e)) n.
Proof.
  change (S n) with (1 + n). rewrite elems_app. cbn [elems seq map app]. rewrite Nat.mul_0_l, shift_0, Nat.mul_1_l. reflexivity.
Qed.
Lemma elems_load H e : forall n p vs S, box H (elems e p n) vs S -> exists l, load H p (n * tsize e) = Some l.
Proof.
  induction n as [|n IHn]; intros p vs S Bx; [exists []; reflexivity|]. rewrite elems_cons in Bx.
  apply box_inv in Bx as (v & vs' & S1 & S2 & _ & R & Bx & _). apply rep_load in R as [l L]. apply IHn in Bx as [l' L'].
  exists (l ++ l'). cbn [Nat.mul]. eapply load_app; eassumption.
Qed.
Lemma zero_elems H e : forall m a, holds H a (zeros (m * tsize e)) -> exists S, box H (elems e a m) (repeat (zero e) m) S /\ subset S (range a (m * tsize e)).
Proof.
  induction m as [|m IHm]; intros a Z; [exists none; split; [constructor|intros b o []]|].
  destruct (IHm (shift a (tsize e))) as (S & Bx & Q).
  { eapply (holds_zeros other); [exact Z|]. cbn [Nat.mul]. lia. }
  assert (Z1 : holds H a (zeros (tsize e))).
  { rewrite <- (shift_0 a). eapply (holds_zeros other); [exact Z|]. cbn [Nat.mul]. lia. }
  eexists. split.
  - rewrite elems_cons. cbn [repeat]. apply box_cons; [apply zero_rep; exact Z1|exact Bx|intros _; apply disjoint_none_r|].
    intros _ b o [Hb|[]] Hs. apply Q in Hs. destruct a as [x o0], Hb as [-> Hb], Hs as [_ Hs]. cbn [shift fst snd] in *. lia.
  - intros b o [[Hb|[]]|Hb].
    + destruct Hb as [-> Hb]. split; [reflexivity|]. cbn [Nat.mul]. lia.
    + apply Q in Hb. destruct a as [x o0], Hb as [-> Hb]. split; [reflexivity|]. cbn [shift fst snd Nat.mul] in *. lia.
Qed.
(** The elements copied to a new array, and zeros after them. *)
Lemma grow_box H H2 e x m : extends H H2 -> length H <= x -> forall items p o S,
  box H (elems e p (length items)) items S ->
  load H2 (x, o) (length items * tsize e) = load H p (length items * tsize e) ->
  holds H2 (x, o + length items * tsize e) (zeros (m * tsize e)) -> same_on S H H2 ->
  exists S2, box H2 (elems e (x, o) (length items + m)) (items ++ repeat (zero e) m) S2 /\
    subset S2 (union (range (x, o) ((length items + m) * tsize e)) S).
Proof.
  intros X Lx. induction items as [|v items IHi]; intros p o S Bx L Z Sa.
  - cbn [length Nat.mul] in Z. rewrite Nat.add_0_r in Z. destruct (zero_elems _ _ _ _ Z) as (S2 & Bz & Q). exists S2. split; [exact Bz|].
    intros b o0 Hb. left. apply Q, Hb.
  - cbn [length] in *. rewrite elems_cons in Bx. cbn [Nat.mul] in L, Z.
    apply box_inv in Bx as (v0 & vs' & S1 & S2 & Ev & R & Bx & A1 & A2 & ->). inversion Ev; subst v0 vs'; clear Ev.
    assert (Lo : exists l, load H p (tsize e + length items * tsize e) = Some l).
    { apply rep_load in R as [l0 L0]. apply elems_load in Bx as [l' L']. exists (l0 ++ l'). eapply load_app; eassumption. }
    pose proof (load_eq_part H H2 p (x, o) _ 0 (tsize e) Lo L ltac:(lia)) as L1. rewrite !shift_0 in L1.
    pose proof (load_eq_part H H2 p (x, o) _ (tsize e) (length items * tsize e) Lo L ltac:(lia)) as L2.
    replace (shift (x, o) (tsize e)) with (x, o + tsize e) in L2 by reflexivity.
    destruct (IHi (shift p (tsize e)) (o + tsize e) S2) as (S3 & B3 & Q3); try assumption.
    { rewrite <- Nat.add_assoc. exact Z. }
    { eapply same_on_sub; [exact Sa|]. intros b o0 Hb. right. exact Hb. }
    assert (R' : rep H2 e (x, o) v S1).
    { eapply rep_move; [exact R|exact X|exact L1|]. eapply same_on_sub; [exact Sa|]. intros b o0 Hb. left. right. exact Hb. }
    assert (B1 : subset S1 (born H)) by (eapply rep_born; exact R).
    assert (B2 : subset S2 (born H)) by (eapply box_born; exact Bx).
    assert (U : forall o1 n b o0, range (x, o1) n b o0 -> unborn H b o0) by (intros o1 n b o0 [-> _]; exact Lx).
    eexists. split.
    + cbn [Nat.add]. rewrite elems_cons. cbn [app]. apply box_cons; [exact R'|exact B3| |].
      * intros _. apply disjoint_sym. eapply disjoint_sub; [apply born_unborn; exact B1|apply subset_refl|]. intros b o0 Hb. eapply U, Hb.
      * intros _ b o0 [Hb|Hb] Hs; apply Q3 in Hs as [Hs|Hs].
        -- destruct Hb as [_ Hb], Hs as [_ Hs]. cbn [fst snd] in *. lia.
        -- eapply born_unborn; [exact B2|exact Hs|eapply U, Hb].
        -- eapply born_unborn; [exact B1|exact Hb|eapply U, Hs].
        -- eapply (A2 eq_refl); [right; exact Hb|exact Hs].
    + intros b o0 [[Hb|Hb]|Hb].
      * left. destruct Hb as [-> Hb]. split; [reflexivity|]. cbn [fst snd] in *. cbn [Nat.add Nat.mul]. lia.
      * right. left. right. exact Hb.
      * apply Q3 in Hb as [Hb|Hb]; [|right; right; exact Hb]. left. destruct Hb as [-> Hb]. split; [reflexivity|].
        cbn [fst snd] in *. cbn [Nat.add Nat.mul]. lia.
Qed.

Lemma list_set_mid {A} (l1 l2 : list A) x y : list_set (l1 ++ x :: l2) (length l1) y = l1 ++ y :: l2.
Proof. apply list_set_app. Qed.

Lemma step_slice e q st b a v S P v' n er : flat_fits D q e = true -> type_depth (TSlice e) <= Nat.max 1 (decls_depth D) ->
  rep (hp st) (TSlice e) a v S -> disjoint (range a 24) S -> pool (hp st) (pl st) P ->
  disjoint (union (range a 24) S) P -> bytes_okb b = true -> small b ->
  dec (Datatypes.S fuel) (PSlice e q) b v = DRet v' n er ->
  exists st', udec (Datatypes.S fuel) (PSlice e q) st b a = DRet st' n er /\ good (hp st) (TSlice e) a v' S P st'.
Proof.
  intros Hf Hd R D1 Po D2 B Sm E. cbn [type_depth] in Hd. rewrite dec_S in E. cbn [plook] in E. rewrite udec_S. cbn [plook].
  assert (Go : forall st2 p items slot spare S1, holds (hp st2) a (hdr (Some p) (length items) (length items + Datatypes.S (length spare))) ->
    box (hp st2) (elems e p (length items + Datatypes.S (length spare))) (items ++ slot :: spare) S1 ->
    disjoint (range a 24) S1 -> pool (hp st2) (pl st2) P -> disjoint (union (range a 24) S1) P ->
    match dec fuel q b slot with
    | DRet x n None => DRet (VSlice true (items ++ [x]) spare) n None
    | DRet x n (Some e) => DRet (VSlice true items (x :: spare)) n (Some e)
    | r => r
    end = DRet v' n er ->
    exists st', match udec fuel q st2 b (shift p (length items * tsize e)) with
      | DRet s n None => dbind (store (hp s) (shift a 8) (len_cells (length items + 1))) (fun H => DRet (with_hp s H) n None)
      | r => r
      end = DRet st' n er /\ good (hp st2) (TSlice e) a v' S1 P st').
  { clear E. intros st2 p items slot spare S1 K Bx Da Po2 Dp E.
    set (j := length items) in *. set (N := j + Datatypes.S (length spare)) in *.
    assert (Nj : nth_error (elems e p N) j = Some (e, shift p (j * tsize e))) by (apply elems_nth; unfold N; lia).
    destruct (box_focus _ _ _ _ _ _ _ _ _ _ Bx Nj) as (y & Sy & F & Ey & Ry & A1 & A2 & Q & Back).
    specialize (A1 eq_refl). specialize (A2 eq_refl).
    unfold j in Ey. rewrite nth_error_app2, Nat.sub_diag in Ey by lia. cbn in Ey. inversion Ey; subst y; clear Ey.
    destruct (dec fuel q b slot) as [y' m' e'|c|] eqn:Edy; try discriminate.
    set (fa := shift p (j * tsize e)) in *.
    assert (DaP : disjoint (range a 24) P).
    { eapply disjoint_sub; [exact Dp| |apply subset_refl]. intros b0 o0 Hb. left. exact Hb. }
    assert (DSP : disjoint S1 P).
    { eapply disjoint_sub; [exact Dp| |apply subset_refl]. intros b0 o0 Hb. right. exact Hb. }
    assert (D2y : disjoint (union (range fa (tsize e)) Sy) P).
    { eapply disjoint_sub; [exact DSP| |apply subset_refl]. intros b0 o0 Hb. apply Q. left. exact Hb. }
    assert (D2F : disjoint F P).
    { eapply disjoint_sub; [exact DSP| |apply subset_refl]. intros b0 o0 Hb. apply Q. right. exact Hb. }
    assert (BF : subset F (born (hp st2))).
    { eapply subset_trans; [|eapply box_born; exact Bx]. intros b0 o0 Hb. apply Q. right. exact Hb. }
    assert (Ba : subset (range a 24) (born (hp st2))).
    { apply holds_load in K as L. rewrite hdr_length in L. eapply range_born. exact L. }
    destruct (IH1 q e st2 b fa slot Sy P y' m' e' (flat_codec_fits _ _ _ Hf) ltac:(lia) Ry A1 Po2 D2y B Sm Edy)
      as (st1 & Eu & S2 & P1 & R1 & D11 & Po1 & D21 & Q1 & Q2 & T).
    rewrite Eu.
    assert (DF : disjoint (union (range fa (tsize e)) S2) F).
    { apply disjoint_union_l; [eapply disjoint_sub; [exact A2| |apply subset_refl]; intros b0 o0 Hb; left; exact Hb|].
      intros b0 o0 Hb Hf0. apply Q1 in Hb as [Hb|Hb]; [eapply A2; [right; exact Hb|exact Hf0]|].
      eapply born_unborn; [exact BF|exact Hf0|exact Hb]. }
    destruct (Back (hp st1) y' S2 R1 (fun _ => D11) (fun _ => DF) (touch_ext _ _ _ T)) as (S' & Bx' & Q').
    { eapply touch_same; [exact T|exact BF|]. apply disjoint_union_r; [apply disjoint_sym, A2|exact D2F]. }
    unfold j in Bx'. rewrite list_set_mid in Bx'. fold j in Bx'.
    assert (QS : subset S' (union S1 (unborn (hp st2)))).
    { intros b0 o0 Hb. apply Q' in Hb as [[Hb|Hb]|Hb]; [left; apply Q; left; left; exact Hb| |left; apply Q; right; exact Hb].
      apply Q1 in Hb as [Hb|Hb]; [left; apply Q; left; right; exact Hb|right; exact Hb]. }
    assert (DaS : disjoint (range a 24) S').
    { intros b0 o0 Hb Hs. apply QS in Hs as [Hs|Hs]; [eapply Da; eassumption|eapply born_unborn; [exact Ba|exact Hb|exact Hs]]. }
    assert (DaP1 : disjoint (range a 24) P1).
    { intros b0 o0 Hb Hs. apply Q2 in Hs as [Hs|Hs]; [eapply DaP; eassumption|eapply born_unborn; [exact Ba|exact Hb|exact Hs]]. }
    assert (DSP1 : disjoint S' P1).
    { intros b0 o0 Hb Hp. apply Q' in Hb as [Hb|Hb]; [eapply D21; eassumption|].
      apply Q2 in Hp as [Hp|Hp]; [eapply D2F; eassumption|eapply born_unborn; [exact BF|exact Hb|exact Hp]]. }
    assert (TA : touch (union (union (range a 24) S1) P) (hp st2) (hp st1)).
    { eapply touch_weaken; [exact T|]. intros b0 o0 [Hb|Hb]; left; [left; right; apply Q; left; exact Hb|right; exact Hb]. }
    assert (K1 : holds (hp st1) a (hdr (Some p) j N)).
    { eapply frame_holds; [exact K|apply hdr_length|exact T|]. apply disjoint_union_r; [|exact DaP].
      eapply disjoint_sub; [exact Da|apply subset_refl|]. intros b0 o0 Hb. apply Q. left. exact Hb. }
    destruct e' as [e'|].
    - inversion E; subst. exists st1. split; [reflexivity|]. exists S', P1. cbn [tsize].
      split; [eapply rep_slice; [exact K1|exact Bx']|]. split; [exact DaS|]. split; [exact Po1|].
      split; [apply disjoint_union_l; assumption|]. split; [exact QS|]. split; [exact Q2|exact TA].
    - inversion E; subst; clear E.
      unfold hdr in K1. apply holds_app in K1 as [Kp K1]. rewrite ptr_cells_length in K1. apply holds_app in K1 as [Kl Kc].
      rewrite len_cells_length, shift_shift in Kc.
      destruct (store_spec (len_cells (j + 1)) (hp st1) (shift a 8)) as (H3 & E3 & T3 & _ & K3).
      { rewrite len_cells_length. apply holds_load in Kl. rewrite len_cells_length in Kl. eauto. }
      rewrite len_cells_length in T3.
      assert (Sub : subset (range (shift a 8) 8) (range a 24)).
      { intros b0 o0 [-> Hb]. split; [reflexivity|]. cbn [shift fst snd] in *. destruct a; cbn [shift fst snd] in *. lia. }
      exists (with_hp st1 H3). rewrite E3. split; [reflexivity|]. exists S', P1. cbn [tsize with_hp hp pl].
      split; [|split; [exact DaS|split; [|split; [apply disjoint_union_l; assumption|split; [exact QS|split; [exact Q2|]]]]]].
      + eapply (rep_slice _ _ _ _ _ _ p (items ++ [y']) spare).
        * rewrite app_length. cbn [length]. unfold hdr. replace (length items + 1 + length spare) with N by (unfold N, j; lia).
          apply holds_app. rewrite ptr_cells_length. split.
          { eapply frame_holds; [exact Kp|apply ptr_cells_length|exact T3|].
            destruct a as [x o]. intros b0 o0 [_ H1] [_ H2]. cbn [shift fst snd] in *. lia. }
          apply holds_app. split; [exact K3|]. rewrite len_cells_length, shift_shift.
          eapply frame_holds; [exact Kc|apply len_cells_length|exact T3|].
          destruct a as [x o]. intros b0 o0 [_ H1] [_ H2]. cbn [shift fst snd] in *. lia.
        * rewrite app_length. cbn [length]. replace (length items + 1 + length spare) with N by (unfold N, j; lia).
          rewrite <- app_assoc. cbn [app]. eapply frame_box; [exact Bx'|exact T3|].
          apply disjoint_sym. eapply disjoint_sub; [exact DaS|exact Sub|apply subset_refl].
      + eapply frame_pool; [exact Po1|exact T3|]. apply disjoint_sym. eapply disjoint_sub; [exact DaP1|exact Sub|apply subset_refl].
      + eapply touch_trans; [exact TA|exact T3|]. intros b0 o0 Hb. left. left. left. apply Sub, Hb. }
  (* growing *)
  assert (Grow : forall p items S1, S1 = S -> holds (hp st) a (hdr p (length items) (length items)) ->
    (items = [] \/ exists p', p = Some p' /\ box (hp st) (elems e p' (length items)) items S) ->
    forall slot spare, grow_spare e (length items) = slot :: spare ->
    match dec fuel q b slot with
    | DRet x n None => DRet (VSlice true (items ++ [x]) spare) n None
    | DRet x n (Some e) => DRet (VSlice true items (x :: spare)) n (Some e)
    | r => r
    end = DRet v' n er ->
    exists st', dbind (match growSlice e (hp st) p (length items) (length items) with
        | Some (d, cap', H) => option_map (fun H => (Some d, H)) (store H a (hdr (Some d) (length items) cap'))
        | None => None
        end) (fun g => let '(p, H) := g in
        dbind (index p (length items) (alignedSize e)) (fun e =>
        match udec fuel q (with_hp st H) b e with
        | DRet s n None => dbind (store (hp s) (shift a 8) (len_cells (length items + 1))) (fun H => DRet (with_hp s H) n None)
        | r => r
        end)) = DRet st' n er /\ good (hp st) (TSlice e) a v' S P st').
  { clear E. intros p items S1 _ K Hp slot spare Esp E.
    set (cap' := match 2 * length items with O => 10 | c => c end).
    assert (Hc : cap' = length items + Datatypes.S (length spare)).
    { unfold grow_spare in Esp. apply (f_equal (@length _)) in Esp. rewrite repeat_length in Esp. cbn [length] in Esp. fold cap' in Esp. lia. }
    assert (Esp' : repeat (zero e) (Datatypes.S (length spare)) = slot :: spare).
    { rewrite <- Esp. unfold grow_spare. fold cap'. f_equal. lia. }
    set (X := length (hp st)). set (H1 := hp st ++ [OMem (zeros (cap' * tsize e))]).
    assert (T1 : touch none (hp st) H1) by apply alloc_touch.
    assert (Z1 : holds H1 (X, 0) (zeros (cap' * tsize e))) by apply alloc_holds.
    assert (Ba : subset (range a 24) (born (hp st))).
    { apply holds_load in K as L. rewrite hdr_length in L. eapply range_born. exact L. }
    (* the copy *)
    assert (Copy : exists H2, growSlice e (hp st) p (length items) (length items) = Some ((X, 0), cap', H2) /\
      touch none (hp st) H2 /\ exists S2, box H2 (elems e (X, 0) cap') (items ++ slot :: spare) S2 /\
        subset S2 (union (unborn (hp st)) S)).
    { unfold growSlice. fold cap'. cbn [alloc]. fold X H1. destruct Hp as [->|(p' & -> & Bx)].
      - exists H1. cbn [length]. split; [reflexivity|]. split; [exact T1|]. cbn [length Nat.add] in Hc.
        rewrite Hc in *. destruct (zero_elems _ _ _ _ Z1) as (S2 & Bz & Qz).
        rewrite Esp' in Bz. exists S2. split; [exact Bz|]. intros b0 o0 Hb. left. apply Qz in Hb as [-> _]. unfold unborn. cbn. lia.
      - destruct (elems_load _ _ _ _ _ _ Bx) as [l0 L0]. set (M := length items * tsize e) in *.
        assert (L1 : load H1 p' M = Some l0).
        { rewrite <- L0. eapply same_load; [|apply subset_refl]. eapply touch_same; [exact T1|eapply range_born; exact L0|apply disjoint_none_r]. }
        pose proof (load_length _ _ _ _ L0) as Ll.
        assert (LM : M <= cap' * tsize e) by (unfold M; rewrite Hc; nia).
        assert (Lx : exists l, load H1 (X, 0) M = Some l).
        { apply holds_load in Z1. rewrite zeros_length in Z1. eexists. rewrite <- (shift_0 (X, 0)). eapply load_part; [exact Z1|]. lia. }
        destruct (store_spec l0 H1 (X, 0)) as (H2 & E2 & T2 & _ & K2); [rewrite Ll; exact Lx|]. rewrite Ll in T2.
        assert (T12 : touch none (hp st) H2).
        { eapply touch_trans; [exact T1|exact T2|]. intros b0 o0 [-> _]. right. unfold unborn. cbn. lia. }
        assert (Z2 : holds H2 (X, 0 + M) (zeros (Datatypes.S (length spare) * tsize e))).
        { change (X, 0 + M) with (shift (X, 0) M). eapply frame_holds; [|apply zeros_length|exact T2|].
          - eapply (holds_zeros other); [exact Z1|]. unfold M. rewrite Hc. lia.
          - intros b0 o0 [_ Ha] [_ Hb]. cbn [shift fst snd] in *. lia. }
        assert (BS : subset S (born (hp st))) by (eapply box_born; exact Bx).
        destruct (grow_box (hp st) H2 e X (Datatypes.S (length spare)) (touch_ext _ _ _ T12) (le_n _) items p' 0 S Bx) as (S2 & B2 & Q2).
        { fold M. rewrite L0. unfold holds in K2. rewrite Ll in K2. exact K2. }
        { exact Z2. }
        { eapply touch_same; [exact T12|exact BS|apply disjoint_none_r]. }
        rewrite Esp' in B2. exists H2. split.
        { unfold move. fold M. rewrite L1, E2. cbn [option_map]. destruct (length items) eqn:El; [|reflexivity].
          assert (M = 0) by (unfold M; reflexivity). rewrite H in Ll. apply length_zero_iff_nil in Ll. subst l0. cbn in E2. inversion E2. reflexivity. }
        split; [exact T12|]. exists S2. rewrite Hc. split; [exact B2|].
        intros b0 o0 Hb. apply Q2 in Hb as [[-> _]|Hb]; [left; unfold unborn; cbn; lia|right; exact Hb]. }
    destruct Copy as (H2 & -> & T2 & S2 & B2 & Q2).
    assert (DaS2 : disjoint (range a 24) S2).
    { intros b0 o0 Hb Hs. apply Q2 in Hs as [Hs|Hs]; [eapply born_unborn; [exact Ba|exact Hb|exact Hs]|eapply D1; eassumption]. }
    destruct (store_spec (hdr (@Some addr (X, 0)) (length items) cap') H2 a) as (H3 & E3 & T3 & _ & K3); rewrite hdr_length in *.
    { apply holds_load in K as L. rewrite hdr_length in L. eapply extends_load; [exact (touch_ext _ _ _ T2)|exact L]. }
    cbv beta iota. rewrite E3. cbn [option_map dbind index]. rewrite aligned.
    assert (T13 : touch (range a 24) (hp st) H3).
    { eapply touch_trans; [|exact T3|intros b0 o0 Hb; left; exact Hb]. eapply touch_weaken; [exact T2|]. intros b0 o0 []. }
    assert (DP : disjoint P (range a 24)).
    { apply disjoint_sym. eapply disjoint_sub; [exact D2| |apply subset_refl]. intros b0 o0 Hb. left. exact Hb. }
    rewrite Hc in *.
    destruct (Go (with_hp st H3) (X, 0) items slot spare S2) as (st' & Eu & G); try assumption.
    { eapply frame_box; [exact B2|exact T3|apply disjoint_sym; exact DaS2]. }
    { cbn. eapply frame_pool; [exact Po|exact T13|exact DP]. }
    { intros b0 o0 [Hb|Hb] HP; [eapply DP; eassumption|]. apply Q2 in Hb as [Hb|Hb].
      - eapply born_unborn; [eapply pool_born; exact Po|exact HP|exact Hb].
      - eapply D2; [right; exact Hb|exact HP]. }
    exists st'. split; [exact Eu|]. eapply good_weaken; [exact G| | |intros b0 o0 Hb; left; exact Hb].
    - cbn [tsize]. eapply touch_weaken; [exact T13|]. intros b0 o0 Hb. left. left. left. exact Hb.
    - intros b0 o0 Hb. apply Q2 in Hb as [Hb|Hb]; [right; exact Hb|left; exact Hb]. }
  inversion R; subst; match goal with K : holds _ a _ |- _ => rewrite (hdr_ld _ _ _ _ _ K); rename K into Kh end; cbn [dbind].
  - cbn [Nat.eqb]. cbv zeta in E. cbn [length] in E. destruct (grow_spare e 0) as [|slot spare] eqn:Es; [discriminate|]. cbn [orb] in E.
    apply (Grow None [] none eq_refl Kh (or_introl eq_refl) slot spare Es). exact E.
  - match goal with K : SpecUnsafe.box _ _ _ _ (elems _ _ _) _ _ |- _ => rename K into Bx end. destruct spare as [|slot spare].
    + cbn [length] in *. rewrite Nat.add_0_r in *. rewrite app_nil_r in *. rewrite Nat.eqb_refl.
      cbv zeta in E. destruct (grow_spare e (length items)) as [|slot spare] eqn:Es; [discriminate|]. cbn [orb] in E.
      apply (Grow (Some p) items S eq_refl Kh (or_intror (ex_intro _ p (conj eq_refl Bx))) slot spare Es). exact E.
    + cbn [length] in *. replace (length items =? length items + Datatypes.S (length spare)) with false by (symmetry; apply Nat.eqb_neq; lia).
      cbv zeta in E. cbn [orb] in E. cbn [dbind index]. rewrite aligned. destruct st as [hh pp].
      apply (Go {| hp := hh; pl := pp |} p items slot spare S Kh Bx D1 Po D2 E).
Qed.
(** *** Maps *)
Lemma map_same A H H' m l : touch A H H' -> nth_error H m = Some (OMap l) -> disjoint (whole m) A -> nth_error H' m = Some (OMap l).
Proof.
  intros [_ T] E Dj. assert (L : m < length H) by (apply nth_error_Some; congruence).
  assert (Q : spot H' m 0 = spot H m 0) by (apply T; [exact L|intros Ha; eapply Dj; [reflexivity|exact Ha]]).
  unfold spot in Q. rewrite E in Q. destruct (nth_error H' m) as [[c|s|l']|]; try discriminate.
  - destruct (nth_error c 0); discriminate.
  - inversion Q. reflexivity.
Qed.
Lemma set_map_touch A H m l l' : nth_error H m = Some (OMap l) -> subset (whole m) A -> touch A H (list_set H m (OMap l')).
Proof.
  intros E Q. assert (L : m < length H) by (apply nth_error_Some; congruence). split.
  - intros b. destruct (Nat.eq_dec m b) as [->|N].
    + rewrite E. rewrite nth_set_same by exact L. eauto.
    + rewrite nth_set_other by exact N. destruct (nth_error H b) as [[]|]; eauto.
  - intros b o _ Na. unfold spot. rewrite nth_set_other; [reflexivity|]. intros ->. apply Na, Q. reflexivity.
Qed.
Lemma flat_nth kxs : forall j k x, nth_error kxs j = Some (k, x) -> nth_error (flat kxs) (2 * j) = Some k /\ nth_error (flat kxs) (2 * j + 1) = Some x.
Proof.
  induction kxs as [|[k' x'] kxs IH]; intros [|j] k x E; cbn in E; try discriminate.
  - inversion E; subst. auto.
  - apply IH in E. replace (2 * Datatypes.S j) with (Datatypes.S (Datatypes.S (2 * j))) by lia. exact E.
Qed.
Lemma flat_set kxs : forall j k x, list_set (list_set (flat kxs) (2 * j) k) (2 * j + 1) x = flat (list_set kxs j (k, x)).
Proof.
  induction kxs as [|[k' x'] kxs IH]; intros [|j] k x; try reflexivity.
  replace (2 * Datatypes.S j) with (Datatypes.S (Datatypes.S (2 * j))) by lia.
  change (flat ((k', x') :: kxs)) with (k' :: x' :: flat kxs). cbn [list_set Nat.add].
  change (flat ((k', x') :: list_set kxs j (k, x))) with (k' :: x' :: flat (list_set kxs j (k, x))). rewrite <- IH. reflexivity.
Qed.
Lemma slots_nth k e l : forall j x y, nth_error l j = Some (x, y) ->
  nth_error (slots k e l) (2 * j) = Some (TScalar k, (x, 0)) /\ nth_error (slots k e l) (2 * j + 1) = Some (e, (y, 0)).
Proof.
  induction l as [|[x' y'] l IH]; intros [|j] x y E; cbn in E; try discriminate.
  - inversion E; subst. auto.
  - apply IH in E. replace (2 * Datatypes.S j) with (Datatypes.S (Datatypes.S (2 * j))) by lia. exact E.
Qed.
Lemma find_key_ok H k e key x : forall l kxs S, length l = length kxs -> box H (slots k e l) (flat kxs) S ->
  (find_key H k key l = Some None /\ map_assign kxs key x = kxs ++ [(key, x)]) \/
  (exists j xa ya, nth_error l j = Some (xa, ya) /\ find_key H k key l = Some (Some (xa, ya)) /\
     map_assign kxs key x = list_set kxs j (key, x)).
Proof.
  induction l as [|[xa ya] l IH]; intros [|[k' x'] kxs] S L Bx; try discriminate; [left; auto|].
  cbn [slots flat flat_map app fst snd] in Bx.
  apply box_inv in Bx as (v1 & vs1 & S1 & S2 & E1 & R1 & Bx & _). inversion E1; subst v1 vs1.
  apply box_inv in Bx as (v2 & vs2 & S3 & S4 & E2 & R2 & Bx & _). inversion E2; subst v2 vs2.
  cbn [find_key map_assign]. rewrite (rep_ld_k _ _ _ _ _ _ _ _ R1). destruct (key_eqb k' key).
  - right. exists 0, xa, ya. split; [reflexivity|]. split; reflexivity.
  - cbn in L. destruct (IH kxs S4 ltac:(lia) Bx) as [[F M]|(j & xb & yb & N & F & M)].
    + left. rewrite F, M. split; reflexivity.
    + right. exists (Datatypes.S j), xb, yb. split; [exact N|]. split; [exact F|]. cbn [list_set]. rewrite M. reflexivity.
Qed.
Lemma scalar_set H k a v S : rep H (TScalar k) a v S -> S = none.
Proof. intros R. inversion R; reflexivity. Qed.

Lemma assign_ok H k e m l kxs S1 ka va kv xv Sv : nth_error H m = Some (OMap l) -> length l = length kxs ->
  box H (slots k e l) (flat kxs) S1 -> disjoint (whole m) S1 ->
  rep H (TScalar k) ka kv none -> rep H e va xv Sv ->
  disjoint (range ka (kind_size k)) (union (whole m) S1) -> disjoint (union (range va (tsize e)) Sv) (union (whole m) S1) ->
  exists y H5 H6, mapassign k e H m ka = Some (y, H5) /\ move H5 (y, 0) va (tsize e) = Some H6 /\
    touch (union (whole m) S1) H H6 /\ exists l' S6, nth_error H6 m = Some (OMap l') /\
      length l' = length (map_assign kxs kv xv) /\ box H6 (slots k e l') (flat (map_assign kxs kv xv)) S6 /\
      subset S6 (union (union S1 Sv) (unborn H)) /\ disjoint (whole m) S6.
Proof.
  intros Em Ll Bx Dm Rk Rv Dk Dv. set (A := union (whole m) S1).
  assert (BA : subset A (born H)).
  { apply subset_union; [|eapply box_born; exact Bx]. intros b o ->. unfold born. apply nth_error_Some. congruence. }
  pose proof (rep_range _ _ _ _ _ _ _ _ Rk) as Bk. pose proof (rep_range _ _ _ _ _ _ _ _ Rv) as Bv.
  pose proof (rep_born _ _ _ _ _ _ _ _ Rv) as BSv. cbn [tsize] in Bk.
  unfold mapassign. rewrite Em, (rep_ld_k _ _ _ _ _ _ _ _ Rk). destruct (rep_load _ _ _ _ _ _ _ _ Rk) as [cs Lk]. cbn [tsize] in Lk. rewrite Lk.
  pose proof (load_length _ _ _ _ Lk) as Lcs. destruct (rep_load _ _ _ _ _ _ _ _ Rv) as [cv Lv]. pose proof (load_length _ _ _ _ Lv) as Lcv.
  destruct (find_key_ok H k e kv xv l kxs S1 Ll Bx) as [[-> Ma]|(j & xa & ya & Nl & -> & Ma)].
  - (* a new key *)
    set (x := length H). set (y := length (H ++ [OMem cs])). cbn [alloc]. fold x y.
    set (H1 := H ++ [OMem cs]). set (H2 := H1 ++ [OMem (zeros (tsize e))]). set (H3 := list_set H2 m (OMap (l ++ [(x, y)]))).
    assert (T1 : touch none H H1) by apply alloc_touch. assert (T2 : touch none H1 H2) by apply alloc_touch.
    assert (X : x = length H) by reflexivity.
    assert (Y : y = Datatypes.S x) by (unfold y, x; rewrite app_length; cbn; lia).
    assert (E2 : nth_error H2 m = Some (OMap l)) by (eapply map_same; [exact T2|eapply map_same; [exact T1|exact Em|apply disjoint_none_r]|apply disjoint_none_r]).
    assert (T3 : touch (whole m) H2 H3) by (eapply set_map_touch; [exact E2|apply subset_refl]).
    assert (Lm : m < length H) by (apply nth_error_Some; congruence).
    assert (T03 : touch (whole m) H H3).
    { eapply touch_trans; [|exact T3|intros b o Hb; left; exact Hb]. eapply touch_trans; [eapply touch_weaken; [exact T1|intros b o []]|exact T2|intros b o []]. }
    assert (Lv3 : load H3 va (tsize e) = Some cv).
    { rewrite <- Lv. eapply same_load; [|apply subset_refl]. eapply touch_same; [exact T03|exact Bv|].
      eapply disjoint_sub; [exact Dv| |]; intros b o Hb; left; exact Hb. }
    assert (Zy : holds H3 (y, 0) (zeros (tsize e))).
    { eapply frame_holds; [apply alloc_holds|reflexivity|exact T3|]. intros b o [-> _] E. unfold whole in E. cbn [fst] in E. fold y in E. lia. }
    destruct (store_spec cv H3 (y, 0)) as (H6 & E6 & T6 & _ & K6).
    { rewrite Lcv. apply holds_load in Zy. rewrite zeros_length in Zy. eauto. }
    rewrite Lcv in T6.
    exists y, H3, H6. split; [reflexivity|]. split; [unfold move; rewrite Lv3; exact E6|].
    assert (T06 : touch (whole m) H H6).
    { eapply touch_trans; [exact T03|exact T6|]. intros b o [-> _]. right. unfold unborn. cbn [fst]. lia. }
    assert (Kx : holds H6 (x, 0) cs).
    { eapply frame_holds; [|exact Lcs|exact T6|].
      - eapply frame_holds; [|exact Lcs|exact T3|intros b o [-> _] E; unfold whole in E; cbn [fst] in E; lia].
        apply holds_ext_alloc. apply alloc_holds.
      - intros b o [-> _] [E _]. cbn [fst] in E. lia. }
    split; [eapply touch_weaken; [exact T06|intros b o Hb; left; left; exact Hb]|].
    exists (l ++ [(x, y)]). rewrite Ma.
    assert (Rk6 : rep H6 (TScalar k) (x, 0) kv none).
    { eapply rep_move; [exact Rk|exact (touch_ext _ _ _ T06)| |intros b o []]. cbn [tsize]. rewrite Lk. unfold holds in Kx. rewrite Lcs in Kx. exact Kx. }
    assert (Rv6 : rep H6 e (y, 0) xv Sv).
    { eapply rep_move; [exact Rv|exact (touch_ext _ _ _ T06)| |].
      - rewrite Lv. unfold holds in K6. rewrite Lcv in K6. exact K6.
      - eapply touch_same; [exact T06|exact BSv|]. eapply disjoint_sub; [exact Dv| |]; intros b o Hb; [right; exact Hb|left; exact Hb]. }
    assert (Bn : box H6 [(TScalar k, (x, 0)); (e, (y, 0))] [kv; xv]
      (union (union (range (x, 0) (kind_size k)) none) (union (union (range (y, 0) (tsize e)) Sv) none))).
    { apply box_cons; [exact Rk6| |intros _; apply disjoint_none_r|].
      - apply box_cons; [exact Rv6|constructor| |intros _; apply disjoint_none_r].
        intros _ b o [-> _] Hs. apply BSv in Hs. unfold born in Hs. cbn [fst] in Hs. lia.
      - intros _ b o [[-> _]|[]] [[[E _]|Hs]|[]]; cbn [fst tsize] in *; [lia|]. apply BSv in Hs. unfold born in Hs. lia. }
    assert (Bo : box H6 (slots k e l) (flat kxs) S1).
    { eapply frame_box; [exact Bx|exact T06|apply disjoint_sym, Dm]. }
    destruct (box_join _ _ _ _ _ _ _ _ _ _ Bo Bn) as (S6 & B6 & Q6).
    { intros _ b o Hb Hs. assert (Hbn : b < length H) by (apply (box_born _ _ _ _ _ _ _ Bx _ _ Hb)).
      destruct Hs as [[[E _]|[]]|[[[E _]|Hs]|[]]]; cbn [fst] in *; try lia. eapply Dv; [right; exact Hs|right; exact Hb]. }
    exists S6. split; [|split; [rewrite !app_length; cbn; lia|split; [|split]]].
    + assert (Em3 : nth_error H3 m = Some (OMap (l ++ [(x, y)]))).
      { apply nth_set_same. unfold H2, H1. rewrite !app_length. lia. }
      eapply map_same; [exact T6|exact Em3|]. intros b o E [E' _]. unfold whole in E. cbn [fst] in E'. lia.
    + unfold slots, flat in *. rewrite !flat_map_app. cbn [flat_map app fst snd]. exact B6.
    + intros b o Hb. apply Q6 in Hb as [Hb|[[[-> _]|[]]|[[[-> _]|Hs]|[]]]].
      * left. left. exact Hb.
      * right. unfold unborn. cbn. lia.
      * right. unfold unborn. cbn [fst]. lia.
      * left. right. exact Hs.
    + intros b o E Hb. apply Q6 in Hb as [Hb|[[[E' _]|[]]|[[[E' _]|Hs]|[]]]]; unfold whole in E; cbn [fst] in *; try lia.
      * eapply Dm; [exact E|exact Hb].
      * eapply Dv; [right; exact Hs|left; exact E].
  - (* a known key *)
    destruct (slots_nth k e l j xa ya Nl) as [N1 N2].
    destruct (box_focus _ _ _ _ _ _ _ _ _ _ Bx N1) as (k0 & Sk & F & Ek & Rk0 & _ & A2 & Q & Back). specialize (A2 eq_refl).
    apply scalar_set in Rk0 as Esk. subst Sk. cbn [tsize] in *.
    assert (Kx : subset (range (xa, 0) (kind_size k)) S1).
    { intros b o Hb. apply Q. left. left. exact Hb. }
    destruct (store_spec cs H (xa, 0)) as (H5 & E5 & T5 & _ & K5).
    { rewrite Lcs. apply rep_load in Rk0. exact Rk0. }
    rewrite Lcs in T5. rewrite E5. cbn [option_map].
    assert (Lv5 : load H5 va (tsize e) = Some cv).
    { rewrite <- Lv. eapply same_load; [|apply subset_refl]. eapply touch_same; [exact T5|exact Bv|].
      eapply disjoint_sub; [exact Dv| |]; intros b o Hb; [left; exact Hb|right; apply Kx, Hb]. }
    assert (Rk5 : rep H5 (TScalar k) (xa, 0) kv none).
    { eapply rep_move; [exact Rk|exact (touch_ext _ _ _ T5)| |intros b o []]. cbn [tsize]. rewrite Lk. unfold holds in K5. rewrite Lcs in K5. exact K5. }
    assert (BF : subset F (born H)).
    { eapply subset_trans; [|eapply box_born; exact Bx]. intros b o Hb. apply Q. right. exact Hb. }
    destruct (Back H5 kv none Rk5 (fun _ => disjoint_none_r _) (fun _ => A2) (touch_ext _ _ _ T5)) as (S5 & B5 & Q5).
    { eapply touch_same; [exact T5|exact BF|]. apply disjoint_sym. eapply disjoint_sub; [exact A2| |apply subset_refl]. intros b o Hb. left. exact Hb. }
    assert (QS : seteq S5 S1) by (eapply seteq_trans; [exact Q5|apply seteq_sym, Q]).
    assert (Rv5 : rep H5 e va xv Sv).
    { eapply frame_rep; [exact Rv|exact T5|]. eapply disjoint_sub; [exact Dv|apply subset_refl|]. intros b o Hb. right. apply Kx, Hb. }
    destruct (box_focus _ _ _ _ _ _ _ _ _ _ B5 N2) as (x0 & Sx & F2 & Ex & Rx0 & _ & A3 & Q2 & Back2). specialize (A3 eq_refl).
    assert (Ky : subset (range (ya, 0) (tsize e)) S1).
    { intros b o Hb. apply QS, Q2. left. left. exact Hb. }
    assert (KF : subset F2 S1).
    { intros b o Hb. apply QS, Q2. right. exact Hb. }
    destruct (store_spec cv H5 (ya, 0)) as (H6 & E6 & T6 & _ & K6).
    { rewrite Lcv. apply rep_load in Rx0. exact Rx0. }
    rewrite Lcv in T6.
    assert (Rv6 : rep H6 e (ya, 0) xv Sv).
    { eapply rep_move; [exact Rv5|exact (touch_ext _ _ _ T6)| |].
      - rewrite Lv5. unfold holds in K6. rewrite Lcv in K6. exact K6.
      - eapply touch_same; [exact T6|eapply rep_born; exact Rv5|]. eapply disjoint_sub; [exact Dv| |]; intros b o Hb; [right; exact Hb|right; apply Ky, Hb]. }
    destruct (Back2 H6 xv Sv Rv6) as (S6 & B6 & Q6).
    { intros _. apply disjoint_sym. eapply disjoint_sub; [exact Dv| |]; intros b o Hb; [right; exact Hb|right; apply Ky, Hb]. }
    { intros _. apply disjoint_union_l; [eapply disjoint_sub; [exact A3| |apply subset_refl]; intros b o Hb; left; exact Hb|].
      eapply disjoint_sub; [exact Dv| |]; intros b o Hb; [right; exact Hb|right; apply KF, Hb]. }
    { exact (touch_ext _ _ _ T6). }
    { eapply touch_same; [exact T6| |].
      - eapply subset_trans; [|eapply box_born; exact B5]. intros b o Hb. apply Q2. right. exact Hb.
      - apply disjoint_sym. eapply disjoint_sub; [exact A3| |apply subset_refl]. intros b o Hb. left. exact Hb. }
    exists ya, H5, H6. split; [reflexivity|]. split; [unfold move; rewrite Lv5; exact E6|].
    assert (T06 : touch S1 H H6).
    { eapply touch_trans; [eapply touch_weaken; [exact T5|intros b o Hb; left; apply Kx, Hb]|exact T6|intros b o Hb; left; apply Ky, Hb]. }
    split; [eapply touch_weaken; [exact T06|intros b o Hb; left; right; exact Hb]|].
    exists l, S6. rewrite Ma. split; [eapply map_same; [exact T06|exact Em|exact Dm]|].
    split; [rewrite length_set; exact Ll|]. split; [rewrite flat_set in B6; exact B6|].
    assert (QQ : subset S6 (union S1 Sv)).
    { intros b o Hb. apply Q6 in Hb as [[Hb|Hb]|Hb]; [left; apply Ky, Hb|right; exact Hb|left; apply KF, Hb]. }
    split; [intros b o Hb; left; apply QQ, Hb|].
    intros b o E Hb. apply QQ in Hb as [Hb|Hb]; [eapply Dm; eassumption|eapply Dv; [right; exact Hb|left; exact E]].
Qed.
Lemma round_up_0 a : round_up a 0 = 0.
Proof. unfold round_up. destruct (a =? 0) eqn:E; [reflexivity|]. apply Nat.eqb_neq in E. destruct a; [contradiction|]. cbn [Nat.add]. rewrite Nat.div_small by lia. reflexivity. Qed.
Lemma entry_placed key val kt vt en : let ek := SEntry key val kt vt in
  placed D other ek en = [(TScalar key, en); (val, shift en (foffset D other ek 1))].
Proof.
  cbv zeta. unfold foffset. cbn [placed layout]. unfold type_layout. cbn [offsets map combine nth]. rewrite round_up_0, shift_0. reflexivity.
Qed.
Lemma get_entry_ok st k P : pool (hp st) (pl st) P -> exists en st3 P1, get_entry pick D other st k = (en, st3) /\
  touch none (hp st) (hp st3) /\ holds (hp st3) en (zeros (ssize k)) /\ pool (hp st3) (pl st3) P1 /\
  disjoint (range en (ssize k)) P1 /\ subset (union (range en (ssize k)) P1) (union P (unborn (hp st))).
Proof.
  intros Po.
  assert (New : exists en st3 P1, (let '(x, H) := alloc (hp st) (OMem (zeros (ssize k))) in ((x, 0), with_hp st H)) = (en, st3) /\
    touch none (hp st) (hp st3) /\ holds (hp st3) en (zeros (ssize k)) /\ pool (hp st3) (pl st3) P1 /\
    disjoint (range en (ssize k)) P1 /\ subset (union (range en (ssize k)) P1) (union P (unborn (hp st)))).
  { exists (length (hp st), 0), (with_hp st (hp st ++ [OMem (zeros (ssize k))])), P. cbn [alloc with_hp hp pl].
    assert (U : subset (range (length (hp st), 0) (ssize k)) (unborn (hp st))).
    { intros b o [-> _]. unfold unborn. cbn. lia. }
    split; [reflexivity|]. split; [apply alloc_touch|]. split; [apply alloc_holds|]. split.
    - eapply frame_pool; [exact Po|apply (alloc_touch none)|apply disjoint_none_r].
    - split.
      + apply disjoint_sym. eapply disjoint_sub; [apply born_unborn; eapply pool_born; exact Po|apply subset_refl|exact U].
      + apply subset_union; intros b o Hb; [right; apply U, Hb|left; exact Hb]. }
  unfold get_entry. destruct (pick st k) as [j|]; [|exact New].
  destruct (nth_error (pl st) j) as [[k' a]|] eqn:En; [|exact New].
  destruct (skey_eq_dec k k') as [<-|]; [|exact New].
  destruct (pool_remove _ _ _ Po _ _ _ En) as (P1 & Po1 & K & Dj & Q).
  exists a, {| hp := hp st; pl := remove_at j (pl st) |}, P1. cbn [hp pl]. split; [reflexivity|]. split; [apply touch_refl|].
  split; [exact K|]. split; [exact Po1|]. split; [exact Dj|]. intros b o Hb. left. apply Q, Hb.
Qed.

Lemma step_map tag kt vt key val kp vp st b a v S P v' n er : entry_fits D key val kt vt = true ->
  type_depth (TMap key val) <= Nat.max 1 (decls_depth D) ->
  rep (hp st) (TMap key val) a v S -> disjoint (range a 8) S -> pool (hp st) (pl st) P ->
  disjoint (union (range a 8) S) P -> bytes_okb b = true -> small b ->
  dec (Datatypes.S fuel) (PMap tag kt vt key val kp vp) b v = DRet v' n er ->
  exists st', udec (Datatypes.S fuel) (PMap tag kt vt key val kp vp) st b a = DRet st' n er /\ good (hp st) (TMap key val) a v' S P st'.
Proof.
  intros Hf Hd R D1 Po D2 B Sm E. cbn [type_depth] in Hd. rewrite dec_S in E. cbn [plook] in E. rewrite udec_S. cbn [plook].
  set (ek := SEntry key val kt vt) in *.
  assert (Hk : key_ok D ek) by (split; [exact Hf|lia]).
  match type of E with context [decs fuel ek] => idtac end.
  assert (Go : forall st2 m l kxs S1, holds (hp st2) a (ptr_cells (Some (m, 0))) -> nth_error (hp st2) m = Some (OMap l) ->
    length l = length kxs -> box (hp st2) (slots key val l) (flat kxs) S1 -> disjoint (whole m) S1 ->
    disjoint (range a 8) (union (whole m) S1) -> pool (hp st2) (pl st2) P -> disjoint (union (range a 8) (union (whole m) S1)) P ->
    (if (zlen b =? 0)%Z then DRet (VMap (Some kxs)) 0%Z None
     else let '(_, nl, e) := decodeVarint b in
      match e with
      | Some e => DRet (VMap (Some kxs)) 0%Z (Some e)
      | None => match from_ b nl with
        | None => DCrash Bounds
        | Some b' => match decs fuel ek b' 0 (zero_struct D ek) with
          | DRet (VStruct [key; x]) n None => DRet (VMap (Some (map_assign kxs key x))) (n + nl)%Z None
          | DRet _ n None => DCrash Confused
          | DRet _ n (Some e) => DRet (VMap (Some kxs)) (n + nl)%Z (Some e)
          | r => r
          end
        end
      end) = DRet v' n er ->
    exists st', (if (zlen b =? 0)%Z then DRet st2 0%Z None
      else let '(en, s) := get_entry pick D other st2 ek in let '(_, nl, e) := decodeVarint b in
          match e with
          | Some e => DRet s 0%Z (Some e)
          | None =>
            match from_ b nl with
            | None => DCrash Bounds
            | Some b' =>
              match udecs fuel ek ek s b' 0 en with
              | DRet s n e =>
                dbind (match e with
                  | Some _ => Some (hp s)
                  | None =>
                    match ld_ptr (hp s) a with
                    | Some (Some (m, O)) =>
                      match mapassign key val (hp s) m en with
                      | Some (v, H) => move H (v, O) (shift en (foffset D other ek 1)) (tsize val)
                      | None => None
                      end
                    | _ => None
                    end
                  end) (fun H =>
                dbind (store H en (zeros (ssize ek))) (fun H =>
                DRet {| hp := H; pl := (ek, en) :: pl s |} (n + nl)%Z e))
              | r => r
              end
            end
          end) = DRet st' n er /\ good (hp st2) (TMap key val) a v' (union (whole m) S1) P st').
  { clear E. intros st2 m l kxs S1 K Em Ll Bx Dm Da Po2 Dp E.
    set (A := union (whole m) S1) in *.
    assert (Rm : forall H' l' kxs' S', holds H' a (ptr_cells (Some (m, 0))) -> nth_error H' m = Some (OMap l') -> length l' = length kxs' ->
       box H' (slots key val l') (flat kxs') S' -> disjoint (whole m) S' -> rep H' (TMap key val) a (VMap (Some kxs')) (union (whole m) S')).
    { intros. eapply rep_map; try eassumption. intros _. assumption. }
    destruct (zlen b =? 0)%Z.
    { inversion E; subst. exists st2. split; [reflexivity|]. apply good_same; try assumption. eapply Rm; eassumption. }
    destruct (get_entry_ok st2 ek P Po2) as (en & st3 & P1 & -> & T3 & Z3 & Po3 & D3 & Q3).
    assert (BA : subset A (born (hp st2))).
    { apply subset_union; [|eapply box_born; exact Bx]. intros b0 o0 ->. unfold born. apply nth_error_Some. congruence. }
    assert (Ba : subset (range a 8) (born (hp st2))).
    { apply holds_load in K as L. rewrite ptr_cells_length in L. eapply range_born. exact L. }
    set (O := union (range a 8) A).
    assert (BO : subset O (born (hp st2))) by (apply subset_union; assumption).
    assert (Far : forall X, subset X (union P (unborn (hp st2))) -> disjoint O X).
    { intros X Q b0 o0 Ho Hx. apply Q in Hx as [Hx|Hx]; [eapply Dp; [exact Ho|exact Hx]|eapply born_unborn; [exact BO|exact Ho|exact Hx]]. }
    set (EN := range en (ssize ek)) in *.
    assert (QE : subset EN (union P (unborn (hp st2)))) by (intros b0 o0 Hb; apply Q3; left; exact Hb).
    assert (QP : subset P1 (union P (unborn (hp st2)))) by (intros b0 o0 Hb; apply Q3; right; exact Hb).
    (* whatever leaves O alone leaves the map alone *)
    assert (Keep : forall H' X, touch X (hp st2) H' -> disjoint O X -> holds H' a (ptr_cells (Some (m, 0))) /\ nth_error H' m = Some (OMap l) /\
       box H' (slots key val l) (flat kxs) S1).
    { intros H' X T Dx. split; [|split].
      - eapply frame_holds; [exact K|apply ptr_cells_length|exact T|]. eapply disjoint_sub; [exact Dx| |apply subset_refl]. intros b0 o0 Hb. left. exact Hb.
      - eapply map_same; [exact T|exact Em|]. eapply disjoint_sub; [exact Dx| |apply subset_refl]. intros b0 o0 Hb. right. left. exact Hb.
      - eapply frame_box; [exact Bx|exact T|]. eapply disjoint_sub; [exact Dx| |apply subset_refl]. intros b0 o0 Hb. right. right. exact Hb. }
    destruct (decodeVarint b) as [[w nl] [ev|]].
    { inversion E; subst. exists st3. split; [reflexivity|]. destruct (Keep (hp st3) none T3 (disjoint_none_r _)) as (K' & Em' & Bx').
      exists A, P1. cbn [tsize]. split; [eapply Rm; eassumption|]. split; [exact Da|]. split; [exact Po3|]. split; [apply Far, QP|].
      split; [intros b0 o0 Hb; left; exact Hb|]. split; [exact QP|]. eapply touch_weaken; [exact T3|intros b0 o0 []]. }
    destruct (from_ b nl) as [b'|] eqn:Eb; [|discriminate]. destruct (from_sub _ _ _ Eb B Sm) as [B' Sm'].
    destruct (zero_placed D other true (hp st3) ek en Z3) as (Se & Re & Qr & Qs). fold EN in Qs.
    destruct (decs fuel ek b' 0 (zero_struct D ek)) as [x' n' e'|c|] eqn:Ed; try discriminate.
    assert (DSe : disjoint Se P1) by (eapply disjoint_sub; [exact D3|exact Qs|apply subset_refl]).
    destruct (IH2 ek st3 b' 0%Z en _ Se P1 x' n' e' Hk Re Po3 DSe B' Sm' Ed) as (st4 & -> & S4 & P4 & R4 & Po4 & D4 & Q4 & QP4 & T4).
    assert (T24 : touch (union EN P1) (hp st2) (hp st4)).
    { eapply touch_trans; [eapply touch_weaken; [exact T3|intros b0 o0 []]|exact T4|]. intros b0 o0 [Hb|Hb]; left; [left; apply Qs, Hb|right; exact Hb]. }
    assert (L23 : length (hp st2) <= length (hp st3)) by (eapply touch_len; exact T3).
    assert (L34 : length (hp st3) <= length (hp st4)) by (eapply touch_len; exact T4).
    assert (BEN : subset EN (born (hp st3))).
    { apply holds_load in Z3. rewrite zeros_length in Z3. eapply range_born. exact Z3. }
    assert (DEP : disjoint EN P4).
    { intros b0 o0 Hb Hp. apply QP4 in Hp as [Hp|Hp]; [eapply D3; eassumption|eapply born_unborn; [exact BEN|exact Hb|exact Hp]]. }
    assert (QP4' : subset P4 (union P (unborn (hp st2)))).
    { intros b0 o0 Hp. apply QP4 in Hp as [Hp|Hp]; [apply QP, Hp|right; eapply unborn_mono; [exact L23|exact Hp]]. }
    destruct (Keep (hp st4) (union EN P1) T24) as (K4 & Em4 & Bx4); [apply disjoint_union_r; apply Far; assumption|].
    (* putting the entry back *)
    assert (Put : forall H6, touch A (hp st4) H6 -> exists H7, store H6 en (zeros (ssize ek)) = Some H7 /\ touch EN H6 H7 /\
       pool H7 ((ek, en) :: pl st4) (union EN P4) /\ touch (union (union (range a 8) A) P) (hp st2) H7 /\
       subset (union EN P4) (union P (unborn (hp st2)))).
    { intros H6 T6. destruct (store_spec (zeros (ssize ek)) H6 en) as (H7 & E7 & T7 & _ & K7); rewrite zeros_length in *.
      - apply holds_load in Z3. rewrite zeros_length in Z3. eapply extends_load; [|exact Z3].
        eapply extends_trans; [exact (touch_ext _ _ _ T4)|exact (touch_ext _ _ _ T6)].
      - exists H7. split; [exact E7|]. split; [exact T7|]. split; [|split].
        + constructor; [exact K7| |exact DEP]. eapply frame_pool; [|exact T7|apply disjoint_sym, DEP].
          eapply frame_pool; [exact Po4|exact T6|]. apply disjoint_sym. eapply disjoint_sub; [apply (Far P4 QP4')| |apply subset_refl].
          intros b0 o0 Hb. right. exact Hb.
        + eapply touch_trans; [eapply touch_trans; [eapply touch_weaken; [exact T24|]|exact T6|]|exact T7|].
          * intros b0 o0 Hb. apply Q3 in Hb as [Hb|Hb]; [left; right; exact Hb|right; exact Hb].
          * intros b0 o0 Hb. left. left. right. exact Hb.
          * intros b0 o0 Hb. apply QE in Hb as [Hb|Hb]; [left; right; exact Hb|right; exact Hb].
        + apply subset_union; assumption. }
    assert (DOE : disjoint O (union EN P4)) by (apply disjoint_union_r; apply Far; assumption).
    destruct e' as [e'|].
    - (* the entry did not decode *)
      assert (E' : DRet (VMap (Some kxs)) (n' + nl)%Z (Some e') = DRet v' n er).
      { destruct x' as [| | | | | | | | | | | | |[|? [|? []]]|]; exact E. }
      inversion E'; subst; clear E E'.
      destruct (Put (hp st4) (touch_refl _ _)) as (H7 & E7 & T7 & Po7 & TT & QQ). cbn [dbind]. rewrite E7. cbn [dbind].
      eexists. split; [reflexivity|]. exists A, (union EN P4). cbn [hp pl tsize].
      assert (DE : disjoint O EN) by (apply Far, QE).
      split; [|split; [exact Da|split; [exact Po7|split; [exact DOE|split; [intros b0 o0 Hb; left; exact Hb|split; [exact QQ|exact TT]]]]]].
      eapply Rm; [| |exact Ll| |exact Dm].
      + eapply frame_holds; [exact K4|apply ptr_cells_length|exact T7|]. eapply disjoint_sub; [exact DE| |apply subset_refl]. intros b0 o0 Hb. left. exact Hb.
      + eapply map_same; [exact T7|exact Em4|]. eapply disjoint_sub; [exact DE| |apply subset_refl]. intros b0 o0 Hb. right. left. exact Hb.
      + eapply frame_box; [exact Bx4|exact T7|]. eapply disjoint_sub; [exact DE| |apply subset_refl]. intros b0 o0 Hb. right. right. exact Hb.
    - (* the entry goes into the map *)
      destruct R4 as (xs & -> & Be).
      assert (Pl : placed D other ek en = [(TScalar key, en); (val, shift en (foffset D other ek 1))]).
      { apply entry_placed. }
      rewrite Pl in Be, Qr.
      apply box_inv in Be as (kv & vs1 & Sk & S2 & -> & Rk & Be & _ & Ak & ->).
      apply box_inv in Be as (xv & vs2 & Sv & Sn & -> & Rv & Be & Av & _ & ->). apply box_inv_nil in Be as [-> ->].
      inversion E; subst; clear E. apply scalar_set in Rk as Esk. subst Sk. cbn [tsize] in *.
      specialize (Ak eq_refl). specialize (Av eq_refl). set (va := shift en (foffset D other ek 1)) in *.
      set (rk := range en (kind_size key)) in *. set (rv := range va (tsize val)) in *.
      assert (Vn : subset Sv (unborn (hp st3))).
      { intros b0 o0 Hb. assert (Hs : union Se (unborn (hp st3)) b0 o0) by (apply Q4; right; left; right; exact Hb).
        destruct Hs as [Hs|Hs]; [|exact Hs]. exfalso. apply Qr in Hs as (t & ad & [Hi|[Hi|[]]] & Hr); inversion Hi; subst; cbn [tsize] in Hr.
        - eapply Ak; [left; exact Hr|left; right; exact Hb].
        - eapply Av; [exact Hr|exact Hb]. }
      assert (DSv : disjoint O Sv).
      { eapply disjoint_sub; [apply born_unborn; exact BO|apply subset_refl|]. eapply subset_trans; [exact Vn|apply unborn_mono; exact L23]. }
      assert (DOrk : disjoint O (union rk rv)).
      { apply Far. intros b0 o0 Hb. assert (Hs : union Se (unborn (hp st3)) b0 o0).
        { apply Q4. destruct Hb as [Hb|Hb]; [left; left; exact Hb|right; left; left; exact Hb]. }
        destruct Hs as [Hs|Hs]; [apply QE, Qs, Hs|right; eapply unborn_mono; [exact L23|exact Hs]]. }
      destruct (assign_ok (hp st4) key val m l kxs S1 en va kv xv Sv Em4 Ll Bx4 Dm Rk Rv) as (y & H5 & H6 & E5 & E6 & T6 & l' & S6 & Em6 & Ll6 & B6 & Q6 & Dm6).
      { apply disjoint_sym. eapply disjoint_sub; [exact DOrk| |]; intros b0 o0 Hb; [right; exact Hb|left; exact Hb]. }
      { apply disjoint_sym. apply disjoint_union_r.
        - eapply disjoint_sub; [exact DOrk| |]; intros b0 o0 Hb; [right; exact Hb|right; exact Hb].
        - eapply disjoint_sub; [exact DSv| |apply subset_refl]; intros b0 o0 Hb. right. exact Hb. }
      destruct (Put H6 T6) as (H7 & E7 & T7 & Po7 & TT & QQ).
      rewrite (holds_ptr _ _ _ K4), E5, E6. cbn [dbind]. rewrite E7. cbn [dbind].
      eexists. split; [reflexivity|]. exists (union (whole m) S6), (union EN P4). cbn [hp pl tsize].
      assert (DE : disjoint O EN) by (apply Far, QE).
      assert (D6E : disjoint S6 EN).
      { intros b0 o0 Hb He. apply Q6 in Hb as [[Hb|Hb]|Hb].
        - eapply DE; [right; right; exact Hb|exact He].
        - eapply born_unborn; [exact BEN|exact He|apply Vn, Hb].
        - apply BEN in He. unfold born, unborn in *. lia. }
      assert (D6P : disjoint S6 P4).
      { intros b0 o0 Hb Hp. apply Q6 in Hb as [[Hb|Hb]|Hb].
        - eapply (Far P4 QP4'); [right; right; exact Hb|exact Hp].
        - eapply D4; [right; left; right; exact Hb|exact Hp].
        - eapply born_unborn; [eapply pool_born; exact Po4|exact Hp|exact Hb]. }
      assert (D6a : disjoint (range a 8) S6).
      { intros b0 o0 Ha Hb. apply Q6 in Hb as [[Hb|Hb]|Hb].
        - eapply Da; [exact Ha|right; exact Hb].
        - eapply DSv; [left; exact Ha|exact Hb].
        - apply Ba in Ha. unfold born, unborn in *. lia. }
      split; [|split; [|split; [exact Po7|split; [|split; [|split; [exact QQ|exact TT]]]]]].
      + eapply Rm; [| |exact Ll6| |exact Dm6].
        * eapply frame_holds; [|apply ptr_cells_length|exact T7|eapply disjoint_sub; [exact DE| |apply subset_refl]; intros b0 o0 Hb; left; exact Hb].
          eapply frame_holds; [exact K4|apply ptr_cells_length|exact T6|exact Da].
        * eapply map_same; [exact T7|exact Em6|]. eapply disjoint_sub; [exact DE| |apply subset_refl]. intros b0 o0 Hb. right. left. exact Hb.
        * eapply frame_box; [exact B6|exact T7|exact D6E].
      + apply disjoint_union_r; [|exact D6a]. eapply disjoint_sub; [exact Da|apply subset_refl|]. intros b0 o0 Hb. left. exact Hb.
      + apply disjoint_union_l; [eapply disjoint_sub; [exact DOE| |apply subset_refl]; intros b0 o0 Hb; left; exact Hb|].
        apply disjoint_union_l; [eapply disjoint_sub; [exact DOE| |apply subset_refl]; intros b0 o0 Hb; right; left; exact Hb|].
        apply disjoint_union_r; assumption.
      + apply subset_union; [intros b0 o0 Hb; left; left; exact Hb|]. intros b0 o0 Hb. apply Q6 in Hb as [[Hb|Hb]|Hb].
        * left. right. exact Hb.
        * right. eapply unborn_mono; [exact L23|apply Vn, Hb].
        * right. unfold unborn in *. lia. }
  inversion R; subst.
  - erewrite holds_ptr by eassumption. cbn [dbind alloc]. cbv zeta in E.
    set (H1 := hp st ++ [OMap []]). assert (T1 : touch (range a 8) (hp st) H1) by apply alloc_touch.
    destruct (store_ptr H1 a (Some (length (hp st), 0))) as (H2 & E2 & T2 & _ & K2).
    { apply rep_load in R as [l0 L0]. eapply extends_load; [exact (touch_ext _ _ _ T1)|exact L0]. }
    rewrite E2. cbn [dbind]. cbv zeta.
    assert (Ba : subset (range a 8) (born (hp st))) by (eapply (rep_range D other true (hp st) (TMap key val)); exact R).
    assert (T02 : touch (range a 8) (hp st) H2) by (eapply touch_trans; [exact T1|exact T2|intros b0 o0 Hb; left; exact Hb]).
    assert (U : subset (union (whole (length (hp st))) none) (unborn (hp st))).
    { intros b0 o0 [->|[]]. unfold unborn. lia. }
    destruct (Go (with_hp st H2) (length (hp st)) [] [] none) as (st' & Eu & G).
    + exact K2.
    + eapply map_same; [exact T2|apply alloc_nth|]. intros b0 o0 E0 Ha. apply Ba in Ha. unfold born, whole in *. lia.
    + reflexivity.
    + constructor.
    + apply disjoint_none_r.
    + eapply disjoint_sub; [apply born_unborn; exact Ba|apply subset_refl|exact U].
    + eapply frame_pool; [exact Po|exact T02|]. apply disjoint_sym. eapply disjoint_sub; [exact D2| |apply subset_refl]. intros b0 o0 Hb. left. exact Hb.
    + apply disjoint_union_l; [eapply disjoint_sub; [exact D2| |apply subset_refl]; intros b0 o0 Hb; left; exact Hb|].
      apply disjoint_sym. eapply disjoint_sub; [apply born_unborn; eapply pool_born; exact Po|apply subset_refl|exact U].
    + exact E.
    + exists st'. split; [exact Eu|]. eapply good_weaken; [exact G| | |intros b0 o0 Hb; left; exact Hb].
      * cbn [tsize]. eapply touch_weaken; [exact T02|]. intros b0 o0 Hb. left. left. left. exact Hb.
      * intros b0 o0 Hb. right. apply U, Hb.
  - erewrite holds_ptr by eassumption. cbn [dbind]. destruct st as [hh pp]. cbv zeta in E |- *.
    eapply (Go {| hp := hh; pl := pp |} m l kxs S0); try eassumption.
    match goal with Ap : apart true (whole m) S0 |- _ => exact (Ap eq_refl) end.
Qed.
End Step.

Theorem dec_sim fuel : codec_ok fuel /\ struct_ok fuel.
Proof.
  induction fuel as [|fuel [IH1 IH2]]; (split; [intros p t st b a v S P v' n e C Hd R D1 Po D2 B Sm E|
    intros k st b off a x S P x' n e Hk R Po D2 B Sm E]); try discriminate.
  2:{ eapply step_structs; eassumption. }
  destruct p as [s|et q|et q|k|tag kt vt key val kp vp].
  - rewrite udec_S. rewrite dec_S in E. cbn [plook] in *. eapply step_static; try eassumption.
  - destruct t as [| | | | |e'| |]; try discriminate. cbn [codec_fits flat_fits] in C. btrue. eapply step_ptr; try eassumption.
  - destruct t as [| | |e'| | | |]; try discriminate. cbn [codec_fits flat_fits] in C. btrue. eapply step_slice; try eassumption.
  - eapply step_struct; try eassumption. 
  - destruct t as [| | | |k' v0| | |]; try discriminate. cbn [codec_fits flat_fits] in C. btrue. eapply step_map; try eassumption.
Qed.
End Dec.
