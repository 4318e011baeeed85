(** Absence of data races: programs that only read what they know to be
    finished, and only write what they own. *)
From Verif Require Import Base GoType Leaf Codec Tag Walker Conc SpecRace.

Notation locset := (loc -> Prop).
Definition sub (K K' : locset) : Prop := forall x, K x -> K' x.
Definition add (K : locset) (y : loc) : locset := fun x => x = y \/ K x.
Definition rem (K : locset) (y : loc) : locset := fun x => x <> y /\ K x.
Definition union (K K' : locset) : locset := fun x => K x \/ K' x.

(** Package-level codecs never change. *)
Definition kn (K : locset) (x : loc) : Prop := match x with LCodec (CStatic _) => True | _ => K x end.
Definition kc (K : locset) (c : cref) : Prop := kn K (LCodec c).
Definition fields_in (K : locset) (fs : list hfield) : Prop := Forall (fun f => kc K (f_codec f)) fs.
Definition info_in (K : locset) (x : hinfo) : Prop := fields_in K (i_fields x) /\ fields_in K (i_index x).
Definition body_in (K : locset) (b : hbody) : Prop :=
  match b with
  | BNil | BStatic _ => True
  | BPtr _ c | BSlice _ c => kc K c
  | BStruct _ i => K (LInfo i)
  | BMap _ kf vf _ i => kc K (f_codec kf) /\ kc K (f_codec vf) /\ K (LInfo i)
  end.
Definition someq {A} (P : A -> Prop) (o : option A) : Prop := match o with Some a => P a | None => True end.

Section Used.
(** The struct types used before the goroutines start. *)
Variable U : skey -> Prop.

(** What an operation needs, and what it gives: [O] is what the goroutine is
    still building, [K] what it knows to be finished. *)
Definition op_pre (o : op) (O K : locset) : (resp o -> locset -> locset -> Prop) -> Prop :=
  match o return (resp o -> locset -> locset -> Prop) -> Prop with
  | InfoLoad k => fun next => forall r K', sub K K' -> someq (fun i => kn K' (LInfo i)) r -> (U k -> r <> None) -> next r O K'
  | InfoStore k i => fun next => K (LInfo i) /\ next tt O K
  | InfoLoadOrStore k i => fun next => K (LInfo i) /\ forall r K', sub K K' -> K' (LInfo r) -> next r O K'
  | CodecLoad t => fun next => forall r K', sub K K' -> someq (kc K') r -> next r O K'
  | CodecLoadOrStore t c => fun next => kc K c /\ forall r K', sub K K' -> kc K' r -> next r O K'
  | SliceLoad c => fun next => forall r K', sub K K' -> someq (kc K') r -> next r O K'
  | SliceLoadOrStore c d => fun next => kc K d /\ forall r K', sub K K' -> kc K' r -> next r O K'
  | NewCell => fun next => forall n, ~ O (LCodec (CCell n)) -> next (CCell n) (add O (LCodec (CCell n))) K
  | Fill c b => fun next => O (LCodec c) /\ body_in K b /\ next tt (rem O (LCodec c)) (add K (LCodec c))
  | NewInfo => fun next => forall i, ~ O (LInfo i) -> next i (add O (LInfo i)) K
  | SetFields i fs => fun next => O (LInfo i) /\ fields_in K fs /\ next tt O K
  | SetIndex i fs => fun next => O (LInfo i) /\ fields_in K fs /\ next tt (rem O (LInfo i)) (add K (LInfo i))
  | ReadCell c => fun next => kc K c /\ forall b, body_in K b -> next b O K
  | ReadInfo i => fun next => K (LInfo i) /\ forall x, info_in K x -> next x O K
  end.
Fixpoint sf {A} (p : prog A) (Q : A -> locset -> locset -> Prop) (O K : locset) {struct p} : Prop :=
  match p with
  | Ret a => Q a O K
  | Panic | NoFuel => True
  | Do o k => op_pre o O K (fun r O' K' => sf (k r) Q O' K')
  end.

Lemma op_pre_mono o O K (N1 N2 : resp o -> locset -> locset -> Prop) :
  (forall r O' K', N1 r O' K' -> N2 r O' K') -> op_pre o O K N1 -> op_pre o O K N2.
Proof. destruct o; cbn; intros H; intuition. Qed.
Lemma sf_conseq {A} (p : prog A) (Q1 Q2 : A -> locset -> locset -> Prop) : forall O K,
  (forall a O' K', Q1 a O' K' -> Q2 a O' K') -> sf p Q1 O K -> sf p Q2 O K.
Proof.
  induction p as [a| | |o k IH]; intros O K H; cbn [sf]; auto.
  apply op_pre_mono. intros r O' K'. apply IH. assumption.
Qed.
Lemma sf_bind {A B} (p : prog A) (k : A -> prog B) Q : forall O K,
  sf p (fun a O' K' => sf (k a) Q O' K') O K -> sf (pbind p k) Q O K.
Proof.
  induction p as [a| | |o c IH]; intros O K; cbn [sf pbind]; auto.
  apply op_pre_mono. intros r O' K'. apply IH.
Qed.

Lemma sub_refl K : sub K K. Proof. intros x; auto. Qed.
Lemma sub_trans K1 K2 K3 : sub K1 K2 -> sub K2 K3 -> sub K1 K3. Proof. intros A B x; auto. Qed.
Lemma sub_add K y : sub K (add K y). Proof. intros x; right; assumption. Qed.
Lemma kn_sub K K' x : sub K K' -> kn K x -> kn K' x.
Proof. intros S. destruct x as [[]|]; cbn; auto. Qed.
Lemma kc_sub K K' c : sub K K' -> kc K c -> kc K' c. Proof. apply kn_sub. Qed.
Lemma fields_in_sub K K' fs : sub K K' -> fields_in K fs -> fields_in K' fs.
Proof. intros S. apply Forall_impl. intros f. apply kc_sub. assumption. Qed.
Lemma info_in_sub K K' x : sub K K' -> info_in K x -> info_in K' x.
Proof. intros S [A B]. split; eapply fields_in_sub; eassumption. Qed.
Lemma body_in_sub K K' b : sub K K' -> body_in K b -> body_in K' b.
Proof. intros S. destruct b; cbn [body_in]; try exact (fun H => H); try (apply kc_sub; exact S); [apply S|].
  intros (A & B & C). split; [|split]; [eapply kc_sub; eassumption..|apply S; assumption]. Qed.

(** ** Memory *)
Definition alloc (s : gstate) (x : loc) : Prop :=
  match x with
  | LCodec (CStatic _) => False
  | LCodec (CCell n) => n < length (g_cells s)
  | LInfo i => i < length (g_infos s)
  end.
Definition contents_in (s : gstate) (K : locset) (x : loc) : Prop :=
  match x with LCodec c => body_in K (hlook s c) | LInfo i => info_in K (higet s i) end.
Definition find (s : gstate) (m : slot) : option loc :=
  match m with
  | MInfo k => option_map LInfo (assoc skey_eq_dec k (g_infoCache s))
  | MCodec t => option_map LCodec (assoc gotype_eq_dec t (g_codecCache s))
  | MSlice c => option_map LCodec (assoc cref_eq_dec c (g_sliceMap s))
  end.
Lemma contents_in_sub s K K' x : sub K K' -> contents_in s K x -> contents_in s K' x.
Proof. intros S. destruct x; cbn; [apply body_in_sub|apply info_in_sub]; assumption. Qed.

(** ** The order of events *)
Lemma nth_ext l (e : event) i x : nth_error l i = Some x -> nth_error (l ++ [e]) i = Some x.
Proof. intros H. rewrite nth_error_app1; [assumption|]. apply nth_error_Some. congruence. Qed.
Lemma nth_ext_inv l (e : event) i x : nth_error (l ++ [e]) i = Some x -> nth_error l i = Some x \/ (i = length l /\ x = e).
Proof.
  intros H. destruct (Nat.lt_ge_cases i (length l)) as [L|L].
  - rewrite nth_error_app1 in H by assumption. auto.
  - rewrite nth_error_app2 in H by assumption. right. destruct (i - length l) as [|n] eqn:E; cbn in H.
    + inversion H. split; [lia|reflexivity].
    + destruct n; discriminate.
Qed.
Lemma nth_last l (e : event) : nth_error (l ++ [e]) (length l) = Some e.
Proof. rewrite nth_error_app2, Nat.sub_diag by lia. reflexivity. Qed.
Lemma nth_lt (l : list event) i x : nth_error l i = Some x -> i < length l.
Proof. intros H. apply nth_error_Some. congruence. Qed.

Lemma before_lt l i j : before l i j -> i < j /\ j < length l.
Proof. induction 1; try (split; [assumption|eapply nth_lt; eassumption]). lia. Qed.
Lemma before_ext l e i j : before l i j -> before (l ++ [e]) i j.
Proof.
  induction 1 as [i j t a b L A B|i j t u m L A B N|i j n _ IH1 _ IH2].
  - eapply b_order; eauto using nth_ext.
  - eapply b_sync; eauto using nth_ext. intros n v Hn H. apply nth_ext_inv in H. destruct H as [H|[-> _]].
    + eapply N; eassumption.
    + apply nth_lt in B. lia.
  - eapply b_trans; eassumption.
Qed.
(** [i] is in the past of goroutine [t]; of the event at [j]. *)
Definition past (l : list event) t i : Prop := exists j a, nth_error l j = Some (t, a) /\ (i = j \/ before l i j).
Definition upto (l : list event) j i : Prop := i = j \/ before l i j.
Lemma past_last l t a i : past l t i -> before (l ++ [(t, a)]) i (length l).
Proof.
  intros (j & b & H & D). assert (B : before (l ++ [(t, a)]) j (length l)).
  { eapply b_order; [eapply nth_lt; eassumption|eapply nth_ext; eassumption|apply nth_last]. }
  destruct D as [->|D]; [assumption|]. eapply b_trans; [apply before_ext; eassumption|assumption].
Qed.
Lemma past_ext l t e i : past l t i -> past (l ++ [e]) t i.
Proof. intros (j & b & H & D). exists j, b. split; [apply nth_ext; assumption|]. destruct D; auto using before_ext. Qed.
Lemma past_self l t a : past (l ++ [(t, a)]) t (length l).
Proof. exists (length l), a. split; [apply nth_last|left; reflexivity]. Qed.
Lemma past_upto l t a i : past l t i -> upto (l ++ [(t, a)]) (length l) i.
Proof. intros H. right. apply past_last. assumption. Qed.
Lemma upto_ext l e j i : upto l j i -> upto (l ++ [e]) j i.
Proof. intros [->|H]; [left; reflexivity|right; apply before_ext; assumption]. Qed.

Definition lastput (l : list event) m i : Prop :=
  (exists t, nth_error l i = Some (t, APut m)) /\ forall n v, i < n -> nth_error l n <> Some (v, APut m).
Lemma upto_get l t m i j : lastput l m j -> upto l j i -> past (l ++ [(t, AGet m)]) t i.
Proof.
  intros [[u E] N] H. exists (length l), (AGet m). split; [apply nth_last|]. right.
  assert (B : before (l ++ [(t, AGet m)]) j (length l)).
  { eapply b_sync; [eapply nth_lt; eassumption|eapply nth_ext; eassumption|apply nth_last|].
    intros n v Hn F. apply nth_ext_inv in F. destruct F as [F|[-> F]]; [|lia]. eapply N; [|exact F]. lia. }
  destruct H as [->|H]; [assumption|]. eapply b_trans; [apply before_ext; eassumption|assumption].
Qed.
Lemma lastput_ext l m i e : lastput l m i -> snd e <> APut m -> lastput (l ++ [e]) m i.
Proof.
  intros [[u E] N] H. split; [exists u; apply nth_ext; assumption|]. intros n v L F. apply nth_ext_inv in F.
  destruct F as [F|[-> F]]; [eapply N; eassumption|]. subst e. apply H. reflexivity.
Qed.
Lemma lastput_last l m t : lastput (l ++ [(t, APut m)]) m (length l).
Proof.
  split; [exists t; apply nth_last|]. intros n v L F. apply nth_lt in F. rewrite app_length in F. cbn in F. lia.
Qed.

(** ** The invariant of an execution *)
(** The set [K] is closed and finished: nobody owns any of it, and every write to
    it is covered by [cov]. *)
Definition ok (s : gstate) (l : list event) (free : locset) (K : locset) (cov : nat -> Prop) : Prop :=
  forall x, K x -> alloc s x /\ free x /\ contents_in s K x /\ (forall i u, nth_error l i = Some (u, AWrite x) -> cov i).

Definition free (O : nat -> locset) : locset := fun x => forall t, ~ O t x.

Record RInv {A} (Q : A -> locset -> locset -> Prop) (l : list event) (ts : list (prog A)) (s : gstate) (O K : nat -> locset) : Prop := {
  ri_sf : forall t p, nth_error ts t = Some p -> sf p Q (O t) (K t);
  ri_al : forall t x, O t x -> alloc s x;
  ri_dis : forall t u x, O t x -> O u x -> u = t;
  ri_own : forall t x i u a, O t x -> nth_error l i = Some (u, a) -> accesses a x -> u = t;
  ri_in : forall t x, O t x -> contents_in s (K t) x;
  ri_K : forall t, ok s l (free O) (K t) (past l t);
  ri_c : forall m x, find s m = Some x -> exists Ke, kn Ke x /\
    ((exists i, lastput l m i /\ ok s l (free O) Ke (upto l i)) \/ ok s l (free O) Ke (fun _ => False));
  ri_w : forall k, U k -> find s (MInfo k) <> None;
  ri_acc : forall i u a x, nth_error l i = Some (u, a) -> accesses a x ->
    alloc s x \/ (a = ARead x /\ exists c, x = LCodec (CStatic c));
  ri_rf : forall i j t u a b x, i < j -> nth_error l i = Some (t, a) -> nth_error l j = Some (u, b) ->
    accesses a x -> accesses b x -> (writes a x \/ writes b x) -> before l i j
}.

Lemma ok_union s l F K1 K2 cov : ok s l F K1 cov -> ok s l F K2 cov -> ok s l F (union K1 K2) cov.
Proof.
  intros H1 H2 x [Hx|Hx]; [destruct (H1 x Hx) as (A & B & C & E)|destruct (H2 x Hx) as (A & B & C & E)];
    (split; [assumption|]; split; [assumption|]; split; [|assumption]);
    (eapply contents_in_sub; [|exact C]); intros y; [left|right]; assumption.
Qed.
Lemma ok_cov s l F K (c1 c2 : nat -> Prop) : (forall i, c1 i -> c2 i) -> ok s l F K c1 -> ok s l F K c2.
Proof. intros H Hk x Hx. destruct (Hk x Hx) as (A & B & C & E). repeat split; eauto. Qed.

Definition upd_at (f : nat -> locset) (t : nat) (v : locset) : nat -> locset := fun u => if Nat.eq_dec u t then v else f u.
Lemma upd_at_eq f t v : upd_at f t v t = v.
Proof. unfold upd_at. destruct (Nat.eq_dec t t); [reflexivity|contradiction]. Qed.
Lemma upd_at_neq f t v u : u <> t -> upd_at f t v u = f u.
Proof. unfold upd_at. destruct (Nat.eq_dec u t); [contradiction|reflexivity]. Qed.

Section Step.
Context {A : Type}.
Variable Q : A -> locset -> locset -> Prop.
Variables (l : list event) (ts : list (prog A)) (s s' : gstate) (O K : nat -> locset) (t : nat) (a : act) (O' K' : locset).
Hypothesis RI : RInv Q l ts s O K.
Hypothesis h_alloc : forall x, alloc s x -> alloc s' x.
Hypothesis h_content : forall x K0, alloc s x -> ~ O t x -> contents_in s K0 x -> contents_in s' K0 x.
Hypothesis h_own : forall x, O' x -> (O t x \/ ~ alloc s x) /\ alloc s' x /\ contents_in s' K' x.
Hypothesis h_acc : forall x, accesses a x -> O t x \/ (~ alloc s x /\ alloc s' x /\ a = AWrite x) \/ (a = ARead x /\ kn (K t) x).
Hypothesis h_keep : forall m, find s m <> None -> find s' m <> None.
Hypothesis h_static : forall c, a = AWrite (LCodec (CStatic c)) -> False.

Notation l' := (l ++ [(t, a)]).
Notation OO := (upd_at O t O').
Notation KK := (upd_at K t K').

Lemma transfer K0 (c1 c2 : nat -> Prop) : (forall i, c1 i -> c2 i) ->
  ok s l (free O) K0 c1 -> ok s' l' (free OO) K0 c2.
Proof.
  intros Hc H x Hx. destruct (H x Hx) as (Ha & Hf & Hi & Hw). repeat split.
  - apply h_alloc; assumption.
  - intros u Hu. destruct (Nat.eq_dec u t) as [->|Ne].
    + rewrite upd_at_eq in Hu. apply h_own in Hu. destruct Hu as [[Hu|Hu] _]; [eapply Hf; exact Hu|contradiction].
    + rewrite upd_at_neq in Hu by assumption. eapply Hf; exact Hu.
  - apply h_content; auto.
  - intros i u E. apply nth_ext_inv in E. destruct E as [E|[-> E]]; [apply Hc; eapply Hw; exact E|]. exfalso.
    assert (E1 : a = AWrite x) by congruence. destruct (h_acc x (or_intror E1)) as [X|[(X & _)|(X & _)]].
    + eapply Hf; exact X.
    + contradiction.
    + congruence.
Qed.

Hypothesis h_K : ok s' l' (free OO) K' (past l' t).
Hypothesis h_find : forall m x, find s' m = Some x -> (find s m = Some x /\ a <> APut m) \/ (a = APut m /\ kn (K t) x).

Lemma RInv_step ts' : (forall u p, nth_error ts' u = Some p -> sf p Q (OO u) (KK u)) -> RInv Q l' ts' s' OO KK.
Proof.
  intros Hsf. destruct RI as [r1 r2 r3 r4 r5 r6 r7 r7' r8 r9]. split.
  - exact Hsf.
  - intros u x Hx. destruct (Nat.eq_dec u t) as [->|Ne].
    + rewrite upd_at_eq in Hx. apply h_own in Hx. apply Hx.
    + rewrite upd_at_neq in Hx by assumption. apply h_alloc. eapply r2; exact Hx.
  - intros u v x Hu Hv. destruct (Nat.eq_dec u t) as [->|Nu]; destruct (Nat.eq_dec v t) as [->|Nv]; try reflexivity;
      rewrite ?upd_at_eq in *; rewrite ?upd_at_neq in * by assumption.
    + apply h_own in Hu. destruct Hu as [[Hu|Hu] _]; [eapply r3; eassumption|]. apply r2 in Hv. contradiction.
    + apply h_own in Hv. destruct Hv as [[Hv|Hv] _]; [eapply r3; eassumption|]. apply r2 in Hu. contradiction.
    + eapply r3; eassumption.
  - intros u x i v b Hx Hi Hb. apply nth_ext_inv in Hi. destruct (Nat.eq_dec u t) as [->|Nu].
    + rewrite upd_at_eq in Hx. apply h_own in Hx. destruct Hx as ([Hx|Hx] & Hx2 & _).
      * destruct Hi as [Hi|[_ Hi]]; [eapply r4; eassumption|congruence].
      * destruct Hi as [Hi|[_ Hi]]; [|congruence]. destruct (r8 _ _ _ _ Hi Hb) as [X|(_ & c & ->)]; [contradiction|].
        destruct Hx2.
    + rewrite upd_at_neq in Hx by assumption. destruct Hi as [Hi|[_ Hi]]; [eapply r4; eassumption|].
      inversion Hi; subst. destruct (h_acc x Hb) as [X|[(X & _)|(_ & X)]].
      * symmetry. eapply r3; eassumption.
      * apply r2 in Hx. contradiction.
      * assert (Kx : K t x) by (destruct x as [[]|]; auto; apply r2 in Hx; destruct Hx).
        destruct (r6 t x Kx) as (_ & F & _). exfalso. eapply F; exact Hx.
  - intros u x Hx. destruct (Nat.eq_dec u t) as [->|Nu].
    + rewrite upd_at_eq in *. apply h_own in Hx. apply Hx.
    + rewrite upd_at_neq in * by assumption. apply h_content; [eapply r2; exact Hx| |eapply r5; exact Hx].
      intros X. apply Nu. eapply r3; eassumption.
  - intros u. destruct (Nat.eq_dec u t) as [->|Nu].
    + rewrite upd_at_eq. exact h_K.
    + rewrite upd_at_neq by assumption. eapply transfer; [|apply r6]. intros i. apply past_ext.
  - intros m x Hm. apply h_find in Hm. destruct Hm as [[Hm Ne]|[Hm Hx]].
    + destruct (r7 m x Hm) as (Ke & H2 & [(i & H1 & H3)|H3]); exists Ke; (split; [assumption|]).
      * left. exists i. split; [apply lastput_ext; assumption|]. eapply transfer; [|exact H3]. intros j. apply upto_ext.
      * right. eapply transfer; [|exact H3]. auto.
    + exists (K t). split; [assumption|]. left. exists (length l). rewrite Hm. split; [apply lastput_last|].
      rewrite <- Hm. eapply transfer; [|apply r6]. intros j. apply past_upto.
  - auto.
  - intros i u b x Hi Hb. apply nth_ext_inv in Hi. destruct Hi as [Hi|[-> Hi]].
    + destruct (r8 _ _ _ _ Hi Hb) as [X|X]; [left; apply h_alloc; assumption|right; exact X].
    + inversion Hi; subst. destruct (h_acc x Hb) as [X|[(_ & X & _)|(X & Y)]].
      * left. apply h_alloc. eapply r2; exact X.
      * left. assumption.
      * destruct x as [[c|n]|n]; [right; split; [assumption|exists c; reflexivity]|left|left]; apply h_alloc; apply (r6 t); assumption.
  - intros i j u v b c x L Hi Hj Hb Hc W. apply nth_ext_inv in Hj. destruct Hj as [Hj|[-> Hj]].
    + assert (Hi' : nth_error l i = Some (u, b)).
      { apply nth_lt in Hj. apply nth_ext_inv in Hi. destruct Hi as [Hi|[-> _]]; [assumption|lia]. }
      apply before_ext. eapply r9; eassumption.
    + inversion Hj; subst. apply nth_ext_inv in Hi. destruct Hi as [Hi|[-> _]]; [|lia].
      destruct (h_acc x Hc) as [X|[(X & _ & Y)|(Y & X)]].
      * assert (u = t) by (eapply r4; eassumption). subst u. eapply b_order; [exact L|apply nth_ext; exact Hi|apply nth_last].
      * destruct (r8 _ _ _ _ Hi Hb) as [Z|(_ & d & ->)]; [contradiction|]. exfalso. eapply h_static; exact Y.
      * destruct W as [W|W]; [|exfalso; unfold writes in W; congruence]. unfold writes in W. subst b.
        destruct x as [[d|n]|n].
        -- exfalso. destruct (r8 _ _ _ _ Hi (or_intror eq_refl)) as [Z|[Z _]]; [destruct Z|discriminate].
        -- apply past_last. eapply (r6 t); eassumption.
        -- apply past_last. eapply (r6 t); eassumption.
Qed.
End Step.

(** ** Every operation keeps the invariant *)
Lemma nth_mid {A} (pre post : list A) x y u z : nth_error (pre ++ y :: post) u = Some z ->
  (u = length pre /\ z = y) \/ (u <> length pre /\ nth_error (pre ++ x :: post) u = Some z).
Proof.
  revert u. induction pre as [|p pre IH]; intros [|u]; cbn; intros H; try (right; split; [discriminate|assumption]).
  - left. split; congruence.
  - destruct (IH u H) as [[-> ->]|[N E]]; [left; auto|right; split; [congruence|assumption]].
Qed.
Lemma nth_mid_eq {A} (pre post : list A) x : nth_error (pre ++ x :: post) (length pre) = Some x.
Proof. rewrite nth_error_app2, Nat.sub_diag by lia. reflexivity. Qed.

Lemma nth_set_eq' {B} (l : list B) i x : i < length l -> nth_error (list_set l i x) i = Some x.
Proof. revert i. induction l as [|a l IH]; intros [|i]; cbn; intros H; try lia; [reflexivity|apply IH; lia]. Qed.
Lemma nth_set_neq' {B} (l : list B) i j x : i <> j -> nth_error (list_set l i x) j = nth_error l j.
Proof. revert i j. induction l as [|a l IH]; intros [|i] [|j] H; cbn; try reflexivity; [contradiction|apply IH; congruence]. Qed.
Lemma set_length' {B} (l : list B) i x : length (list_set l i x) = length l.
Proof. revert i. induction l as [|a l IH]; intros [|i]; cbn; auto. Qed.

Lemma alloc_eq s s' : length (g_cells s') = length (g_cells s) -> length (g_infos s') = length (g_infos s) ->
  forall x, alloc s x -> alloc s' x.
Proof. intros E1 E2 [[c|n]|i]; cbn; rewrite ?E1, ?E2; auto. Qed.
Lemma contents_heap s s' K x : g_cells s' = g_cells s -> g_infos s' = g_infos s -> contents_in s K x -> contents_in s' K x.
Proof. intros E1 E2. destruct x as [c|i]; cbn; unfold hlook, higet; rewrite ?E1, ?E2; auto. Qed.

Section Do.
Context {A : Type}.
Variable Q : A -> locset -> locset -> Prop.

Definition keeps_inv l pre o (k : resp o -> prog A) post s : Prop :=
  exists O' K', RInv Q (l ++ [(length pre, act_of o s)]) (pre ++ k (fst (exec o s)) :: post) (snd (exec o s)) O' K'.

Lemma next_sf l pre p q post s O K O' K' : RInv Q l (pre ++ p :: post) s O K -> sf q Q O' K' ->
  forall u z, nth_error (pre ++ q :: post) u = Some z -> sf z Q (upd_at O (length pre) O' u) (upd_at K (length pre) K' u).
Proof.
  intros RI Hq u z E. apply nth_mid with (x := p) in E. destruct E as [[-> ->]|[Ne E]].
  - rewrite !upd_at_eq. assumption.
  - rewrite !upd_at_neq by assumption. eapply ri_sf; eassumption.
Qed.

(** Reading an entry of a map. *)
Lemma do_get l pre o (k : resp o -> prog A) post s O K m :
  RInv Q l (pre ++ Do o k :: post) s O K -> act_of o s = AGet m -> snd (exec o s) = s ->
  (forall K', sub (K (length pre)) K' -> (forall x, find s m = Some x -> kn K' x) -> (forall q, U q -> find s (MInfo q) <> None) ->
     sf (k (fst (exec o s))) Q (O (length pre)) K') ->
  keeps_inv l pre o k post s.
Proof.
  intros RI Ea Es H. unfold keeps_inv. rewrite Ea, Es. set (t := length pre) in *.
  assert (X : exists K', sub (K t) K' /\ (forall x, find s m = Some x -> kn K' x) /\
            (forall K0 c1, ok s l (free O) K0 c1 -> sub K0 K' -> True) /\
            ok s (l ++ [(t, AGet m)]) (free (upd_at O t (O t))) K' (past (l ++ [(t, AGet m)]) t)).
  { assert (T : forall K0 (c1 c2 : nat -> Prop), (forall i, c1 i -> c2 i) -> ok s l (free O) K0 c1 ->
              ok s (l ++ [(t, AGet m)]) (free (upd_at O t (O t))) K0 c2).
    { intros K0 c1 c2. apply (transfer l s s O K t (AGet m) (O t) (K t)); auto.
      - intros x Hx. split; [left; exact Hx|]. split; [eapply ri_al; eassumption|eapply (ri_in _ _ _ _ _ _ RI); exact Hx].
      - intros x [X|X]; discriminate. }
    destruct (find s m) as [x|] eqn:E.
    - destruct (ri_c _ _ _ _ _ _ RI m x E) as (Ke & H2 & H3). exists (union (K t) Ke).
      split; [intros y; left; assumption|]. split.
      { intros y Y. inversion Y; subst. eapply kn_sub; [|exact H2]. intros z; right; assumption. }
      split; [auto|]. apply ok_union.
      + eapply T; [|apply (ri_K _ _ _ _ _ _ RI)]. intros j. apply past_ext.
      + destruct H3 as [(i & H1 & H3)|H3]; (eapply T; [|exact H3]); [intros j; apply upto_get; assumption|intros j []].
    - exists (K t). split; [apply sub_refl|]. split; [discriminate|]. split; [auto|].
      eapply T; [|apply (ri_K _ _ _ _ _ _ RI)]. intros j. apply past_ext. }
  destruct X as (K' & S & F & _ & Hok). exists (upd_at O t (O t)), (upd_at K t K').
  eapply RInv_step; try exact RI; auto.
  - intros x Hx. split; [left; exact Hx|]. split; [eapply ri_al; eassumption|].
    eapply contents_in_sub; [exact S|]. eapply ri_in; eassumption.
  - intros x [X|X]; discriminate.
  - discriminate.
  - intros m' x Hm. left. split; [assumption|discriminate].
  - eapply next_sf; [exact RI|]. apply H; try assumption. apply (ri_w _ _ _ _ _ _ RI).
Qed.

(** Writing an entry of a map. *)
Lemma do_put l pre o (k : resp o -> prog A) post s O K m y :
  RInv Q l (pre ++ Do o k :: post) s O K -> act_of o s = APut m ->
  g_cells (snd (exec o s)) = g_cells s -> g_infos (snd (exec o s)) = g_infos s ->
  (forall m' x, find (snd (exec o s)) m' = Some x -> (m' <> m /\ find s m' = Some x) \/ (m' = m /\ x = y)) ->
  (forall m', find s m' <> None -> find (snd (exec o s)) m' <> None) ->
  kn (K (length pre)) y ->
  sf (k (fst (exec o s))) Q (O (length pre)) (K (length pre)) ->
  keeps_inv l pre o k post s.
Proof.
  intros RI Ea E1 E2 Ef Ek Hy H. unfold keeps_inv. rewrite Ea. set (t := length pre) in *. set (s' := snd (exec o s)) in *.
  exists (upd_at O t (O t)), (upd_at K t (K t)).
  assert (Al : forall x, alloc s x -> alloc s' x) by (apply alloc_eq; rewrite ?E1, ?E2; reflexivity).
  assert (Co : forall x K0, alloc s x -> ~ O t x -> contents_in s K0 x -> contents_in s' K0 x)
    by (intros; apply (contents_heap s); assumption).
  assert (Ow : forall x, O t x -> (O t x \/ ~ alloc s x) /\ alloc s' x /\ contents_in s' (K t) x).
  { intros x Hx. split; [left; exact Hx|]. split; [apply Al; eapply ri_al; eassumption|].
    apply (contents_heap s); auto. eapply ri_in; eassumption. }
  assert (Ac : forall x, accesses (APut m) x -> O t x \/ ~ alloc s x /\ alloc s' x /\ APut m = AWrite x \/ APut m = ARead x /\ kn (K t) x)
    by (intros x [X|X]; discriminate).
  eapply RInv_step; try exact RI; auto.
  - discriminate.
  - eapply (transfer l s s' O K t (APut m) (O t) (K t)); auto; [|apply (ri_K _ _ _ _ _ _ RI)]. intros j. apply past_ext.
  - intros m' x Hm. apply Ef in Hm. destruct Hm as [[Ne Hm]|[-> ->]]; [left; split; [assumption|congruence]|right; auto].
  - eapply next_sf; eassumption.
Qed.

(** Reading memory. *)
Lemma do_read l pre o (k : resp o -> prog A) post s O K x :
  RInv Q l (pre ++ Do o k :: post) s O K -> act_of o s = ARead x -> snd (exec o s) = s ->
  kn (K (length pre)) x ->
  sf (k (fst (exec o s))) Q (O (length pre)) (K (length pre)) ->
  keeps_inv l pre o k post s.
Proof.
  intros RI Ea Es Hx H. unfold keeps_inv. rewrite Ea, Es. set (t := length pre) in *.
  exists (upd_at O t (O t)), (upd_at K t (K t)).
  assert (Ow : forall x, O t x -> (O t x \/ ~ alloc s x) /\ alloc s x /\ contents_in s (K t) x).
  { intros y Hy. split; [left; exact Hy|]. split; [eapply ri_al; eassumption|eapply ri_in; eassumption]. }
  assert (Ac : forall y, accesses (ARead x) y -> O t y \/ ~ alloc s y /\ alloc s y /\ ARead x = AWrite y \/ ARead x = ARead y /\ kn (K t) y).
  { intros y [X|X]; [|discriminate]. inversion X; subst. right. right. auto. }
  eapply RInv_step; try exact RI; auto.
  - discriminate.
  - eapply (transfer l s s O K t (ARead x) (O t) (K t)); auto; [|apply (ri_K _ _ _ _ _ _ RI)]. intros j. apply past_ext.
  - intros m' y Hm. left. split; [assumption|discriminate].
  - eapply next_sf; eassumption.
Qed.

(** Allocating. *)
Lemma do_new l pre o (k : resp o -> prog A) post s O K x :
  RInv Q l (pre ++ Do o k :: post) s O K -> act_of o s = AWrite x ->
  ~ alloc s x -> alloc (snd (exec o s)) x -> (forall K0, contents_in (snd (exec o s)) K0 x) ->
  (forall y, alloc s y -> alloc (snd (exec o s)) y) ->
  (forall y K0, alloc s y -> contents_in s K0 y -> contents_in (snd (exec o s)) K0 y) ->
  (forall m, find (snd (exec o s)) m = find s m) ->
  (~ O (length pre) x -> sf (k (fst (exec o s))) Q (add (O (length pre)) x) (K (length pre))) ->
  keeps_inv l pre o k post s.
Proof.
  intros RI Ea Nx Ax Cx Al Co Ef H. unfold keeps_inv. rewrite Ea. set (t := length pre) in *. set (s' := snd (exec o s)) in *.
  exists (upd_at O t (add (O t) x)), (upd_at K t (K t)).
  assert (Ow : forall y, add (O t) x y -> (O t y \/ ~ alloc s y) /\ alloc s' y /\ contents_in s' (K t) y).
  { intros y [->|Hy]; [auto|]. split; [left; exact Hy|]. split; [apply Al; eapply ri_al; eassumption|].
    apply Co; [eapply ri_al; eassumption|eapply ri_in; eassumption]. }
  assert (Ac : forall y, accesses (AWrite x) y -> O t y \/ ~ alloc s y /\ alloc s' y /\ AWrite x = AWrite y \/ AWrite x = ARead y /\ kn (K t) y).
  { intros y [X|X]; [discriminate|]. inversion X; subst. right. left. auto. }
  eapply RInv_step; try exact RI; auto.
  - intros m Hm. rewrite Ef. exact Hm.
  - intros c X. inversion X; subst. exact Ax.
  - eapply (transfer l s s' O K t (AWrite x) (add (O t) x) (K t)); auto; [|apply (ri_K _ _ _ _ _ _ RI)]. intros j. apply past_ext.
  - intros m' y Hm. left. rewrite Ef in Hm. split; [assumption|discriminate].
  - eapply next_sf; [exact RI|]. apply H. intros X. apply Nx. eapply ri_al; eassumption.
Qed.

(** Writing memory that is still being built; [fin]: for the last time. *)
Lemma do_write l pre o (k : resp o -> prog A) post s O K x (fin : bool) :
  RInv Q l (pre ++ Do o k :: post) s O K -> act_of o s = AWrite x -> O (length pre) x ->
  (forall y, alloc s y -> alloc (snd (exec o s)) y) ->
  (forall y K0, y <> x -> contents_in s K0 y -> contents_in (snd (exec o s)) K0 y) ->
  contents_in (snd (exec o s)) (K (length pre)) x ->
  (forall m, find (snd (exec o s)) m = find s m) ->
  sf (k (fst (exec o s))) Q (if fin then rem (O (length pre)) x else O (length pre))
     (if fin then add (K (length pre)) x else K (length pre)) ->
  keeps_inv l pre o k post s.
Proof.
  intros RI Ea Ox Al Co Cx Ef H. unfold keeps_inv. rewrite Ea. set (t := length pre) in *. set (s' := snd (exec o s)) in *.
  set (O' := if fin then rem (O t) x else O t) in *. set (K' := if fin then add (K t) x else K t) in *.
  exists (upd_at O t O'), (upd_at K t K').
  assert (S : sub (K t) K') by (unfold K'; destruct fin; [apply sub_add|apply sub_refl]).
  assert (OO : forall y, O' y -> O t y) by (unfold O'; destruct fin; [intros y [_ Y]; exact Y|auto]).
  assert (Co' : forall y K0, alloc s y -> ~ O t y -> contents_in s K0 y -> contents_in s' K0 y).
  { intros y K0 _ Ny. apply Co. intros ->. contradiction. }
  assert (Ow : forall y, O' y -> (O t y \/ ~ alloc s y) /\ alloc s' y /\ contents_in s' K' y).
  { intros y Hy. apply OO in Hy. split; [left; exact Hy|]. split; [apply Al; eapply ri_al; eassumption|].
    eapply contents_in_sub; [exact S|]. assert (D : y = x \/ y <> x).
    { destruct x as [[a|a]|a], y as [[b|b]|b]; try (right; discriminate);
        [apply (ri_al _ _ _ _ _ _ RI) in Hy; destruct Hy| |]; (destruct (Nat.eq_dec b a); [left; congruence|right; congruence]). }
    destruct D as [->|D]; [assumption|]. apply Co; [assumption|]. eapply ri_in; eassumption. }
  assert (Ac : forall y, accesses (AWrite x) y -> O t y \/ ~ alloc s y /\ alloc s' y /\ AWrite x = AWrite y \/ AWrite x = ARead y /\ kn (K t) y).
  { intros y [X|X]; [discriminate|]. inversion X; subst. left. assumption. }
  assert (T : ok s' (l ++ [(t, AWrite x)]) (free (upd_at O t O')) (K t) (past (l ++ [(t, AWrite x)]) t)).
  { eapply (transfer l s s' O K t (AWrite x) O' K'); auto; [|apply (ri_K _ _ _ _ _ _ RI)]. intros j. apply past_ext. }
  eapply RInv_step; try exact RI; auto.
  - intros m Hm. rewrite Ef. exact Hm.
  - intros c X. inversion X; subst. apply (ri_al _ _ _ _ _ _ RI) in Ox. exact Ox.
  - unfold K'. destruct fin; [|exact T]. intros y [->|Hy].
    + split; [apply Al; eapply ri_al; eassumption|]. split; [|split].
      * intros u Hu. destruct (Nat.eq_dec u t) as [->|Nu].
        -- rewrite upd_at_eq in Hu. destruct Hu as [Hu _]. apply Hu. reflexivity.
        -- rewrite upd_at_neq in Hu by assumption. apply Nu. eapply (ri_dis _ _ _ _ _ _ RI); eassumption.
      * eapply contents_in_sub; [apply sub_add|exact Cx].
      * intros i u E. apply nth_ext_inv in E. destruct E as [E|[-> E]]; [|apply past_self].
        assert (u = t) by (eapply (ri_own _ _ _ _ _ _ RI); [exact Ox|exact E|right; reflexivity]). subst u.
        exists i, (AWrite x). split; [apply nth_ext; exact E|left; reflexivity].
    + destruct (T y Hy) as (T1 & T2 & T3 & T4). split; [assumption|]. split; [assumption|]. split; [|assumption].
      eapply contents_in_sub; [apply sub_add|exact T3].
  - intros m' y Hm. left. rewrite Ef in Hm. split; [assumption|discriminate].
  - eapply next_sf; eassumption.
Qed.
End Do.

Lemma assoc_cons {K V} (dec : forall a b : K, {a = b} + {a <> b}) k k' (v : V) l :
  assoc dec k ((k', v) :: l) = if dec k k' then Some v else assoc dec k l.
Proof. reflexivity. Qed.

Lemma do_op {A} (Q : A -> locset -> locset -> Prop) l pre o (k : resp o -> prog A) post s O K :
  RInv Q l (pre ++ Do o k :: post) s O K -> keeps_inv Q l pre o k post s.
Proof.
  intros RI. pose proof (ri_sf _ _ _ _ _ _ RI _ _ (nth_mid_eq _ _ _)) as H. cbn [sf] in H.
  destruct o as [q|q i|q i|ty|ty c|c|c d| |c b| |i fs|i fs|c|i]; cbn [op_pre] in H.
  - apply (do_get Q l pre (InfoLoad q) k post s O K (MInfo q)); auto. cbn. intros K' S F W. apply H; [assumption| |intros Hu E; apply (W q Hu); rewrite E; reflexivity].
    destruct (assoc skey_eq_dec q (g_infoCache s)); cbn; [exact (F _ eq_refl)|exact Logic.I].
  - destruct H as [H1 H2]. apply (do_put Q l pre (InfoStore q i) k post s O K (MInfo q) (LInfo i)); auto.
    1: intros [q'|t'|c'] x; cbn; try (intros E; left; split; [discriminate|assumption]);
    destruct (skey_eq_dec q' q) as [->|N]; cbn; [intros E; right; split; congruence|intros E; left; split; [congruence|assumption]].
    intros [q'|t'|c']; cbn; try exact (fun X => X). destruct (skey_eq_dec q' q); cbn; [discriminate|auto].
  - destruct H as [H1 H2]. destruct (assoc skey_eq_dec q (g_infoCache s)) as [j|] eqn:E.
    + apply (do_get Q l pre (InfoLoadOrStore q i) k post s O K (MInfo q)); auto; cbn; rewrite ?E; auto.
      cbn. intros K' S F _. apply H2; [assumption|]. apply (F _ eq_refl).
    + apply (do_put Q l pre (InfoLoadOrStore q i) k post s O K (MInfo q) (LInfo i)); auto; cbn; rewrite ?E; auto.
      * intros [q'|t'|c'] x; cbn; try (intros E'; left; split; [discriminate|assumption]).
        destruct (skey_eq_dec q' q) as [->|N]; cbn; [intros E'; right; split; congruence|intros E'; left; split; [congruence|assumption]].
      * intros [q'|t'|c']; cbn; try exact (fun X => X); destruct (skey_eq_dec q' q); cbn; [discriminate|auto].
      * cbn. apply H2; [apply sub_refl|assumption].
  - apply (do_get Q l pre (CodecLoad ty) k post s O K (MCodec ty)); auto. cbn. intros K' S F _. apply H; [assumption|].
    destruct (assoc gotype_eq_dec ty (g_codecCache s)); cbn; [exact (F _ eq_refl)|exact Logic.I].
  - destruct H as [H1 H2]. destruct (assoc gotype_eq_dec ty (g_codecCache s)) as [j|] eqn:E.
    + apply (do_get Q l pre (CodecLoadOrStore ty c) k post s O K (MCodec ty)); auto; cbn; rewrite ?E; auto.
      cbn. intros K' S F _. apply H2; [assumption|]. apply (F _ eq_refl).
    + apply (do_put Q l pre (CodecLoadOrStore ty c) k post s O K (MCodec ty) (LCodec c)); auto; cbn; rewrite ?E; auto.
      * intros [q'|t'|c'] x; cbn; try (intros E'; left; split; [discriminate|assumption]).
        destruct (gotype_eq_dec t' ty) as [->|N]; cbn; [intros E'; right; split; congruence|intros E'; left; split; [congruence|assumption]].
      * intros [q'|t'|c']; cbn; try exact (fun X => X); destruct (gotype_eq_dec t' ty); cbn; [discriminate|auto].
      * cbn. apply H2; [apply sub_refl|assumption].
  - apply (do_get Q l pre (SliceLoad c) k post s O K (MSlice c)); auto. cbn. intros K' S F _. apply H; [assumption|].
    destruct (assoc cref_eq_dec c (g_sliceMap s)); cbn; [exact (F _ eq_refl)|exact Logic.I].
  - destruct H as [H1 H2]. destruct (assoc cref_eq_dec c (g_sliceMap s)) as [j|] eqn:E.
    + apply (do_get Q l pre (SliceLoadOrStore c d) k post s O K (MSlice c)); auto; cbn; rewrite ?E; auto.
      cbn. intros K' S F _. apply H2; [assumption|]. apply (F _ eq_refl).
    + apply (do_put Q l pre (SliceLoadOrStore c d) k post s O K (MSlice c) (LCodec d)); auto; cbn; rewrite ?E; auto.
      * intros [q'|t'|c'] x; cbn; try (intros E'; left; split; [discriminate|assumption]).
        destruct (cref_eq_dec c' c) as [->|N]; cbn; [intros E'; right; split; congruence|intros E'; left; split; [congruence|assumption]].
      * intros [q'|t'|c']; cbn; try exact (fun X => X); destruct (cref_eq_dec c' c); cbn; [discriminate|auto].
      * cbn. apply H2; [apply sub_refl|assumption].
  - apply (do_new Q l pre NewCell k post s O K (LCodec (CCell (length (g_cells s))))); auto; cbn.
    + lia.
    + rewrite app_length. cbn. lia.
    + intros K0. rewrite nth_error_app2, Nat.sub_diag by lia. exact Logic.I.
    + intros [[c|n]|n]; cbn; rewrite ?app_length; cbn; lia.
    + intros [[c|n]|n] K0; cbn; auto. intros L. rewrite nth_error_app1 by assumption. auto.
    + apply H.
  - destruct H as (H1 & H2 & H3). destruct c as [c|n]; [apply (ri_al _ _ _ _ _ _ RI) in H1; destruct H1|].
    assert (L : n < length (g_cells s)) by (apply (ri_al _ _ _ _ _ _ RI) in H1; exact H1).
    apply (do_write Q l pre (Fill (CCell n) b) k post s O K (LCodec (CCell n)) true); auto; cbn; unfold upd.
    + intros [[c|m]|m]; cbn; rewrite ?set_length'; auto.
    + intros [[c|m]|m] K0 Ne; cbn; auto. rewrite nth_set_neq' by congruence. auto.
    + rewrite nth_set_eq' by assumption. assumption.
  - apply (do_new Q l pre NewInfo k post s O K (LInfo (length (g_infos s)))); auto; cbn.
    + lia.
    + rewrite app_length. cbn. lia.
    + intros K0. unfold higet. cbn. rewrite nth_error_app2, Nat.sub_diag by lia. split; constructor.
    + intros [[c|n]|n]; cbn; rewrite ?app_length; cbn; lia.
    + intros [[c|n]|n] K0; cbn; auto. intros L. unfold higet. cbn. rewrite nth_error_app1 by assumption. auto.
  - destruct H as (H1 & H2 & H3).
    assert (L : i < length (g_infos s)) by (apply (ri_al _ _ _ _ _ _ RI) in H1; exact H1).
    pose proof (ri_in _ _ _ _ _ _ RI _ _ H1) as C. cbn in C. unfold higet in C.
    destruct (nth_error (g_infos s) i) as [x|] eqn:E; [|apply nth_error_None in E; lia].
    apply (do_write Q l pre (SetFields i fs) k post s O K (LInfo i) false); auto; cbn; rewrite ?E; unfold upd.
    + intros [[c|m]|m]; cbn; rewrite ?set_length'; auto.
    + intros [[c|m]|m] K0 Ne; cbn; auto. unfold higet. cbn. rewrite nth_set_neq' by congruence. auto.
    + unfold higet. cbn. rewrite nth_set_eq' by assumption. split; cbn; [assumption|apply C].
    + intros [q|t|c]; reflexivity.
  - destruct H as (H1 & H2 & H3).
    assert (L : i < length (g_infos s)) by (apply (ri_al _ _ _ _ _ _ RI) in H1; exact H1).
    pose proof (ri_in _ _ _ _ _ _ RI _ _ H1) as C. cbn in C. unfold higet in C.
    destruct (nth_error (g_infos s) i) as [x|] eqn:E; [|apply nth_error_None in E; lia].
    apply (do_write Q l pre (SetIndex i fs) k post s O K (LInfo i) true); auto; cbn; rewrite ?E; unfold upd.
    + intros [[c|m]|m]; cbn; rewrite ?set_length'; auto.
    + intros [[c|m]|m] K0 Ne; cbn; auto. unfold higet. cbn. rewrite nth_set_neq' by congruence. auto.
    + unfold higet. cbn. rewrite nth_set_eq' by assumption. split; cbn; [apply C|assumption].
    + intros [q|t|c]; reflexivity.
  - destruct H as [H1 H2]. apply (do_read Q l pre (ReadCell c) k post s O K (LCodec c)); auto. cbn. apply H2.
    destruct c as [c|n]; [exact Logic.I|]. apply (ri_K _ _ _ _ _ _ RI (length pre) _ H1).
  - destruct H as [H1 H2]. apply (do_read Q l pre (ReadInfo i) k post s O K (LInfo i)); auto. cbn. apply H2.
    apply (ri_K _ _ _ _ _ _ RI (length pre) _ H1).
Qed.

Definition none : locset := fun _ => False.
(** Nothing refers to memory that is not there. *)
Definition closed (s : gstate) : Prop :=
  (forall x, alloc s x -> contents_in s (alloc s) x) /\ (forall m x, find s m = Some x -> kn (alloc s) x).
Lemma RInv_start {A} (Q : A -> locset -> locset -> Prop) ts s : closed s -> (forall k, U k -> find s (MInfo k) <> None) ->
  Forall (fun p => sf p Q none (alloc s)) ts ->
  RInv Q [] ts s (fun _ => none) (fun _ => alloc s).
Proof.
  intros [C1 C2] Hu H. split; try (intros; contradiction).
  - intros t p E. rewrite Forall_forall in H. apply H. eapply nth_error_In; exact E.
  - intros t x Hx. split; [exact Hx|]. split; [intros u []|]. split; [apply C1; exact Hx|]. intros [|i]; discriminate.
  - intros m x E. exists (alloc s). split; [eapply C2; exact E|]. right.
    intros y Hy. split; [exact Hy|]. split; [intros u []|]. split; [apply C1; exact Hy|]. intros [|i]; discriminate.
  - exact Hu.
  - intros i. intros. destruct i; discriminate.
  - intros i. intros. destruct i; discriminate.
Qed.

Lemma race_free_of l : (forall i j t u a b x, i < j -> nth_error l i = Some (t, a) -> nth_error l j = Some (u, b) ->
    accesses a x -> accesses b x -> (writes a x \/ writes b x) -> before l i j) -> race_free l.
Proof.
  intros H i j (t & u & a & b & x & Hi & Hj & Ha & Hb & W & Ne & N1 & N2).
  destruct (Nat.lt_total i j) as [L|[L|L]]; [apply N1|contradiction|apply N2]; eapply H; try eassumption. tauto.
Qed.

Lemma traced_inv Q ts s0 l c : closed s0 -> (forall k, U k -> find s0 (MInfo k) <> None) ->
  Forall (fun p => sf p Q none (alloc s0)) ts -> traced (ts, s0) l c ->
  exists O K, RInv Q l (fst c) (snd c) O K.
Proof.
  intros Hc Hu H. induction 1 as [|l pre o k post s _ IH].
  - eexists. eexists. apply RInv_start; assumption.
  - destruct IH as (O & K & IH). exact (do_op _ _ _ _ _ _ _ _ _ IH).
Qed.
Lemma traced_race_free Q ts s0 l c : closed s0 -> (forall k, U k -> find s0 (MInfo k) <> None) ->
  Forall (fun p => sf p Q none (alloc s0)) ts -> traced (ts, s0) l c -> race_free l.
Proof.
  intros Hc Hu H T. destruct (traced_inv Q ts s0 l c Hc Hu H T) as (O & K & R). apply race_free_of. apply (ri_rf _ _ _ _ _ _ R).
Qed.
End Used.
