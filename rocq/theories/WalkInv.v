(** The walker and the caches, for declarations that are [supported]: whatever
    other goroutines do meanwhile, every codec that gets built is the one the
    pure resolution (Resolve.v) assigns to its type.

    Technique: ghost lists name the intended codec of every heap cell and the
    struct type of every heap info; [wp] is a weakest precondition for the
    programs of Walker.v that allows interference between any two operations. *)
From Coq Require Import ZifyBool ZifyNat ZifyN String.
From Verif Require Import Base Wire GoType Leaf Codec Tag Walker Resolve Typing SpecWire WireFacts DecodeFacts
  GenFacts TypingFacts CodecSim.

(** Some struct types stay in structInfoCache, those in [W]. Types that nest
    less than [N] deep down to those in [W] are complete at all times if reachable
    from a cache; others may be incomplete while they are built. *)
Definition mode := (nat * (skey -> bool))%type.
Definition lv (ac : mode) : nat := fst ac.
Definition wk (ac : mode) (k : skey) : bool := snd ac k.
(** For calls made one after the other. *)
Definition alone : mode := (0, fun _ => false).

(** ** Levels of types: how deep they nest, down to the types in [W]. *)
Section Levels.
Variable D : decls.
Variable ac : mode.
Fixpoint okh (n : nat) (t : gotype) {struct n} : bool :=
  match n with
  | O => false
  | S m =>
    match t with
    | TSlice e | TPtr e => okh m e
    | TMap _ v => match m with O => false | S m' => okh m' v end
    | TMsg sid => match m with O => false | S m' => wk ac (SNamed sid) || forallb (okh m') (field_types D sid) end
    | _ => true
    end
  end.
Definition okk (n : nat) (k : skey) : bool :=
  match n with O => false | S m => wk ac k || forallb (okh m) (key_types D k) end.

Lemma okh_S n : forall t, okh n t = true -> okh (S n) t = true.
Proof.
  induction n as [n IH] using lt_wf_ind. intros t. destruct n as [|m]; [discriminate|].
  destruct t; try reflexivity; intros H.
  - change (okh m t = true) in H. change (okh (S m) t = true). apply IH; [lia|exact H].
  - destruct m as [|m']; [discriminate|]. change (okh m' t = true) in H.
    change (okh (S m') t = true). apply IH; [lia|exact H].
  - change (okh m t = true) in H. change (okh (S m) t = true). apply IH; [lia|exact H].
  - destruct m as [|m']; [discriminate|]. change (wk ac (SNamed sid) || forallb (okh m') (field_types D sid) = true) in H.
    change (wk ac (SNamed sid) || forallb (okh (S m')) (field_types D sid) = true).
    apply orb_true_iff in H. apply orb_true_iff. destruct H as [H|H]; [left; exact H|right].
    rewrite forallb_forall in *. intros x Hx. apply IH; [lia|auto].
Qed.
Lemma okh_le n m t : n <= m -> okh n t = true -> okh m t = true.
Proof. induction 1; [auto|]. intros H1. apply okh_S. auto. Qed.
Lemma okk_S n k : okk n k = true -> okk (S n) k = true.
Proof.
  destruct n as [|n]; [discriminate|]. unfold okk. rewrite !orb_true_iff, !forallb_forall.
  intros [H|H]; [left; exact H|right]. intros x Hx. apply okh_S. auto.
Qed.
Lemma okk_le n m k : n <= m -> okk n k = true -> okk m k = true.
Proof. induction 1; [auto|]. intros H1. apply okk_S. auto. Qed.
Lemma min_level (f : nat -> bool) n : f 0 = false -> f n = true -> exists m, m < n /\ f (S m) = true /\ f m = false.
Proof.
  intros H0. induction n as [|n IH]; intros H; [congruence|].
  destruct (f n) eqn:E; [destruct (IH eq_refl) as (m & A & B & C); exists m; repeat split; auto|].
  exists n. repeat split; auto.
Qed.
End Levels.

Section Walk.
Variable D : decls.
Hypothesis HD : supported D = true.
Variable ac : mode.
Notation flat t := (okh D ac (lv ac) t = true).
Notation flatk k := (okk D ac (lv ac) k = true).

(** ** Ghost state *)
Record gh := { gc : list pref; gi : list skey }.

Definition refp (G : gh) (c : cref) (p : pref) : Prop :=
  match c with CStatic s => p = PStatic s | CCell n => nth_error (gc G) n = Some p end.
Definition refi (G : gh) (i : iref) (k : skey) : Prop := nth_error (gi G) i = Some k.

Definition bmatch G (b : hbody) (p : pref) : Prop := body_rel (refp G) (refi G) b (plook p).
Definition FM G (fs : list hfield) (k : skey) : Prop := Forall2 (field_rel (refp G)) fs (i_fields (piget D k)).
Definition ic G (x : hinfo) (k : skey) : Prop :=
  (i_fields x = [] \/ FM G (i_fields x) k) /\ (i_index x = [] \/ FM G (i_index x) k).
Definition idone G (x : hinfo) (k : skey) : Prop := FM G (i_fields x) k /\ FM G (i_index x) k.

(** A reference is good if everything reachable from it is complete: the
    greatest such predicate. *)
Definition cell_ok G s (P : cref -> Prop) (PI : iref -> Prop) (c : cref) : Prop :=
  match c with
  | CStatic _ => True
  | CCell n => exists b p, nth_error (g_cells s) n = Some b /\ nth_error (gc G) n = Some p /\
      body_rel (fun c p => refp G c p /\ P c) (fun i k => refi G i k /\ PI i) b (plook p)
  end.
Definition info_ok G s (P : cref -> Prop) (i : iref) : Prop :=
  exists x k, nth_error (g_infos s) i = Some x /\ refi G i k /\
    Forall2 (field_rel (fun c p => refp G c p /\ P c)) (i_fields x) (i_fields (piget D k)) /\
    Forall2 (field_rel (fun c p => refp G c p /\ P c)) (i_index x) (i_fields (piget D k)).
Definition closed G s (P : cref -> Prop) (PI : iref -> Prop) : Prop :=
  (forall c, P c -> cell_ok G s P PI c) /\ (forall i, PI i -> info_ok G s P i).
Definition good G s (c : cref) : Prop := exists P PI, closed G s P PI /\ P c.
Definition goodi G s (i : iref) : Prop := exists P PI, closed G s P PI /\ PI i.

Record Inv (G : gh) (s : gstate) : Prop := {
  inv_lc : length (gc G) = length (g_cells s);
  inv_li : length (gi G) = length (g_infos s);
  inv_cells : forall n b p, nth_error (g_cells s) n = Some b -> nth_error (gc G) n = Some p ->
      b = BNil \/ bmatch G b p;
  inv_infos : forall n x k, nth_error (g_infos s) n = Some x -> refi G n k -> ic G x k;
  inv_ic : forall k i, In (k, i) (g_infoCache s) -> refi G i k /\ (flatk k -> goodi G s i);
  inv_cc : forall t c, In (t, c) (g_codecCache s) ->
      exists k, struct_ptr t = Some k /\ refp G c (PStruct k) /\ (flat t -> good G s c);
  inv_sm : forall c d, In (c, d) (g_sliceMap s) ->
      exists e p, refp G c p /\ refp G d (PSlice e p) /\ flat_fits D p e = true /\ (flat (TSlice e) -> good G s d);
  inv_w : forall k, wk ac k = true -> assoc skey_eq_dec k (g_infoCache s) <> None
}.

(** ** Interference *)
Record own := { oc : list nat; oi : list nat }.

Definition gext (G G' : gh) : Prop :=
  (exists x, gc G' = gc G ++ x) /\ (exists y, gi G' = gi G ++ y).

Record keeps (G : gh) (s : gstate) (G' : gh) (s' : gstate) : Prop := {
  k_ext : gext G G';
  k_cells : forall n b, nth_error (g_cells s) n = Some b -> b <> BNil -> nth_error (g_cells s') n = Some b;
  k_infos : forall i x k, nth_error (g_infos s) i = Some x -> refi G i k -> idone G x k ->
      nth_error (g_infos s') i = Some x
}.

(** What others may do between two of our operations, and also what one of our
    calls does as seen by its caller, who owns [o]. *)
Record rely (o : own) (G : gh) (s : gstate) (G' : gh) (s' : gstate) : Prop := {
  r_inv : Inv G' s';
  r_keeps : keeps G s G' s';
  r_cells : forall n, In n (oc o) -> nth_error (g_cells s') n = nth_error (g_cells s) n;
  r_infos : forall i, In i (oi o) -> nth_error (g_infos s') i = nth_error (g_infos s) i
}.

(** One of our own operations. *)
Record gstep (o : own) (G : gh) (s : gstate) (o' : own) (G' : gh) (s' : gstate) : Prop := {
  gs_inv : Inv G' s';
  gs_keeps : keeps G s G' s';
  gs_cells : forall n, n < length (g_cells s) -> ~ In n (oc o) -> nth_error (g_cells s') n = nth_error (g_cells s) n;
  gs_infos : forall i, i < length (g_infos s) -> ~ In i (oi o) -> nth_error (g_infos s') i = nth_error (g_infos s) i;
  gs_oc : forall n, In n (oc o') -> In n (oc o) \/ length (g_cells s) <= n;
  gs_oi : forall n, In n (oi o') -> In n (oi o) \/ length (g_infos s) <= n;
  gs_fill : forall n b, nth_error (g_cells s') n = Some b ->
      b <> BNil \/ In n (oc o') \/ (~ In n (oc o) /\ nth_error (g_cells s) n = Some b);
  gs_done : forall i x k, nth_error (g_infos s') i = Some x -> refi G' i k ->
      idone G' x k \/ In i (oi o') \/ (~ In i (oi o) /\ nth_error (g_infos s) i = Some x)
}.

Definition own_ok (o : own) (s : gstate) : Prop :=
  (forall n, In n (oc o) -> n < length (g_cells s)) /\ (forall i, In i (oi o) -> i < length (g_infos s)).

Fixpoint wp {A} (p : prog A) (Q : A -> own -> gh -> gstate -> Prop) (o : own) (G : gh) (s : gstate) : Prop :=
  match p with
  | Ret a => Q a o G s
  | Panic => False
  | NoFuel => True
  | Do op k => forall G1 s1, rely o G s G1 s1 ->
      exists o2 G2, gstep o G1 s1 o2 G2 (snd (exec op s1)) /\ own_ok o2 (snd (exec op s1)) /\
                    wp (k (fst (exec op s1))) Q o2 G2 (snd (exec op s1))
  end.

Lemma wp_conseq {A} (p : prog A) (Q1 Q2 : A -> own -> gh -> gstate -> Prop) : forall o G s,
  (forall a o' G' s', Q1 a o' G' s' -> Q2 a o' G' s') -> wp p Q1 o G s -> wp p Q2 o G s.
Proof.
  induction p as [a| | |op k IH]; intros o G s H; cbn [wp]; auto.
  intros W G1 s1 R. destruct (W G1 s1 R) as (o2 & G2 & S & O & W2).
  exists o2, G2. split; [assumption|]. split; [assumption|]. apply IH; assumption.
Qed.
Lemma wp_bind {A B} (p : prog A) (k : A -> prog B) Q : forall o G s,
  wp p (fun a o' G' s' => wp (k a) Q o' G' s') o G s -> wp (pbind p k) Q o G s.
Proof.
  induction p as [a| | |op c IH]; intros o G s; cbn [wp pbind]; auto.
  intros W G1 s1 R. destruct (W G1 s1 R) as (o2 & G2 & S & O & W2).
  exists o2, G2. split; [assumption|]. split; [assumption|]. apply IH; assumption.
Qed.

(** ** Monotonicity *)
Lemma nth_app_some {A} (l m : list A) n x : nth_error l n = Some x -> nth_error (l ++ m) n = Some x.
Proof. intros H. rewrite nth_error_app1; [assumption|]. apply nth_error_Some. congruence. Qed.
Lemma refp_ext G G' c p : gext G G' -> refp G c p -> refp G' c p.
Proof. intros [(x & E) _]. destruct c; cbn; [auto|]. rewrite E. apply nth_app_some. Qed.
Lemma refi_ext G G' i k : gext G G' -> refi G i k -> refi G' i k.
Proof. intros [_ (x & E)]. unfold refi. rewrite E. apply nth_app_some. Qed.
Lemma gext_refl G : gext G G.
Proof. split; exists []; rewrite app_nil_r; reflexivity. Qed.
Lemma gext_trans G1 G2 G3 : gext G1 G2 -> gext G2 G3 -> gext G1 G3.
Proof.
  intros [(a & A) (b & B)] [(c & C) (d & E)]. split; [exists (a ++ c)|exists (b ++ d)];
    rewrite ?C, ?E, ?A, ?B, app_assoc; reflexivity.
Qed.
Lemma refp_fun G c p q : refp G c p -> refp G c q -> p = q.
Proof. destruct c; cbn; congruence. Qed.

Lemma field_rel_mono {R1 R2} (P Q : R1 -> R2 -> Prop) f1 f2 : (forall a b, P a b -> Q a b) ->
  field_rel P f1 f2 -> field_rel Q f1 f2.
Proof. intros H (A & B & C). repeat split; auto. Qed.
Lemma Forall2_mono {A B} (P Q : A -> B -> Prop) l m : (forall a b, P a b -> Q a b) -> Forall2 P l m -> Forall2 Q l m.
Proof. intros H. induction 1; constructor; auto. Qed.
Lemma body_rel_mono {R1 I1 R2 I2} (P Q : R1 -> R2 -> Prop) (PI QI : I1 -> I2 -> Prop) b1 b2 :
  (forall a b, P a b -> Q a b) -> (forall a b, PI a b -> QI a b) -> body_rel P PI b1 b2 -> body_rel Q QI b1 b2.
Proof. intros H HI. induction 1; constructor; eauto using field_rel_mono. Qed.

Lemma FM_ext G G' fs k : gext G G' -> FM G fs k -> FM G' fs k.
Proof. intros E. apply Forall2_mono. intros a b. apply field_rel_mono. intros c p. apply refp_ext. assumption. Qed.
Lemma idone_ext G G' x k : gext G G' -> idone G x k -> idone G' x k.
Proof. intros E [A B]. split; eapply FM_ext; eassumption. Qed.
Lemma ic_ext G G' x k : gext G G' -> ic G x k -> ic G' x k.
Proof. intros E [[A|A] [B|B]]; split; eauto using FM_ext. Qed.
Lemma bmatch_ext G G' b p : gext G G' -> bmatch G b p -> bmatch G' b p.
Proof. intros E. apply body_rel_mono; [intros c q; apply refp_ext; assumption|intros i k; apply refi_ext; assumption]. Qed.

(** ** Goodness *)
Lemma cell_ok_mono G s (P Q : cref -> Prop) (PI QI : iref -> Prop) c :
  (forall c, P c -> Q c) -> (forall i, PI i -> QI i) -> cell_ok G s P PI c -> cell_ok G s Q QI c.
Proof.
  intros H HI. destruct c as [|n]; [auto|]. intros (b & p & E1 & E2 & B). exists b, p. repeat split; auto.
  eapply body_rel_mono; [| |exact B]; cbn; intros a c [X Y]; auto.
Qed.
Lemma info_ok_mono G s (P Q : cref -> Prop) i :
  (forall c, P c -> Q c) -> info_ok G s P i -> info_ok G s Q i.
Proof.
  intros H (x & k & E1 & E2 & A & B). exists x, k. split; [assumption|]. split; [assumption|].
  split; (eapply Forall2_mono; [|eassumption]); cbn beta; intros a b; apply field_rel_mono; intros c p [X Y]; auto.
Qed.
Lemma good_elim G s c : good G s c -> cell_ok G s (good G s) (goodi G s) c.
Proof.
  intros (P & PI & [Hc Hi] & H). apply (cell_ok_mono G s P _ PI).
  - intros d Hd. exists P, PI. split; [split|]; assumption.
  - intros i Hd. exists P, PI. split; [split|]; assumption.
  - apply Hc. assumption.
Qed.
Lemma goodi_elim G s i : goodi G s i -> info_ok G s (good G s) i.
Proof.
  intros (P & PI & [Hc Hi] & H). apply (info_ok_mono G s P).
  - intros d Hd. exists P, PI. split; [split|]; assumption.
  - apply Hi. assumption.
Qed.
Lemma good_intro G s c : cell_ok G s (good G s) (goodi G s) c -> good G s c.
Proof.
  intros H. exists (fun d => d = c \/ good G s d), (goodi G s). split; [|left; reflexivity]. split.
  - intros d [->|Hd]; [|apply good_elim in Hd; revert Hd]; [revert H|];
      (apply cell_ok_mono; [intros; right; assumption|auto]).
  - intros i Hi. apply goodi_elim in Hi. revert Hi. apply info_ok_mono. intros; right; assumption.
Qed.
Lemma goodi_intro G s i : info_ok G s (good G s) i -> goodi G s i.
Proof.
  intros H. exists (good G s), (fun j => j = i \/ goodi G s j). split; [|left; reflexivity]. split.
  - intros d Hd. apply good_elim in Hd. revert Hd. apply cell_ok_mono; [auto|intros; right; assumption].
  - intros j [->|Hj]; [exact H|apply goodi_elim; assumption].
Qed.
Lemma good_static G s x : good G s (CStatic x).
Proof. apply good_intro. exact Logic.I. Qed.

Lemma closed_keeps G s G' s' P PI : keeps G s G' s' -> closed G s P PI -> closed G' s' P PI.
Proof.
  intros K [Hc Hi]. pose proof (k_ext _ _ _ _ K) as E. split.
  - intros c H. apply Hc in H. destruct c as [|n]; [exact Logic.I|].
    destruct H as (b & p & E1 & E2 & B). exists b, p. split; [apply (k_cells _ _ _ _ K); [assumption|]|].
    + intros ->. inversion B.
    + split; [destruct E as [(x & ->) _]; apply nth_app_some; assumption|].
      eapply body_rel_mono; [| |exact B]; cbn; intros a c [X Y]; (split; [|assumption]).
      * eapply refp_ext; eassumption.
      * eapply refi_ext; eassumption.
  - intros i H. apply Hi in H. destruct H as (x & k & E1 & E2 & A & B). exists x, k.
    assert (Dn : idone G x k).
    { split; (eapply Forall2_mono; [|eassumption]); cbn beta; intros a b; apply field_rel_mono; intros c p [X Y]; auto. }
    split; [eapply (k_infos _ _ _ _ K); eassumption|]. split; [eapply refi_ext; eassumption|].
    split; (eapply Forall2_mono; [|eassumption]); cbn beta; intros a b; apply field_rel_mono; intros c p [X Y];
      (split; [eapply refp_ext; eassumption|assumption]).
Qed.
Lemma good_keeps G s G' s' c : keeps G s G' s' -> good G s c -> good G' s' c.
Proof. intros K (P & PI & C & H). exists P, PI. split; [eapply closed_keeps; eassumption|assumption]. Qed.
Lemma goodi_keeps G s G' s' c : keeps G s G' s' -> goodi G s c -> goodi G' s' c.
Proof. intros K (P & PI & C & H). exists P, PI. split; [eapply closed_keeps; eassumption|assumption]. Qed.

Lemma keeps_refl G s : keeps G s G s.
Proof. split; auto. apply gext_refl. Qed.
Lemma keeps_trans G1 s1 G2 s2 G3 s3 : keeps G1 s1 G2 s2 -> keeps G2 s2 G3 s3 -> keeps G1 s1 G3 s3.
Proof.
  intros K1 K2. pose proof (k_ext _ _ _ _ K1) as E. split.
  - eapply gext_trans; [exact E|apply K2].
  - intros n b H N. apply K2; [apply K1|]; assumption.
  - intros i x k H R Dn. eapply (k_infos _ _ _ _ K2); [eapply (k_infos _ _ _ _ K1); eassumption|eapply refi_ext; eassumption|eapply idone_ext; eassumption].
Qed.
Lemma rely_refl o G s : Inv G s -> rely o G s G s.
Proof. intros I. split; auto. apply keeps_refl. Qed.
Lemma rely_trans o G1 s1 G2 s2 G3 s3 : rely o G1 s1 G2 s2 -> rely o G2 s2 G3 s3 -> rely o G1 s1 G3 s3.
Proof.
  intros R1 R2. split.
  - apply R2.
  - eapply keeps_trans; [apply R1|apply R2].
  - intros n H. rewrite (r_cells _ _ _ _ _ R2 n H). apply R1. assumption.
  - intros n H. rewrite (r_infos _ _ _ _ _ R2 n H). apply R1. assumption.
Qed.

Lemma gext_len G G' : gext G G' -> length (gc G) <= length (gc G') /\ length (gi G) <= length (gi G').
Proof. intros [(x & ->) (y & ->)]. rewrite !app_length. lia. Qed.
Lemma own_ok_rely o G s G' s' : Inv G s -> rely o G s G' s' -> own_ok o s -> own_ok o s'.
Proof.
  intros I R [A B]. pose proof (r_inv _ _ _ _ _ R) as I'.
  destruct (gext_len _ _ (k_ext _ _ _ _ (r_keeps _ _ _ _ _ R))) as [L1 L2].
  pose proof (inv_lc _ _ I). pose proof (inv_li _ _ I). pose proof (inv_lc _ _ I'). pose proof (inv_li _ _ I').
  split; [intros n Hn; apply A in Hn|intros n Hn; apply B in Hn]; lia.
Qed.

(** ** Operations *)
Lemma assoc_in {K V} (dec : forall a b : K, {a = b} + {a <> b}) k (l : list (K * V)) v :
  assoc dec k l = Some v -> In (k, v) l.
Proof.
  induction l as [|[k' v'] l IH]; cbn; [discriminate|]. destruct (dec k k'); [intros H; inversion H; subst; auto|auto].
Qed.

Lemma gstep_refl o G s : Inv G s -> gstep o G s o G s.
Proof.
  intros I. split; auto using keeps_refl.
  - intros n b H. destruct (in_dec Nat.eq_dec n (oc o)); auto.
  - intros i x k H R. destruct (in_dec Nat.eq_dec i (oi o)); auto.
Qed.

Section Ops.
Context {A : Type}.
Variable Q : A -> own -> gh -> gstate -> Prop.
Variables (o : own) (G : gh) (s : gstate).
Hypothesis (HI : Inv G s).
Hypothesis (HO : own_ok o s).

Lemma wp_infoLoad k (c : option iref -> prog A) :
  (forall G1 s1 r, rely o G s G1 s1 -> own_ok o s1 ->
     match r with None => wk ac k = false | Some i => refi G1 i k /\ (flatk k -> goodi G1 s1 i) end ->
     wp (c r) Q o G1 s1) ->
  wp (pbind (infoLoad k) c) Q o G s.
Proof.
  intros H. cbn [infoLoad do_ pbind wp]. intros G1 s1 R. exists o, G1. cbn [exec fst snd].
  pose proof (r_inv _ _ _ _ _ R) as I1.
  split; [apply gstep_refl; assumption|]. pose proof (own_ok_rely _ _ _ _ _ HI R HO) as O1. split; [assumption|].
  apply H; try assumption. destruct (assoc skey_eq_dec k (g_infoCache s1)) as [i|] eqn:E.
  2:{ destruct (wk ac k) eqn:Ek; [|reflexivity]. apply (inv_w _ _ I1) in Ek. contradiction. }
  apply assoc_in in E. apply (inv_ic _ _ I1) in E. assumption.
Qed.

Lemma wp_codecLoad t (c : option cref -> prog A) :
  (forall G1 s1 r, rely o G s G1 s1 -> own_ok o s1 ->
     match r with
     | None => True
     | Some d => exists k, struct_ptr t = Some k /\ refp G1 d (PStruct k) /\ (flat t -> good G1 s1 d)
     end ->
     wp (c r) Q o G1 s1) ->
  wp (pbind (codecLoad t) c) Q o G s.
Proof.
  intros H. cbn [codecLoad do_ pbind wp]. intros G1 s1 R. exists o, G1. cbn [exec fst snd].
  pose proof (r_inv _ _ _ _ _ R) as I1.
  split; [apply gstep_refl; assumption|]. pose proof (own_ok_rely _ _ _ _ _ HI R HO) as O1. split; [assumption|].
  apply H; try assumption. destruct (assoc gotype_eq_dec t (g_codecCache s1)) as [i|] eqn:E; [|exact Logic.I].
  apply assoc_in in E. apply (inv_cc _ _ I1) in E. assumption.
Qed.

Lemma wp_sliceLoad d (c : option cref -> prog A) :
  (forall G1 s1 r, rely o G s G1 s1 -> own_ok o s1 ->
     match r with
     | None => True
     | Some x => exists e p, refp G1 d p /\ refp G1 x (PSlice e p) /\ flat_fits D p e = true /\ (flat (TSlice e) -> good G1 s1 x)
     end ->
     wp (c r) Q o G1 s1) ->
  wp (pbind (sliceLoad d) c) Q o G s.
Proof.
  intros H. cbn [sliceLoad do_ pbind wp]. intros G1 s1 R. exists o, G1. cbn [exec fst snd].
  pose proof (r_inv _ _ _ _ _ R) as I1.
  split; [apply gstep_refl; assumption|]. pose proof (own_ok_rely _ _ _ _ _ HI R HO) as O1. split; [assumption|].
  apply H; try assumption. destruct (assoc cref_eq_dec d (g_sliceMap s1)) as [i|] eqn:E; [|exact Logic.I].
  apply assoc_in in E. apply (inv_sm _ _ I1) in E. assumption.
Qed.

(** Cache stores leave the heap alone. *)
Lemma heap_keeps G1 s1 s2 : g_cells s2 = g_cells s1 -> g_infos s2 = g_infos s1 -> keeps G1 s1 G1 s2.
Proof. intros E1 E2. split; [apply gext_refl|rewrite E1|rewrite E2]; auto. Qed.
Lemma heap_gstep o1 G1 s1 s2 : Inv G1 s2 -> g_cells s2 = g_cells s1 -> g_infos s2 = g_infos s1 -> gstep o1 G1 s1 o1 G1 s2.
Proof.
  intros I E1 E2. split; auto using heap_keeps; rewrite ?E1, ?E2; auto.
  - intros n b H. destruct (in_dec Nat.eq_dec n (oc o1)); auto.
  - intros i x k H R. destruct (in_dec Nat.eq_dec i (oi o1)); auto.
Qed.
Lemma heap_rely o1 G1 s1 s2 : Inv G1 s2 -> g_cells s2 = g_cells s1 -> g_infos s2 = g_infos s1 -> rely o1 G1 s1 G1 s2.
Proof. intros I E1 E2. split; auto using heap_keeps; rewrite ?E1, ?E2; auto. Qed.
Lemma heap_good G1 s1 s2 c : g_cells s2 = g_cells s1 -> g_infos s2 = g_infos s1 -> good G1 s1 c -> good G1 s2 c.
Proof. intros. eapply good_keeps; [apply heap_keeps|]; eassumption. Qed.
Lemma heap_goodi G1 s1 s2 c : g_cells s2 = g_cells s1 -> g_infos s2 = g_infos s1 -> goodi G1 s1 c -> goodi G1 s2 c.
Proof. intros. eapply goodi_keeps; [apply heap_keeps|]; eassumption. Qed.
Lemma own_ok_heap o1 s1 s2 : g_cells s2 = g_cells s1 -> g_infos s2 = g_infos s1 -> own_ok o1 s1 -> own_ok o1 s2.
Proof. unfold own_ok. intros -> ->. auto. Qed.

Lemma Inv_infoCache G1 s1 k i : Inv G1 s1 -> refi G1 i k -> (flatk k -> goodi G1 s1 i) ->
  Inv G1 (g_with_infoCache s1 ((k, i) :: g_infoCache s1)).
Proof.
  intros I Hr Hg. destruct I as [a b c0 d e f g h]. split; [exact a|exact b|exact c0|exact d| |exact f|exact g|].
  - intros k' i' [H|H]; [inversion H; subst; split; [assumption|exact Hg]|]. apply e in H. exact H.
  - intros k' H. cbn [g_with_infoCache g_infoCache assoc]. destruct (skey_eq_dec k' k); [discriminate|apply h; exact H].
Qed.
Lemma Inv_codecCache G1 s1 t c k : Inv G1 s1 -> struct_ptr t = Some k -> refp G1 c (PStruct k) -> (flat t -> good G1 s1 c) ->
  Inv G1 (g_with_codecCache s1 ((t, c) :: g_codecCache s1)).
Proof.
  intros I Ht Hr Hg. destruct I as [a b c0 d e f g h]. split; [exact a|exact b|exact c0|exact d|exact e| |exact g|exact h].
  intros t1 c1 [H|H]; [inversion H; subst; exists k; split; [exact Ht|split; [exact Hr|exact Hg]]|]. apply f in H. exact H.
Qed.
Lemma Inv_sliceMap G1 s1 c x e p : Inv G1 s1 -> refp G1 c p -> refp G1 x (PSlice e p) -> flat_fits D p e = true ->
  (flat (TSlice e) -> good G1 s1 x) -> Inv G1 (g_with_sliceMap s1 ((c, x) :: g_sliceMap s1)).
Proof.
  intros I Hc Hx Hf Hg. destruct I as [a b c0 d e0 f g h]. split; [exact a|exact b|exact c0|exact d|exact e0|exact f| |exact h].
  intros c1 d1 [H|H]; [inversion H; subst; exists e, p; split; [exact Hc|split; [exact Hx|split; [exact Hf|exact Hg]]]|].
  apply g in H. exact H.
Qed.

Lemma wp_infoStore k i (c : unit -> prog A) :
  refi G i k -> (flatk k -> goodi G s i) ->
  (forall G1 s1, rely o G s G1 s1 -> own_ok o s1 -> wp (c tt) Q o G1 s1) ->
  wp (pbind (infoStore k i) c) Q o G s.
Proof.
  intros Hr Hg H. cbn [infoStore do_ pbind wp]. intros G1 s1 R. exists o, G1. cbn [exec fst snd].
  pose proof (r_inv _ _ _ _ _ R) as I1. pose proof (own_ok_rely _ _ _ _ _ HI R HO) as O1.
  pose proof (r_keeps _ _ _ _ _ R) as K.
  assert (I2 : Inv G1 (g_with_infoCache s1 ((k, i) :: g_infoCache s1))).
  { apply Inv_infoCache; auto. - eapply refi_ext; [apply K|assumption]. - intros X. eapply goodi_keeps; [exact K|auto]. }
  split; [apply heap_gstep; auto|]. split; [eapply own_ok_heap; [| |exact O1]; reflexivity|].
  apply H; [|eapply own_ok_heap; [| |exact O1]; reflexivity].
  eapply rely_trans; [exact R|]. apply heap_rely; auto.
Qed.

Lemma wp_infoLoadOrStore k i (c : iref -> prog A) :
  refi G i k -> (flatk k -> goodi G s i) ->
  (forall G1 s1 j, rely o G s G1 s1 -> own_ok o s1 -> refi G1 j k -> (flatk k -> goodi G1 s1 j) -> wp (c j) Q o G1 s1) ->
  wp (pbind (infoLoadOrStore k i) c) Q o G s.
Proof.
  intros Hr Hg H. cbn [infoLoadOrStore do_ pbind wp]. intros G1 s1 R. exists o, G1. cbn [exec].
  pose proof (r_inv _ _ _ _ _ R) as I1. pose proof (own_ok_rely _ _ _ _ _ HI R HO) as O1.
  pose proof (r_keeps _ _ _ _ _ R) as K.
  destruct (assoc skey_eq_dec k (g_infoCache s1)) as [j|] eqn:E; cbn [fst snd].
  - apply assoc_in in E. apply (inv_ic _ _ I1) in E. destruct E as [E1 E2].
    split; [apply gstep_refl; auto|]. split; [assumption|]. apply H; auto.
  - assert (Hr1 : refi G1 i k) by (eapply refi_ext; [apply K|assumption]).
    assert (Hg1 : flatk k -> goodi G1 s1 i) by (intros X; eapply goodi_keeps; [exact K|auto]).
    assert (I2 : Inv G1 (g_with_infoCache s1 ((k, i) :: g_infoCache s1))) by (apply Inv_infoCache; auto).
    split; [apply heap_gstep; auto|]. split; [eapply own_ok_heap; [| |exact O1]; reflexivity|].
    apply H; auto. eapply rely_trans; [exact R|]. apply heap_rely; auto.
Qed.

Lemma wp_codecLoadOrStore t d k (c : cref -> prog A) :
  struct_ptr t = Some k -> refp G d (PStruct k) -> (flat t -> good G s d) ->
  (forall G1 s1 j, rely o G s G1 s1 -> own_ok o s1 -> refp G1 j (PStruct k) -> (flat t -> good G1 s1 j) -> wp (c j) Q o G1 s1) ->
  wp (pbind (codecLoadOrStore t d) c) Q o G s.
Proof.
  intros Ht Hr Hg H. cbn [codecLoadOrStore do_ pbind wp]. intros G1 s1 R. exists o, G1. cbn [exec].
  pose proof (r_inv _ _ _ _ _ R) as I1. pose proof (own_ok_rely _ _ _ _ _ HI R HO) as O1.
  pose proof (r_keeps _ _ _ _ _ R) as K.
  destruct (assoc gotype_eq_dec t (g_codecCache s1)) as [j|] eqn:E; cbn [fst snd].
  - apply assoc_in in E. apply (inv_cc _ _ I1) in E. destruct E as (k' & E0 & E1 & E2).
    rewrite Ht in E0; inversion E0; subst k'.
    split; [apply gstep_refl; auto|]. split; [assumption|]. apply H; auto.
  - assert (Hr1 : refp G1 d (PStruct k)) by (eapply refp_ext; [apply K|assumption]).
    assert (Hg1 : flat t -> good G1 s1 d) by (intros X; eapply good_keeps; [exact K|auto]).
    assert (I2 : Inv G1 (g_with_codecCache s1 ((t, d) :: g_codecCache s1))) by (eapply Inv_codecCache; eauto).
    split; [apply heap_gstep; auto|]. split; [eapply own_ok_heap; [| |exact O1]; reflexivity|].
    apply H; auto. eapply rely_trans; [exact R|]. apply heap_rely; auto.
Qed.

Lemma flat_fits_fun p : forall e e', flat_fits D p e = true -> flat_fits D p e' = true -> e = e'.
Proof.
  destruct p; intros e e'.
  - assert (X : forall t, flat_fits D (PStatic s0) t = true -> static_fits s0 t = true) by (intros []; auto).
    intros H1 H2. apply X in H1, H2. destruct s0 as [w []|]; cbn in H1, H2; btrue; congruence.
  - destruct e, e'; try discriminate. cbn. intros. btrue. reflexivity.
  - destruct e; discriminate.
  - destruct k; destruct e as [| | | | |[]| |], e' as [| | | | |[]| |]; try discriminate; cbn; intros; btrue; reflexivity.
  - destruct e; discriminate.
Qed.

Lemma wp_sliceLoadOrStore d x e p (c : cref -> prog A) :
  refp G d p -> refp G x (PSlice e p) -> flat_fits D p e = true -> (flat (TSlice e) -> good G s x) ->
  (forall G1 s1 j, rely o G s G1 s1 -> own_ok o s1 -> refp G1 j (PSlice e p) -> (flat (TSlice e) -> good G1 s1 j) -> wp (c j) Q o G1 s1) ->
  wp (pbind (sliceLoadOrStore d x) c) Q o G s.
Proof.
  intros Hd Hx Hf Hg H. cbn [sliceLoadOrStore do_ pbind wp]. intros G1 s1 R. exists o, G1. cbn [exec].
  pose proof (r_inv _ _ _ _ _ R) as I1. pose proof (own_ok_rely _ _ _ _ _ HI R HO) as O1.
  pose proof (r_keeps _ _ _ _ _ R) as K.
  assert (Hd1 : refp G1 d p) by (eapply refp_ext; [apply K|assumption]).
  assert (Hx1 : refp G1 x (PSlice e p)) by (eapply refp_ext; [apply K|assumption]).
  destruct (assoc cref_eq_dec d (g_sliceMap s1)) as [j|] eqn:E; cbn [fst snd].
  - apply assoc_in in E. apply (inv_sm _ _ I1) in E. destruct E as (e' & p' & E0 & E1 & E2 & E3).
    assert (p' = p) by (eapply refp_fun; eassumption). subst p'.
    assert (e' = e) by (eapply flat_fits_fun; eassumption). subst e'.
    split; [apply gstep_refl; auto|]. split; [assumption|]. apply H; auto.
  - assert (Hg1 : flat (TSlice e) -> good G1 s1 x) by (intros X; eapply good_keeps; [exact K|auto]).
    assert (I2 : Inv G1 (g_with_sliceMap s1 ((d, x) :: g_sliceMap s1))) by (eapply Inv_sliceMap; eauto).
    split; [apply heap_gstep; auto|]. split; [eapply own_ok_heap; [| |exact O1]; reflexivity|].
    apply H; auto. eapply rely_trans; [exact R|]. apply heap_rely; auto.
Qed.

Definition add_c (n : nat) : own := {| oc := n :: oc o; oi := oi o |}.
Definition add_i (n : nat) : own := {| oc := oc o; oi := n :: oi o |}.

(** Transport of the cache clauses of [Inv] along a step of the heap. *)
Lemma Inv_caches G1 s1 G2 s2 : Inv G1 s1 -> keeps G1 s1 G2 s2 ->
  g_infoCache s2 = g_infoCache s1 -> g_codecCache s2 = g_codecCache s1 -> g_sliceMap s2 = g_sliceMap s1 ->
  length (gc G2) = length (g_cells s2) -> length (gi G2) = length (g_infos s2) ->
  (forall n b p, nth_error (g_cells s2) n = Some b -> nth_error (gc G2) n = Some p -> b = BNil \/ bmatch G2 b p) ->
  (forall n x k, nth_error (g_infos s2) n = Some x -> refi G2 n k -> ic G2 x k) ->
  Inv G2 s2.
Proof.
  intros I K E1 E2 E3 L1 L2 C1 C2. pose proof (k_ext _ _ _ _ K) as X. split; auto.
  - rewrite E1. intros k i H. apply (inv_ic _ _ I) in H. destruct H as [H1 H2]. split; [eapply refi_ext; eassumption|].
    intros Y. eapply goodi_keeps; [exact K|auto].
  - rewrite E2. intros t c H. apply (inv_cc _ _ I) in H. destruct H as (k & H0 & H1 & H2). exists k.
    repeat split; auto; [eapply refp_ext; eassumption|]. intros Y. eapply good_keeps; [exact K|auto].
  - rewrite E3. intros c d H. apply (inv_sm _ _ I) in H. destruct H as (e & p & H0 & H1 & H2 & H3). exists e, p.
    repeat split; auto; try (eapply refp_ext; eassumption). intros Y. eapply good_keeps; [exact K|auto].
  - rewrite E1. apply (inv_w _ _ I).
Qed.

Lemma nth_snoc {B} (l : list B) x n y : nth_error (l ++ [x]) n = Some y -> nth_error l n = Some y \/ (n = length l /\ y = x).
Proof.
  intros H. destruct (Nat.lt_ge_cases n (length l)) as [L|L].
  - rewrite nth_error_app1 in H by assumption. auto.
  - rewrite nth_error_app2 in H by assumption. right. destruct (n - length l) eqn:E; cbn in H; [inversion H; split; [lia|reflexivity]|destruct n0; discriminate].
Qed.
Lemma nth_snoc_last {B} (l : list B) x : nth_error (l ++ [x]) (length l) = Some x.
Proof. rewrite nth_error_app2, Nat.sub_diag by lia. reflexivity. Qed.

Lemma wp_newCell p (c : cref -> prog A) :
  (forall G1 s1 n, rely o G s G1 s1 -> own_ok (add_c n) s1 -> ~ In n (oc o) ->
     nth_error (g_cells s1) n = Some BNil -> nth_error (gc G1) n = Some p ->
     wp (c (CCell n)) Q (add_c n) G1 s1) ->
  wp (pbind newCell c) Q o G s.
Proof.
  intros H. cbn [newCell do_ pbind wp]. intros G1 s1 R.
  pose proof (r_inv _ _ _ _ _ R) as I1. pose proof (own_ok_rely _ _ _ _ _ HI R HO) as O1.
  pose proof (r_keeps _ _ _ _ _ R) as K.
  set (n := length (g_cells s1)). set (s2 := g_with_cells s1 (g_cells s1 ++ [BNil])).
  set (G2 := {| gc := gc G1 ++ [p]; gi := gi G1 |}).
  exists (add_c n), G2. cbn [exec fst snd]. fold n s2.
  assert (X : gext G1 G2) by (split; [exists [p]; reflexivity|exists []; cbn; rewrite app_nil_r; reflexivity]).
  assert (K2 : keeps G1 s1 G2 s2).
  { split; auto. intros m b Hm _. apply nth_app_some. assumption. }
  assert (I2 : Inv G2 s2).
  { apply (Inv_caches G1 s1); auto; cbn.
    - rewrite !app_length. cbn. rewrite (inv_lc _ _ I1). reflexivity.
    - apply (inv_li _ _ I1).
    - intros m b q Hb Hq. apply nth_snoc in Hb. destruct Hb as [Hb|[Hm ->]]; [|left; reflexivity].
      apply nth_snoc in Hq. destruct Hq as [Hq|[Hm ->]].
      + destruct (inv_cells _ _ I1 _ _ _ Hb Hq) as [->|B]; [left; reflexivity|right; eapply bmatch_ext; eassumption].
      + exfalso. rewrite (inv_lc _ _ I1) in Hm. subst m. rewrite (proj2 (nth_error_None _ _)) in Hb by lia. discriminate.
    - intros m x k Hm Hk. eapply ic_ext; [exact X|]. eapply (inv_infos _ _ I1); eassumption. }
  assert (Hn : ~ In n (oc o)) by (intros Hin; apply (proj1 O1) in Hin; unfold n in Hin; lia).
  assert (O2 : own_ok (add_c n) s2).
  { split; cbn; rewrite ?app_length; cbn.
    - intros m [<-|Hm]; [unfold n; lia|]. apply (proj1 O1) in Hm. lia.
    - apply (proj2 O1). }
  split; [|split; [exact O2|]].
  - split; auto; cbn.
    + intros m L _. apply nth_error_app1. assumption.
    + intros m [<-|Hm]; [right; unfold n; lia|left; assumption].
    + intros m b Hb. apply nth_snoc in Hb. destruct Hb as [Hb|[-> ->]]; [|right; left; left; reflexivity].
      destruct (in_dec Nat.eq_dec m (oc o)); auto.
    + intros i x k Hx _. destruct (in_dec Nat.eq_dec i (oi o)); auto.
  - apply H; auto.
    + eapply rely_trans; [exact R|]. split; auto.
      * intros m Hm. cbn. apply nth_error_app1. apply (proj1 O1). assumption.
    + cbn. apply nth_snoc_last.
    + cbn. unfold n. rewrite <- (inv_lc _ _ I1). apply nth_snoc_last.
Qed.

Lemma wp_newInfo k (c : iref -> prog A) :
  (forall G1 s1 n, rely o G s G1 s1 -> own_ok (add_i n) s1 -> ~ In n (oi o) ->
     nth_error (g_infos s1) n = Some i_empty -> refi G1 n k ->
     wp (c n) Q (add_i n) G1 s1) ->
  wp (pbind newInfo c) Q o G s.
Proof.
  intros H. cbn [newInfo do_ pbind wp]. intros G1 s1 R.
  pose proof (r_inv _ _ _ _ _ R) as I1. pose proof (own_ok_rely _ _ _ _ _ HI R HO) as O1.
  pose proof (r_keeps _ _ _ _ _ R) as K.
  set (n := length (g_infos s1)). set (s2 := g_with_infos s1 (g_infos s1 ++ [i_empty])).
  set (G2 := {| gc := gc G1; gi := gi G1 ++ [k] |}).
  exists (add_i n), G2. cbn [exec fst snd]. fold n s2.
  assert (X : gext G1 G2) by (split; [exists []; cbn; rewrite app_nil_r; reflexivity|exists [k]; reflexivity]).
  assert (K2 : keeps G1 s1 G2 s2).
  { split; auto. intros m b k0 Hm _ _. apply nth_app_some. assumption. }
  assert (I2 : Inv G2 s2).
  { apply (Inv_caches G1 s1); auto; cbn.
    - apply (inv_lc _ _ I1).
    - rewrite !app_length. cbn. rewrite (inv_li _ _ I1). reflexivity.
    - intros m b q Hb Hq. destruct (inv_cells _ _ I1 _ _ _ Hb Hq) as [->|B]; [left; reflexivity|right; eapply bmatch_ext; eassumption].
    - intros m x k0 Hm Hk. apply nth_snoc in Hm. destruct Hm as [Hm|[Hm ->]]; [|split; left; reflexivity].
      unfold refi in Hk. cbn in Hk. apply nth_snoc in Hk. destruct Hk as [Hk|[Hk ->]].
      + eapply ic_ext; [exact X|]. eapply (inv_infos _ _ I1); eassumption.
      + exfalso. rewrite (inv_li _ _ I1) in Hk. subst m. rewrite (proj2 (nth_error_None _ _)) in Hm by lia. discriminate. }
  assert (Hn : ~ In n (oi o)) by (intros Hin; apply (proj2 O1) in Hin; unfold n in Hin; lia).
  assert (O2 : own_ok (add_i n) s2).
  { split; cbn; rewrite ?app_length; cbn.
    - apply (proj1 O1).
    - intros m [<-|Hm]; [unfold n; lia|]. apply (proj2 O1) in Hm. lia. }
  split; [|split; [exact O2|]].
  - split; auto; cbn.
    + intros m L _. apply nth_error_app1. assumption.
    + intros m [<-|Hm]; [right; unfold n; lia|left; assumption].
    + intros m b Hb. destruct (in_dec Nat.eq_dec m (oc o)); auto.
    + intros i x k0 Hx _. apply nth_snoc in Hx. destruct Hx as [Hx|[-> ->]]; [|right; left; left; reflexivity].
      destruct (in_dec Nat.eq_dec i (oi o)); auto.
  - apply H; auto.
    + eapply rely_trans; [exact R|]. split; auto.
      intros m Hm. cbn. apply nth_error_app1. apply (proj2 O1). assumption.
    + apply nth_snoc_last.
    + unfold refi. cbn. unfold n. rewrite <- (inv_li _ _ I1). apply nth_snoc_last.
Qed.
End Ops.

Definition sub_own (o o' : own) : Prop := incl (oc o) (oc o') /\ incl (oi o) (oi o').
Lemma rely_weaken o o' G s G' s' : sub_own o o' -> rely o' G s G' s' -> rely o G s G' s'.
Proof. intros [A B] [a b c d]. split; auto. Qed.
Lemma own_ok_sub o o' s : sub_own o o' -> own_ok o' s -> own_ok o s.
Proof. intros [A B] [a b]. split; auto. Qed.
Lemma sub_add_c o n : sub_own o (add_c o n).
Proof. split; [apply incl_tl|]; apply incl_refl. Qed.
Lemma sub_add_i o n : sub_own o (add_i o n).
Proof. split; [|apply incl_tl]; apply incl_refl. Qed.

Lemma nth_set_eq {B} (l : list B) i x y : nth_error l i = Some y -> nth_error (list_set l i x) i = Some x.
Proof. revert i. induction l as [|a l IH]; intros [|i]; cbn; try discriminate; auto. Qed.
Lemma nth_set_neq {B} (l : list B) i j x : i <> j -> nth_error (list_set l i x) j = nth_error l j.
Proof. revert i j. induction l as [|a l IH]; intros [|i] [|j] H; cbn; try reflexivity; [contradiction|apply IH; congruence]. Qed.
Lemma set_length {B} (l : list B) i x : length (list_set l i x) = length l.
Proof. revert i. induction l as [|a l IH]; intros [|i]; cbn; auto. Qed.

Lemma wp_fill {A} (Q : A -> own -> gh -> gstate -> Prop) o G s n b p (c : unit -> prog A) :
  Inv G s -> own_ok (add_c o n) s -> ~ In n (oc o) ->
  nth_error (g_cells s) n = Some BNil -> nth_error (gc G) n = Some p -> bmatch G b p ->
  (forall G1 s1, rely o G s G1 s1 -> own_ok o s1 -> nth_error (g_cells s1) n = Some b -> nth_error (gc G1) n = Some p ->
     wp (c tt) Q o G1 s1) ->
  wp (pbind (fill (CCell n) b) c) Q (add_c o n) G s.
Proof.
  intros HI HO Hn Hb Hp Hm H. cbn [fill do_ pbind wp]. intros G1 s1 R.
  pose proof (r_inv _ _ _ _ _ R) as I1. pose proof (own_ok_rely _ _ _ _ _ HI R HO) as O1.
  pose proof (r_keeps _ _ _ _ _ R) as K. pose proof (k_ext _ _ _ _ K) as X.
  set (s2 := g_with_cells s1 (upd (g_cells s1) n b)).
  exists o, G1. cbn [exec fst snd]. fold s2.
  assert (Hb1 : nth_error (g_cells s1) n = Some BNil).
  { rewrite (r_cells _ _ _ _ _ R) by (left; reflexivity). assumption. }
  assert (Hp1 : nth_error (gc G1) n = Some p) by (change (refp G1 (CCell n) p); eapply refp_ext; eassumption).
  assert (Hm1 : bmatch G1 b p) by (eapply bmatch_ext; eassumption).
  assert (Hbn : b <> BNil) by (intros ->; inversion Hm).
  assert (K2 : keeps G1 s1 G1 s2).
  { split; auto using gext_refl. intros m b' Hb' Nb. cbn. unfold upd.
    destruct (Nat.eq_dec n m) as [->|Ne]; [congruence|]. rewrite nth_set_neq by assumption. assumption. }
  assert (I2 : Inv G1 s2).
  { apply (Inv_caches G1 s1); auto; cbn; unfold upd.
    - rewrite set_length. apply (inv_lc _ _ I1).
    - apply (inv_li _ _ I1).
    - intros m b' q Hb' Hq. destruct (Nat.eq_dec n m) as [->|Ne].
      + erewrite nth_set_eq in Hb' by eassumption. right. congruence.
      + rewrite nth_set_neq in Hb' by assumption. eapply (inv_cells _ _ I1); eassumption.
    - apply (inv_infos _ _ I1). }
  assert (O2 : own_ok o s2).
  { eapply own_ok_sub in O1; [|apply sub_add_c]. destruct O1 as [O1 O1']. split; cbn; unfold upd; rewrite ?set_length; auto. }
  split; [|split; [exact O2|]].
  - split; auto; cbn; unfold upd.
    + intros m L Ni. apply nth_set_neq. intros ->. apply Ni. left. reflexivity.
    + intros m Hm'. left. right. assumption.
    + intros m b' Hb'. destruct (Nat.eq_dec n m) as [->|Ne].
      * left. erewrite nth_set_eq in Hb' by eassumption. congruence.
      * rewrite nth_set_neq in Hb' by assumption. destruct (in_dec Nat.eq_dec m (oc o)) as [|Ni]; auto.
        right. right. split; [intros [->|]; contradiction|assumption].
    + intros i x k Hx _. destruct (in_dec Nat.eq_dec i (oi o)); auto.
  - apply H; auto.
    + eapply rely_trans; [eapply rely_weaken; [apply sub_add_c|exact R]|]. split; auto.
      intros m Hm'. cbn. unfold upd. apply nth_set_neq. intros ->. contradiction.
    + cbn. eapply nth_set_eq. eassumption.
Qed.

Lemma F2_length {A B} (P : A -> B -> Prop) l m : Forall2 P l m -> length l = length m.
Proof. induction 1; cbn; congruence. Qed.
Lemma FM_nil_eq G fs k : FM G [] k -> FM G fs k -> fs = [].
Proof. unfold FM. intros H1 H2. apply F2_length in H1, H2. destruct fs; [reflexivity|cbn in *; congruence]. Qed.

Lemma wp_setFields {A} (Q : A -> own -> gh -> gstate -> Prop) o G s i fs k (c : unit -> prog A) :
  Inv G s -> own_ok (add_i o i) s -> ~ In i (oi o) ->
  nth_error (g_infos s) i = Some i_empty -> refi G i k -> FM G fs k ->
  (forall G1 s1, rely o G s G1 s1 -> own_ok (add_i o i) s1 ->
     nth_error (g_infos s1) i = Some {| i_fields := fs; i_index := [] |} -> refi G1 i k ->
     wp (c tt) Q (add_i o i) G1 s1) ->
  wp (pbind (setFields i fs) c) Q (add_i o i) G s.
Proof.
  intros HI HO Hn Hb Hp Hm H. cbn [setFields do_ pbind wp]. intros G1 s1 R.
  pose proof (r_inv _ _ _ _ _ R) as I1. pose proof (own_ok_rely _ _ _ _ _ HI R HO) as O1.
  pose proof (r_keeps _ _ _ _ _ R) as K. pose proof (k_ext _ _ _ _ K) as X.
  assert (Hb1 : nth_error (g_infos s1) i = Some i_empty).
  { rewrite (r_infos _ _ _ _ _ R) by (left; reflexivity). assumption. }
  exists (add_i o i), G1. cbn [exec fst snd]. rewrite Hb1. cbn [i_empty i_index].
  set (x2 := {| i_fields := fs; i_index := [] |}). set (s2 := g_with_infos s1 (upd (g_infos s1) i x2)).
  assert (Hp1 : refi G1 i k) by (eapply refi_ext; eassumption).
  assert (Hm1 : FM G1 fs k) by (eapply FM_ext; eassumption).
  assert (K2 : keeps G1 s1 G1 s2).
  { split; auto using gext_refl. intros m x' k' Hx' Hk' [D1 D2]. cbn. unfold upd.
    destruct (Nat.eq_dec i m) as [->|Ne]; [|rewrite nth_set_neq by assumption; assumption].
    assert (x' = i_empty) by congruence. assert (k' = k) by (unfold refi in *; congruence). subst x' k'.
    cbn in D1. assert (fs = []) by (eapply FM_nil_eq; eassumption). subst fs.
    erewrite nth_set_eq by eassumption. reflexivity. }
  assert (I2 : Inv G1 s2).
  { apply (Inv_caches G1 s1); auto; cbn; unfold upd.
    - apply (inv_lc _ _ I1).
    - rewrite set_length. apply (inv_li _ _ I1).
    - apply (inv_cells _ _ I1).
    - intros m x' k' Hx' Hk'. destruct (Nat.eq_dec i m) as [->|Ne].
      + erewrite nth_set_eq in Hx' by eassumption. inversion Hx'; subst x'.
        assert (k' = k) by (unfold refi in *; congruence). subst k'. split; cbn; auto.
      + rewrite nth_set_neq in Hx' by assumption. eapply (inv_infos _ _ I1); eassumption. }
  assert (O2 : own_ok (add_i o i) s2).
  { destruct O1 as [O1 O1']. split; cbn; unfold upd; rewrite ?set_length; auto. }
  split; [|split; [exact O2|]].
  - split; auto; cbn; unfold upd.
    + intros m L Ni. apply nth_set_neq. intros ->. apply Ni. left. reflexivity.
    + intros m b' Hb'. destruct (in_dec Nat.eq_dec m (oc o)); auto.
    + intros m x' k' Hx' _. destruct (Nat.eq_dec i m) as [->|Ne]; [right; left; left; reflexivity|].
      rewrite nth_set_neq in Hx' by assumption. destruct (in_dec Nat.eq_dec m (oi o)) as [|Ni]; auto.
      right. right. split; [intros [->|]; contradiction|assumption].
  - apply H; auto.
    + eapply rely_trans; [eapply rely_weaken; [apply sub_add_i|exact R]|]. split; auto.
      intros m Hm'. cbn. unfold upd. apply nth_set_neq. intros ->. contradiction.
    + cbn. eapply nth_set_eq. eassumption.
Qed.

Lemma wp_setIndex {A} (Q : A -> own -> gh -> gstate -> Prop) o G s i fs k (c : unit -> prog A) :
  Inv G s -> own_ok (add_i o i) s -> ~ In i (oi o) ->
  nth_error (g_infos s) i = Some {| i_fields := fs; i_index := [] |} -> refi G i k -> FM G fs k ->
  (forall G1 s1, rely o G s G1 s1 -> own_ok o s1 ->
     nth_error (g_infos s1) i = Some {| i_fields := fs; i_index := fs |} -> refi G1 i k ->
     wp (c tt) Q o G1 s1) ->
  wp (pbind (setIndex i fs) c) Q (add_i o i) G s.
Proof.
  intros HI HO Hn Hb Hp Hm H. cbn [setIndex do_ pbind wp]. intros G1 s1 R.
  pose proof (r_inv _ _ _ _ _ R) as I1. pose proof (own_ok_rely _ _ _ _ _ HI R HO) as O1.
  pose proof (r_keeps _ _ _ _ _ R) as K. pose proof (k_ext _ _ _ _ K) as X.
  assert (Hb1 : nth_error (g_infos s1) i = Some {| i_fields := fs; i_index := [] |}).
  { rewrite (r_infos _ _ _ _ _ R) by (left; reflexivity). assumption. }
  exists o, G1. cbn [exec fst snd]. rewrite Hb1. cbn [i_fields].
  set (x2 := {| i_fields := fs; i_index := fs |}). set (s2 := g_with_infos s1 (upd (g_infos s1) i x2)).
  assert (Hp1 : refi G1 i k) by (eapply refi_ext; eassumption).
  assert (Hm1 : FM G1 fs k) by (eapply FM_ext; eassumption).
  assert (K2 : keeps G1 s1 G1 s2).
  { split; auto using gext_refl. intros m x' k' Hx' Hk' [D1 D2]. cbn. unfold upd.
    destruct (Nat.eq_dec i m) as [->|Ne]; [|rewrite nth_set_neq by assumption; assumption].
    assert (E : x' = {| i_fields := fs; i_index := [] |}) by congruence. assert (k' = k) by (unfold refi in *; congruence). subst x' k'.
    cbn in D2. assert (fs = []) by (eapply FM_nil_eq; eassumption). subst fs.
    erewrite nth_set_eq by eassumption. reflexivity. }
  assert (I2 : Inv G1 s2).
  { apply (Inv_caches G1 s1); auto; cbn; unfold upd.
    - apply (inv_lc _ _ I1).
    - rewrite set_length. apply (inv_li _ _ I1).
    - apply (inv_cells _ _ I1).
    - intros m x' k' Hx' Hk'. destruct (Nat.eq_dec i m) as [->|Ne].
      + erewrite nth_set_eq in Hx' by eassumption. inversion Hx'; subst x'.
        assert (k' = k) by (unfold refi in *; congruence). subst k'. split; cbn; auto.
      + rewrite nth_set_neq in Hx' by assumption. eapply (inv_infos _ _ I1); eassumption. }
  assert (O2 : own_ok o s2).
  { eapply own_ok_sub in O1; [|apply sub_add_i]. destruct O1 as [O1 O1']. split; cbn; unfold upd; rewrite ?set_length; auto. }
  split; [|split; [exact O2|]].
  - split; auto; cbn; unfold upd.
    + intros m L Ni. apply nth_set_neq. intros ->. apply Ni. left. reflexivity.
    + intros m Hm'. left. right. assumption.
    + intros m b' Hb'. destruct (in_dec Nat.eq_dec m (oc o)); auto.
    + intros m x' k' Hx' Hk'. destruct (Nat.eq_dec i m) as [->|Ne].
      * left. erewrite nth_set_eq in Hx' by eassumption. inversion Hx'; subst x'.
        assert (k' = k) by (unfold refi in *; congruence). subst k'. split; assumption.
      * rewrite nth_set_neq in Hx' by assumption. destruct (in_dec Nat.eq_dec m (oi o)) as [|Ni]; auto.
        right. right. split; [intros [->|]; contradiction|assumption].
  - apply H; auto.
    + eapply rely_trans; [eapply rely_weaken; [apply sub_add_i|exact R]|]. split; auto.
      intros m Hm'. cbn. unfold upd. apply nth_set_neq. intros ->. contradiction.
    + cbn. eapply nth_set_eq. eassumption.
Qed.
End Walk.
