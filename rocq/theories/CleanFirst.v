(** As long as no call has panicked, a broken type is rejected. *)
From Coq Require Import ZifyBool ZifyNat ZifyN String.
From Verif Require Import Base Wire GoType Leaf Codec Tag Walker Api Resolve Typing SpecReject SpecClean
  TypingFacts CodecSim WalkFuel WalkSeq AnyWalk RejectFacts.
Local Close Scope string_scope.

Lemma base_mentions t m : mentions t m = mentions (baseTypeOf t) m.
Proof. induction t; try reflexivity. cbn [baseTypeOf mentions]. exact IHt. Qed.
Lemma static_mentions t ty c m : static_choice t ty = Some c -> mentions ty m = false.
Proof.
  unfold static_choice, option_choice. intros H. destruct ty as [k| |k|e|k e|e|i|]; try reflexivity; rewrite base_mentions; revert H;
    unfold fixed_choice; repeat (destruct (_ =? _)%N); try discriminate; destruct (baseTypeOf _); try discriminate; reflexivity.
Qed.
Lemma struct_mentions t k m : struct_ptr t = Some k -> mentions t m = true -> k = SNamed m.
Proof. destruct t as [| | | | |[]| |]; try discriminate; cbn; intros H; inversion H; try discriminate. intros E. apply Nat.eqb_eq in E. subst. reflexivity. Qed.

Section First.
Variable D : decls.
Definition known (S : list skey) (t : gotype) : Prop := forall m, mentions t m = true -> In (SNamed m) S.
Definition refs (S : list skey) (k : skey) : Prop := forall f, In f (struct_fields D k) -> tagged f = true -> known S (gf_type f).
Record QI (S P : list skey) (s : gstate) : Prop := {
  q_seen : forall k, In k S -> In k P \/ ((exists i, In (k, i) (g_infoCache s)) /\ refs S k);
  q_ic : forall k i, In (k, i) (g_infoCache s) -> In k S;
  q_cc : forall t c, In (t, c) (g_codecCache s) -> known S t
}.
(** [pend t'] if the walker is about to reach the struct types of [t']. *)
Definition WQ (pend : gotype -> Prop) (S : list skey) (w : walker) : Prop :=
  (forall t c, In (t, c) (w_codecs w) -> known S t \/ pend t) /\ forall k i, In (k, i) (w_infos w) -> In k S.
Definition nopend : gotype -> Prop := fun _ => False.
Definition above (t : gotype) : gotype -> Prop := fun t' => tsize t < tsize t' /\ forall m, mentions t' m = mentions t m.
Definition into (k : skey) : gotype -> Prop := fun t' => forall m, mentions t' m = true -> k = SNamed m.

Lemma known_incl S S' t : incl S S' -> known S t -> known S' t.
Proof. intros H K m Hm. apply H, K, Hm. Qed.
Lemma WQ_incl p S S' w : incl S S' -> WQ p S w -> WQ p S' w.
Proof. intros H [A B]. split; [intros t c Hc; destruct (A t c Hc); [left; eapply known_incl; eassumption|auto]|intros; eapply H, B; eassumption]. Qed.
Lemma WQ_pend (p p' : gotype -> Prop) S w : (forall t, p t -> known S t \/ p' t) -> WQ p S w -> WQ p' S w.
Proof. intros H [A B]. split; [|exact B]. intros t c Hc. destruct (A t c Hc); auto. Qed.
Lemma WQ_set p S w t c : WQ p S w -> known S t \/ p t -> WQ p S (w_set w t c).
Proof. intros [A B] H. split; [|exact B]. intros t' c' [E|E]; [inversion E; subst; exact H|eauto]. Qed.
Lemma WQ_iset p S w k i : WQ p S w -> In k S -> WQ p S (w_iset w k i).
Proof. intros [A B] H. split; [exact A|]. intros k' i' [E|E]; [inversion E; subst; exact H|eauto]. Qed.
Lemma above_done t S w : WQ (above t) S w -> known S t -> WQ nopend S w.
Proof. intros H K. eapply WQ_pend; [|exact H]. intros t' [_ E]. left. intros m Hm. apply K. rewrite <- E. exact Hm. Qed.
Lemma into_done k S w : WQ (into k) S w -> In k S -> WQ nopend S w.
Proof. intros H K. eapply WQ_pend; [|exact H]. intros t' E. left. intros m Hm. rewrite <- (E m Hm). exact K. Qed.
Lemma none_any p S w : WQ nopend S w -> WQ p S w.
Proof. apply WQ_pend. intros t []. Qed.

Definition tq {A} (P : list skey) (p : prog A) (S : list skey) (s : gstate) (Q : A -> list skey -> Prop) : Prop :=
  match run p s with
  | (Done a, s') => exists S', incl S S' /\ QI S' P s' /\ Q a S'
  | _ => True
  end.
Lemma tq_ret {A} P (a : A) S s (Q : A -> list skey -> Prop) : QI S P s -> Q a S -> tq P (Ret a) S s Q.
Proof. intros H1 H2. exists S. split; [apply incl_refl|]. auto. Qed.
Lemma tq_bind {A B} P P1 (p : prog A) (k : A -> prog B) S s Q1 Q : tq P1 p S s Q1 ->
  (forall a S' s', incl S S' -> QI S' P1 s' -> Q1 a S' -> tq P (k a) S' s' Q) -> tq P (pbind p k) S s Q.
Proof.
  unfold tq. rewrite run_bind. intros H Hk. destruct (run p s) as [[a| |] s1]; auto.
  destruct H as (S1 & X1 & C1 & H1). specialize (Hk a S1 s1 X1 C1 H1). destruct (run (k a) s1) as [[b| |] s2]; auto.
  destruct Hk as (S2 & X2 & Hk). exists S2. split; [eapply incl_tran; eassumption|exact Hk].
Qed.
Lemma tq_grow {A} P (p : prog A) S S1 s Q : incl S S1 -> tq P p S1 s Q -> tq P p S s Q.
Proof. unfold tq. intros H. destruct (run p s) as [[a| |] s1]; auto. intros (S2 & X & T). exists S2. split; [eapply incl_tran; eassumption|exact T]. Qed.
Lemma tq_do {A} P o (k : resp o -> prog A) S s Q : tq P (k (fst (exec o s))) S (snd (exec o s)) Q -> tq P (pbind (do_ o) k) S s Q.
Proof. unfold tq. cbn [pbind do_ run]. destruct (exec o s) as [r s1]. auto. Qed.
Lemma QI_same S P s s' : QI S P s -> g_infoCache s' = g_infoCache s -> g_codecCache s' = g_codecCache s -> QI S P s'.
Proof. intros [A B C] E1 E2. split; rewrite ?E1, ?E2; auto. Qed.
(** Operations that leave the two caches alone. *)
Definition plain (o : op) : Prop := match o with InfoStore _ _ | InfoLoadOrStore _ _ | CodecLoadOrStore _ _ => False | _ => True end.
Lemma plain_same o s : plain o -> g_infoCache (snd (exec o s)) = g_infoCache s /\ g_codecCache (snd (exec o s)) = g_codecCache s.
Proof.
  destruct o; cbn [plain]; try contradiction; intros _; cbn [exec]; try (split; reflexivity).
  - destruct (assoc cref_eq_dec c (g_sliceMap s)); split; reflexivity.
  - destruct c; split; reflexivity.
  - destruct (nth_error (g_infos s) i); split; reflexivity.
  - destruct (nth_error (g_infos s) i); split; reflexivity.
Qed.
Lemma tq_plain {A} P o (k : resp o -> prog A) S s Q : plain o -> QI S P s ->
  (forall r s1, QI S P s1 -> tq P (k r) S s1 Q) -> tq P (pbind (do_ o) k) S s Q.
Proof. intros Ho HQ H. apply tq_do. destruct (plain_same o s Ho) as [E1 E2]. apply H. eapply QI_same; eassumption. Qed.

Definition qpost (t : gotype) : cref * walker -> list skey -> Prop := fun '(_, w) S => known S t /\ WQ nopend S w.
Lemma slice_tq P t c w S s : QI S P s -> WQ nopend S w -> known S t -> tq P (sliceCodecOf t c w) S s (qpost t).
Proof.
  intros HQ HW K. unfold sliceCodecOf, sliceLoad. apply tq_plain; [exact Logic.I|exact HQ|]. intros [d|] s1 Q1; [apply tq_ret; [exact Q1|split; assumption]|].
  destruct (w_get w t); [apply tq_ret; [exact Q1|split; assumption]|]. unfold newCell. apply tq_plain; [exact Logic.I|exact Q1|]. intros d s2 Q2.
  unfold fill. apply tq_plain; [exact Logic.I|exact Q2|]. intros _ s3 Q3. unfold sliceLoadOrStore. apply tq_plain; [exact Logic.I|exact Q3|].
  intros a s4 Q4. apply tq_ret; [exact Q4|]. split; [exact K|]. apply WQ_set; auto.
Qed.

Lemma walk_tq fuel :
  (forall w t zz rq P S s, QI S P s -> WQ (above t) S w -> tq P (w_codec D fuel w t zz rq) S s (qpost t)) /\
  (forall w t k P S s, struct_ptr t = Some k -> w_get w t = None -> QI S P s -> WQ (into k) S w -> tq P (w_structCodec D fuel w t k) S s (qpost t)) /\
  (forall w k P S s, QI S P s -> WQ (into k) S w -> tq P (w_structInfo D fuel w k) S s (fun '(i, w') S' => In k S' /\ WQ nopend S' w')) /\
  (forall w idx fs P S s, QI S P s -> WQ nopend S w ->
     tq P (w_fields D fuel w idx fs) S s (fun '(l, w') S' => (forall f, In f fs -> tagged f = true -> known S' (gf_type f)) /\ WQ nopend S' w')) /\
  (forall w t f P S s, QI S P s -> WQ nopend S w -> tq P (w_field D fuel w t f) S s (qpost (gf_type f))) /\
  (forall w key val tag kf vf P S s, QI S P s -> WQ nopend S w -> known S val ->
     tq P (w_mapCodec D fuel w key val tag kf vf) S s (qpost (TMap key val))).
Proof.
  induction fuel as [|fuel (IHc & IHs & IHi & IHfs & IHf & IHm)].
  { repeat match goal with |- _ /\ _ => split end; intros; exact Logic.I. }
  repeat match goal with |- _ /\ _ => split end.
  - intros w t zz rq P S s HQ HW. cbn [w_codec]. destruct (w_get w t) as [c|] eqn:E.
    { apply tq_ret; [assumption|]. apply assoc_In in E. destruct (proj1 HW _ _ E) as [K|[K _]]; [|lia].
      split; [exact K|]. eapply above_done; eassumption. }
    destruct (struct_ptr t) as [k|] eqn:Es.
    { assert (H : tq P (w_structCodec D fuel w t k) S s (qpost t)).
      { apply IHs; auto. eapply WQ_pend; [|exact HW]. intros t' [_ A]. right. intros m Hm. eapply struct_mentions; [exact Es|]. rewrite <- A. exact Hm. }
      destruct t as [| | | | |e|m|]; try discriminate; exact H. }
    destruct t as [k| |k|e|k e|e|m|]; try discriminate; try exact Logic.I.
    + apply tq_ret; [assumption|]. assert (K : known S (TScalar k)) by (intros m; discriminate). split; [exact K|]. eapply above_done; eassumption.
    + apply tq_ret; [assumption|]. assert (K : known S TBytes) by (intros m; discriminate). split; [exact K|]. eapply above_done; eassumption.
    + unfold newCell. apply tq_plain; [exact Logic.I|exact HQ|]. intros c s1 Q1. cbn [elem_of].
      eapply tq_bind; [apply IHc; [exact Q1|]|].
      * apply WQ_set; [|right; split; [cbn; lia|reflexivity]]. eapply WQ_pend; [|exact HW]. intros t' [A B]. right. split; [cbn in A; lia|exact B].
      * intros [d w'] S2 s2 X Q2 [K W2]. unfold fill. apply tq_plain; [exact Logic.I|exact Q2|]. intros _ s3 Q3. apply tq_ret; [exact Q3|]. split; assumption.
  - intros w t k P S s Ht Hw HQ HW. cbn [w_structCodec]. unfold codecLoad. apply tq_do. cbn [exec fst snd].
    destruct (assoc gotype_eq_dec t (g_codecCache s)) as [c|] eqn:E.
    { apply tq_ret; [assumption|]. apply assoc_In in E. pose proof (q_cc _ _ _ HQ _ _ E) as K. split; [exact K|].
      eapply WQ_pend; [|exact HW]. intros t' A. left. intros m Hm. apply K. rewrite (A m Hm) in Ht. clear - Ht. destruct t as [| | | | |[]| |]; try discriminate. inversion Ht. cbn. apply Nat.eqb_refl. }
    rewrite Hw. unfold newCell. apply tq_plain; [exact Logic.I|exact HQ|]. intros c s1 Q1.
    eapply tq_bind; [apply IHi; [exact Q1|apply WQ_set; [exact HW|right]]|].
    + intros m Hm. eapply struct_mentions; eassumption.
    + intros [i w'] S2 s2 X Q2 [K W2]. assert (Kt : known S2 t) by (intros m Hm; rewrite <- (struct_mentions t k m Ht Hm); exact K).
      unfold fill. apply tq_plain; [exact Logic.I|exact Q2|]. intros _ s3 Q3. unfold codecLoadOrStore. apply tq_do. cbn [exec].
      destruct (assoc gotype_eq_dec t (g_codecCache s3)) as [d|]; cbn [fst snd]; apply tq_ret; try (split; assumption); [exact Q3|].
      destruct Q3 as [A B C]. split; auto. intros t' c' [E'|E']; [inversion E'; subst; exact Kt|eauto].
  - intros w k P S s HQ HW. cbn [w_structInfo]. unfold infoLoad. apply tq_do. cbn [exec fst snd].
    destruct (assoc skey_eq_dec k (g_infoCache s)) as [i|] eqn:E.
    { apply tq_ret; [assumption|]. apply assoc_In in E. pose proof (q_ic _ _ _ HQ _ _ E) as K. split; [exact K|]. eapply into_done; eassumption. }
    destruct (w_iget w k) as [i|] eqn:Ew.
    { apply tq_ret; [assumption|]. apply assoc_In in Ew. pose proof (proj2 HW _ _ Ew) as K. split; [exact K|]. eapply into_done; eassumption. }
    unfold newInfo. apply tq_plain; [exact Logic.I|exact HQ|]. intros i s1 Q1.
    assert (Q1' : QI (k :: S) (k :: P) s1).
    { destruct Q1 as [A B C]. split.
      - intros k' [<-|H]; [left; left; reflexivity|]. destruct (A k' H) as [J|[J1 J2]]; [left; right; exact J|right]. split; [exact J1|].
        intros f Hf Ht. eapply known_incl; [|apply J2; assumption]. intros z; right; assumption.
      - intros k' i' H. right. eauto.
      - intros t c H. eapply known_incl; [|eapply C; exact H]. intros z; right; assumption. }
    assert (W1 : WQ nopend (k :: S) (w_iset w k i)).
    { apply WQ_iset; [|left; reflexivity]. eapply into_done; [|left; reflexivity]. eapply WQ_incl; [|exact HW]. intros z; right; assumption. }
    pose proof (IHfs (w_iset w k i) 0 (struct_fields D k) (k :: P) (k :: S) s1 Q1' W1) as T.
    assert (T' : tq P (let* (fields, w0) := w_fields D fuel (w_iset w k i) 0 (struct_fields D k) in
      let* _ := setFields i fields in let* _ := setIndex i fields in let* _ := infoStore k i in Ret (i, w0)) (k :: S) s1 (fun '(i, w') S' => In k S' /\ WQ nopend S' w')).
    { eapply tq_bind; [exact T|]. intros [fs w'] S2 s2 X Q2 [R W2]. cbn beta in *. unfold setFields, setIndex, infoStore.
      apply tq_do. apply tq_do. apply tq_do. match goal with |- tq _ _ _ ?s' _ => assert (E4 : g_infoCache s' = (k, i) :: g_infoCache s2 /\ g_codecCache s' = g_codecCache s2) end.
      { cbn [exec]. destruct (nth_error (g_infos s2) i); cbn [snd]; (destruct (nth_error _ i); split; reflexivity). }
      destruct E4 as [E4 E5]. apply tq_ret; [|split; [apply X; left; reflexivity|exact W2]].
      destruct Q2 as [A B C]. split; rewrite ?E4, ?E5.
      - intros k' H. destruct (skey_eq_dec k' k) as [->|Hne].
        + right. split; [exists i; left; reflexivity|exact R].
        + destruct (A k' H) as [[J|J]|[[j J1] J2]]; [congruence|left; exact J|right]. split; [exists j; right; exact J1|exact J2].
      - intros k' i' [J|J]; [inversion J; subst; apply X; left; reflexivity|eauto].
      - exact C. }
    eapply tq_grow; [|exact T']. intros z Hz. right. exact Hz.
  - intros w idx fs P S s HQ HW. cbn [w_fields]. destruct fs as [|f fs].
    { apply tq_ret; [assumption|]. split; [intros f []|exact HW]. }
    eapply tq_bind with (P1 := P) (Q1 := fun '(o, w') S' => (tagged f = true -> known S' (gf_type f)) /\ WQ nopend S' w').
    { unfold tagged. destruct (gf_exported f); [|apply tq_ret; [assumption|split; [discriminate|exact HW]]].
      destruct (gf_tag f) as [tag|]; [|apply tq_ret; [assumption|split; [discriminate|exact HW]]].
      destruct (parseStructTag tag) as [t [e|]]; [exact Logic.I|]. eapply tq_bind; [apply IHf; [exact HQ|exact HW]|].
      intros [c w'] S2 s2 X Q2 [K W2]. apply tq_ret; [exact Q2|]. auto. }
    intros [o w'] S2 s2 X2 Q2 [K2 W2]. eapply tq_bind; [apply IHfs; [exact Q2|exact W2]|].
    intros [l w''] S3 s3 X3 Q3 [K3 W3]. apply tq_ret; [exact Q3|]. split; [|exact W3].
    intros g [<-|Hg] Ht; [|auto]. eapply known_incl; [exact X3|auto].
  - intros w t f P S s HQ HW. cbn [w_field]. destruct (static_choice t (gf_type f)) as [sc|] eqn:Esc.
    { apply tq_ret; [exact HQ|]. split; [|exact HW]. intros m Hm. rewrite (static_mentions _ _ _ m Esc) in Hm. discriminate. }
    assert (Hpl : tq P (w_codec D fuel w (gf_type f) (t_zz t) false) S s (qpost (gf_type f))) by (apply IHc; [exact HQ|apply none_any; exact HW]).
    destruct (gf_type f) as [ks| |ko|e|key e|e|m|]; cbn [baseTypeOf elem_of]; auto.
    + apply tq_ret; [exact HQ|]. split; [intros m; discriminate|exact HW].
    + eapply tq_bind; [apply IHc; [exact HQ|apply none_any; exact HW]|]. intros [c w'] S2 s2 X Q2 [K W2]. apply slice_tq; auto.
    + destruct (parseStructTag (gf_key f)) as [kt ke]. eapply tq_bind; [apply IHc; [exact HQ|apply none_any; exact HW]|].
      intros [kc w1] S2 s2 X2 Q2 [K2 W2]. destruct (parseStructTag (gf_val f)) as [vt ve]. eapply tq_bind; [apply IHc; [exact Q2|apply none_any; exact W2]|].
      intros [vc w2] S3 s3 X3 Q3 [K3 W3]. apply IHm; assumption.
    + assert (Hs : tq P (let* (c, w0) := w_codec D fuel w e (t_zz t) true in sliceCodecOf (TPtr e) c w0) S s (qpost (TPtr e))).
      { eapply tq_bind; [apply IHc; [exact HQ|apply none_any; exact HW]|]. intros [c w'] S2 s2 X Q2 [K W2]. apply slice_tq; auto. }
      destruct (baseTypeOf e); auto. exact Logic.I.
  - intros w key val tag kf vf P S s HQ HW K. cbn [w_mapCodec]. unfold newCell. apply tq_plain; [exact Logic.I|exact HQ|]. intros c s1 Q1.
    eapply tq_bind; [apply IHi; [exact Q1|apply none_any; apply WQ_set; [exact HW|left; exact K]]|].
    intros [i w'] S2 s2 X Q2 [K2 W2]. unfold fill. apply tq_plain; [exact Logic.I|exact Q2|]. intros _ s3 Q3. apply tq_ret; [exact Q3|].
    split; [|exact W2]. intros m Hm. apply X. apply K. exact Hm.
Qed.

Definition QS (s : gstate) : Prop := exists S, QI S [] s.
Lemma cached_tq k S s : QI S [] s -> tq [] (cachedStructInfoOf D (walk_fuel D) k) S s (fun _ S' => In k S').
Proof.
  intros HQ. unfold cachedStructInfoOf, infoLoad. apply tq_do. cbn [exec fst snd].
  destruct (assoc skey_eq_dec k (g_infoCache s)) as [i|] eqn:E.
  { apply tq_ret; [assumption|]. apply assoc_In in E. eapply (q_ic _ _ _ HQ). exact E. }
  destruct (walk_tq (walk_fuel D)) as (_ & _ & Wi & _). eapply tq_bind; [apply Wi; [exact HQ|]|].
  { split; intros ? ? []. }
  intros [i w] S2 s2 X Q2 [K _]. unfold infoLoadOrStore, tq. cbn [do_ run exec].
  destruct (assoc skey_eq_dec k (g_infoCache s2)) as [j|].
  - exists S2. split; [apply incl_refl|]. auto.
  - exists S2. split; [apply incl_refl|]. split; [|exact K]. destruct Q2 as [A B C]. split; auto.
    + intros k' H. destruct (A k' H) as [[]|[[j J1] J2]]. right. split; [exists j; right; exact J1|exact J2].
    + intros k' i' [J|J]; [inversion J; subst; exact K|eauto].
Qed.
(** No seen type is broken. *)
Lemma seen_fine S s m : QI S [] s -> reachable D s -> In (SNamed m) S -> ~ broken D m.
Proof.
  intros HQ Hs H Hb. revert H. induction Hb as [m fs f Em Hf Hh|m fs f m' Em Hf Ht Hm Hb IH]; intros H.
  - destruct (q_seen _ _ _ HQ _ H) as [[]|[[i Hi] _]].
    assert (HK : forallb (fun f => negb (hopeless_field f)) (struct_fields D (SNamed m)) = false).
    { cbn [struct_fields]. rewrite Em. destruct (forallb _ fs) eqn:F; [|reflexivity]. rewrite forallb_forall in F. apply F in Hf. rewrite Hh in Hf. discriminate. }
    pose proof (reachable_kfree D (SNamed m) HK s Hs) as KF. unfold kfree in KF. clear - Hi KF.
    induction (g_infoCache s) as [|[k j] l IH]; [destruct Hi|]. cbn [assoc] in KF. destruct (skey_eq_dec (SNamed m) k) as [E|E]; [discriminate|].
    destruct Hi as [Hi|Hi]; [inversion Hi; congruence|auto].
  - apply IH. destruct (q_seen _ _ _ HQ _ H) as [[]|[_ R]]. eapply R; [|exact Ht|exact Hm]. cbn [struct_fields]. rewrite Em. exact Hf.
Qed.
Lemma cached_reachable k s : reachable D s -> user_key D k = true -> reachable D (snd (run (cachedStructInfoOf D (walk_fuel D) k) s)).
Proof.
  intros Hs Hk. pose proof (reach_size D s (IPtr k None) Hs Hk) as R. cbn [Size] in R. unfold with_info in R.
  destruct (run (cachedStructInfoOf D (walk_fuel D) k) s) as [[i| |] s']; exact R.
Qed.
Lemma run_broken m s : QS s -> reachable D s -> m < length D -> broken D m -> exists s', run (cachedStructInfoOf D (walk_fuel D) (SNamed m)) s = (Panicked, s').
Proof.
  intros [S HQ] Hs Hm Hb. pose proof (cached_tq (SNamed m) S s HQ) as T. unfold tq in T.
  assert (NF : fst (run (cachedStructInfoOf D (walk_fuel D) (SNamed m)) s) <> OutOfFuel) by (eapply nof_run; apply cached_nof; reflexivity).
  assert (R : reachable D (snd (run (cachedStructInfoOf D (walk_fuel D) (SNamed m)) s))) by (apply cached_reachable; [exact Hs|cbn; apply Nat.ltb_lt; exact Hm]).
  destruct (run (cachedStructInfoOf D (walk_fuel D) (SNamed m)) s) as [[i| |] s']; cbn [fst snd] in *; [|eauto|contradiction].
  destruct T as (S' & _ & Q' & H). exfalso. exact (seen_fine _ _ _ Q' R H Hb).
Qed.
Lemma with_info_quiet {A} k s (f : iref -> gstate -> api A) : QS s -> calm (fst (with_info D k s f)) -> is_entry k = false -> QS (snd (with_info D k s f)).
Proof.
  intros [S HQ] Hc Hk. unfold with_info in *. pose proof (cached_tq k S s HQ) as T. unfold tq in T.
  assert (NF : fst (run (cachedStructInfoOf D (walk_fuel D) k) s) <> OutOfFuel) by (eapply nof_run; apply cached_nof; exact Hk).
  destruct (run (cachedStructInfoOf D (walk_fuel D) k) s) as [[i| |] s']; cbn [fst snd] in *; [|destruct Hc|contradiction].
  destruct T as (S' & _ & Q' & _). exists S'. exact Q'.
Qed.
Lemma user_no_entry k : user_key D k = true -> is_entry k = false.
Proof. destruct k; try discriminate; reflexivity. Qed.
Lemma quiet_reach s : quiet D s -> reachable D s /\ QS s.
Proof.
  induction 1 as [|s v _ [R IH] Hv Hc|s v _ [R IH] Hv Hc|s b v _ [R IH] Hv Hc].
  - split; [constructor|]. exists []. split; [intros k []|intros k i []|intros t c []].
  - split; [constructor; assumption|]. destruct v; cbn [Size snd] in *; auto. apply with_info_quiet; auto using user_no_entry.
  - split; [constructor; assumption|]. destruct v; cbn [Marshal snd] in *; auto. apply with_info_quiet; auto using user_no_entry.
  - split; [constructor; assumption|]. unfold Unmarshal in *. destruct (zlen b =? 0)%Z; [exact IH|]. destruct v as [| | |k [x|]]; cbn [snd] in *; auto. apply with_info_quiet; auto using user_no_entry.
Qed.
Lemma broken_first_proof m s p b x : m < length D -> broken D m -> quiet D s -> b <> [] ->
  fst (Size D (IPtr (SNamed m) p) s) = Panics Unsupported /\
  fst (Marshal D (IPtr (SNamed m) p) s) = Panics Unsupported /\
  fst (Unmarshal D b (IPtr (SNamed m) (Some x)) s) = Panics Unsupported.
Proof.
  intros Hm Hb Hq Hbn. destruct (quiet_reach s Hq) as [R Q]. destruct (run_broken m s Q R Hm Hb) as [s' E].
  cbn [Size Marshal]. unfold Unmarshal, with_info. rewrite E. split; [reflexivity|]. split; [reflexivity|].
  destruct (zlen b =? 0)%Z eqn:Ez; [|reflexivity]. destruct b; [contradiction|]. unfold zlen in Ez. cbn [length] in Ez. lia.
Qed.
End First.
