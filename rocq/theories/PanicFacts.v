(** The walker with texts panics where the walker does, with the text of a fault. *)
From Coq Require Import ZifyBool ZifyNat ZifyN String.
From Verif Require Import Base Wire GoType Leaf Codec Tag Walker Api Typing ArgText PanicText SpecPanic SpecReject WalkSeq RejectFacts ArgTextFacts WalkFuel AnyWalk.
Local Close Scope string_scope.

(** ** Texts apart the two walkers do the same *)
Definition untext {A} (r : outcome (A + string) * gstate) : outcome A * gstate :=
  match r with
  | (Done (inl a), s) => (Done a, s)
  | (Done (inr _), s) => (Panicked, s)
  | (Panicked, s) => (Panicked, s)
  | (OutOfFuel, s) => (OutOfFuel, s)
  end.
Definition sim {A} (p : prog (A + string)) (q : prog A) : Prop := forall s, untext (run p s) = run q s.
Lemma sim_ret {A} (a : A) : sim (ret a) (Ret a).
Proof. intros s. reflexivity. Qed.
Lemma sim_throw {A} e : sim (@throw A e) Panic.
Proof. intros s. reflexivity. Qed.
Lemma sim_nofuel {A} : sim (@NoFuel (A + string)) NoFuel.
Proof. intros s. reflexivity. Qed.
Lemma sim_bind {A B} (p : prog (A + string)) q (k : A -> prog (B + string)) k' :
  sim p q -> (forall a, sim (k a) (k' a)) -> sim (xbind p k) (pbind q k').
Proof.
  intros H K s. unfold xbind. rewrite !run_bind. specialize (H s). rewrite <- H.
  destruct (run p s) as [[[a|e]| |] s1]; cbn [untext]; try reflexivity. apply K.
Qed.
Lemma sim_op {A} (p : prog A) : sim (op_ p) p.
Proof. intros s. unfold op_. rewrite run_bind. destruct (run p s) as [[a| |] s1]; reflexivity. Qed.

Section Same.
Variable D : decls.
Variable name : nat -> string.
Variable others : nat -> nat -> other.

Ltac step := repeat first [apply sim_ret | apply sim_throw | apply sim_nofuel | apply sim_op
  | apply sim_bind; [solve [auto using sim_op]|intros ?]
  | match goal with |- sim (match ?x with _ => _ end) _ => destruct x end | solve [auto]].
Lemma same fuel :
  (forall o w t z r, sim (x_codec D name others fuel o w t z r) (w_codec D fuel w t z r)) /\
  (forall o w t k, sim (x_structCodec D name others fuel o w t k) (w_structCodec D fuel w t k)) /\
  (forall o w k, sim (x_structInfo D name others fuel o w k) (w_structInfo D fuel w k)) /\
  (forall os w i fs, sim (x_fields D name others fuel os w i fs) (w_fields D fuel w i fs)) /\
  (forall o w t f, sim (x_field D name others fuel o w t f) (w_field D fuel w t f)) /\
  (forall o w key val tag kf vf, sim (x_mapCodec D name others fuel o w key val tag kf vf) (w_mapCodec D fuel w key val tag kf vf)).
Proof.
  induction fuel as [|fuel (H1 & H2 & H3 & H4 & H5 & H6)]; [repeat split; intros; apply sim_nofuel|].
  repeat split; intros.
  - cbn [x_codec w_codec]. destruct (w_get w t); [step|]. destruct t; step.
  - cbn [x_structCodec w_structCodec]. step.
  - cbn [x_structInfo w_structInfo]. step.
  - cbn [x_fields w_fields]. destruct fs as [|f fs]; [step|].
    apply sim_bind; [|intros [x w']; step].
    destruct (gf_exported f); [|step]. destruct (gf_tag f) as [tag|]; [|step].
    destruct (parseStructTag tag) as [t [e|]]; step.
  - cbn [x_field w_field]. destruct (static_choice t (gf_type f)); [step|].
    destruct (baseTypeOf (gf_type f)); try solve [step]; destruct (gf_type f); try solve [step].
    all: destruct (parseStructTag (gf_key f)) as [kt ?]; destruct (parseStructTag (gf_val f)) as [vt ?]; step.
  - cbn [x_mapCodec w_mapCodec]. step.
Qed.
Lemma same_cached fuel k : sim (x_cached D name others fuel k) (cachedStructInfoOf D fuel k).
Proof.
  unfold x_cached, cachedStructInfoOf. apply sim_bind; [apply sim_op|]. intros [i|]; [apply sim_ret|].
  apply sim_bind; [apply (proj1 (proj2 (proj2 (same fuel))))|]. intros [i w]. apply sim_op.
Qed.
Lemma text_none k s : (exists i s', run (cachedStructInfoOf D (walk_fuel D) k) s = (Done i, s')) -> panic_text D name others k s = None.
Proof.
  intros (i & s' & E). unfold panic_text. pose proof (same_cached (walk_fuel D) k s) as H. rewrite E in H.
  destruct (run (x_cached D name others (walk_fuel D) k) s) as [[[a|e]| |] s1]; try discriminate; reflexivity.
Qed.
End Same.

(** ** The texts are those of faults *)
Fixpoint throws {A} (p : prog (A + string)) (E : string -> Prop) : Prop :=
  match p with
  | Ret (inl _) => True
  | Ret (inr e) => E e
  | Panic => False
  | NoFuel => True
  | Do o k => forall r, throws (k r) E
  end.
Lemma throws_impl {A} (p : prog (A + string)) (E E' : string -> Prop) : (forall e, E e -> E' e) -> throws p E -> throws p E'.
Proof. intros H. induction p as [[a|e]| | |o k IH]; cbn [throws]; auto. Qed.
Lemma throws_bind {A B} (p : prog (A + string)) (k : A -> prog (B + string)) E :
  throws p E -> (forall a, throws (k a) E) -> throws (xbind p k) E.
Proof. intros H K. unfold xbind. induction p as [[a|e]| | |o c IH]; cbn [throws pbind] in *; auto. Qed.
Lemma throws_do (o : op) {B} (k : resp o -> prog (B + string)) E : (forall r, throws (k r) E) -> throws (xbind (op_ (do_ o)) k) E.
Proof. intros K r. apply K. Qed.
Lemma throws_run {A} (p : prog (A + string)) E : throws p E -> forall s,
  match fst (run p s) with Done (inr e) => E e | Panicked => False | _ => True end.
Proof.
  induction p as [[a|e]| | |o k IH]; cbn [throws run fst]; auto. intros H s. destruct (exec o s) as [r s']. apply IH. apply H.
Qed.

Section Fault.
Variable D : decls.
Variable name : nat -> string.
Variable others : nat -> nat -> other.
Notation type_fault := (type_fault name).
Notation field_fault := (field_fault name).
Notation faulty := (faulty D name others).

Lemma opt_sound k o e : ~ faulty (SOpt k) o e.
Proof.
  intros H. inversion H as [? ? j f ? Hn Hf|? ? j f k' ? Hn Hx]; subst; cbn [struct_fields] in Hn;
    destruct j as [|[|j]]; cbn in Hn; try (destruct j; discriminate); inversion Hn; subst; discriminate.
Qed.
Definition in_type (o : other) (t : gotype) (e : string) : Prop := exists k, leads t k /\ faulty k o e.
Definition in_field (o : other) (f : gofield) (e : string) : Prop :=
  field_fault o f = Some e \/ gf_exported f = true /\ gf_tag f <> None /\ in_type o (gf_type f) e.

Lemma slice_ok ty c w E : throws (op_ (sliceCodecOf ty c w)) E.
Proof.
  unfold sliceCodecOf. intros r. cbn [resp] in r. destruct r as [s|]; [exact Logic.I|]. cbn. destruct (w_get w ty); [exact Logic.I|]. cbn. auto.
Qed.
Lemma base_ptr t : match t with TPtr _ => True | _ => baseTypeOf t = t end.
Proof. destruct t; reflexivity || exact Logic.I. Qed.
Lemma texts fuel :
  (forall o w t z r, throws (x_codec D name others fuel o w t z r) (fun e => type_fault o r t = Some e \/ in_type o t e)) /\
  (forall o w t k, throws (x_structCodec D name others fuel o w t k) (fun e => faulty k o e)) /\
  (forall o w k, throws (x_structInfo D name others fuel o w k) (fun e => faulty k o e)) /\
  (forall os w i fs, throws (x_fields D name others fuel os w i fs) (fun e => exists j f, nth_error fs j = Some f /\ in_field (os (i + j)) f e)) /\
  (forall o w t f tag, gf_exported f = true -> gf_tag f = Some tag -> parseStructTag tag = (t, None) ->
     throws (x_field D name others fuel o w t f) (in_field o f)) /\
  (forall o w key val tag kf vf, throws (x_mapCodec D name others fuel o w key val tag kf vf)
     (fun e => faulty (SEntry key val (wiretag (f_meta kf)) (wiretag (f_meta vf))) o e)).
Proof.
  induction fuel as [|fuel (H1 & H2 & H3 & H4 & H5 & H6)]; [repeat split; intros; exact Logic.I|].
  repeat split.
  - intros o w t z r. cbn [x_codec]. destruct (w_get w t); [exact Logic.I|].
    destruct t as [k| |k|e|k v|e|sid|]; try exact Logic.I; try (left; reflexivity).
    + destruct (Walker.struct_ptr (TPtr e)) as [k|] eqn:Ek.
      * assert (exists q, e = TOption q /\ k = SOpt q) as (q & -> & ->) by (destruct e; try discriminate; cbn in Ek; injection Ek as <-; eauto).
        eapply throws_impl; [|apply H2]. intros x Hx. exfalso. exact (opt_sound _ _ _ Hx).
      * apply throws_do. intros p. cbn [Walker.elem_of]. apply throws_bind; [|intros [c w']; apply throws_do; intros _; exact Logic.I].
        eapply throws_impl; [|apply H1]. intros x [Hx|Hx]; [left|right; exact Hx]. destruct e; try discriminate; exact Hx.
    + cbn [Walker.struct_ptr]. eapply throws_impl; [|apply H2]. intros x Hx. right. exists (SNamed sid). split; [reflexivity|exact Hx].
  - intros o w t k. cbn [x_structCodec]. apply throws_do. intros [c|]; [exact Logic.I|]. destruct (w_get w t); [exact Logic.I|].
    apply throws_do. intros c. apply throws_bind; [apply H3|]. intros [i w']. apply throws_do. intros _. apply throws_do. intros a. exact Logic.I.
  - intros o w k. cbn [x_structInfo]. apply throws_do. intros [i|]; [exact Logic.I|]. destruct (w_iget w k); [exact Logic.I|].
    apply throws_do. intros i. apply throws_bind.
    + eapply throws_impl; [|apply H4]. intros e (j & f & Hn & [Hf|(Hx & Ht & k' & L & Hf)]).
      * eapply faulty_here; [exact Hn|exact Hf].
      * eapply faulty_part; [exact Hn|exact Hx|exact Ht|exact L|exact Hf].
    + intros [fields w']. do 3 (apply throws_do; intros _). exact Logic.I.
  - intros os w i fs. cbn [x_fields]. destruct fs as [|f fs]; [exact Logic.I|]. apply throws_bind.
    + assert (K : forall e, in_field (os i) f e -> exists j f0, nth_error (f :: fs) j = Some f0 /\ in_field (os (i + j)) f0 e).
      { intros e He. exists 0, f. rewrite Nat.add_0_r. split; [reflexivity|exact He]. }
      destruct (gf_exported f) eqn:Ex; [|exact Logic.I]. destruct (gf_tag f) as [tag|] eqn:Et; [|exact Logic.I].
      destruct (parseStructTag tag) as [t [er|]] eqn:Ep.
      * apply K. left. unfold SpecPanic.field_fault. rewrite Ex, Et. pose proof (tag_text_iff tag) as [T _].
        destruct (tag_text tag) as [x|]; [reflexivity|]. specialize (T eq_refl). rewrite Ep in T. discriminate.
      * apply throws_bind; [|intros [c w']; exact Logic.I]. eapply throws_impl; [exact K|]. eapply H5; eassumption.
    + intros [x w']. apply throws_bind; [|intros [r w'']; exact Logic.I]. eapply throws_impl; [|apply H4].
      intros e (j & f' & Hn & Hf). exists (S j), f'. split; [exact Hn|]. rewrite <- plus_n_Sm. exact Hf.
  - intros o w t f tag Ex Et Ep. cbn [x_field]. destruct (static_choice t (gf_type f)) eqn:Es; [exact Logic.I|].
    assert (K : forall e, match gf_type f, baseTypeOf (gf_type f) with
        | TSlice e, _ => type_fault o true e
        | TMap _ v, _ => type_fault o true v
        | TPtr e, (TSlice _ | TBytes) => type_fault o true e
        | TPtr e, TMap _ _ => Some ("reflect: Key of non-map type *" ++ type_text name o e)%string
        | t, _ => type_fault o false t
        end = Some e \/ in_type o (gf_type f) e -> in_field o f e).
    { intros e [He|He]; [left|right].
      - unfold SpecPanic.field_fault. rewrite Ex, Et. assert (T : tag_text tag = None) by (apply tag_text_iff; rewrite Ep; reflexivity).
        rewrite T, Ep. cbn [fst]. rewrite Es. exact He.
      - rewrite Et. repeat split; [exact Ex|discriminate|exact He]. }
    pose proof (base_ptr (gf_type f)) as B.
    destruct (gf_type f) as [k| |k|e|k v|e|sid|] eqn:Ety; try rewrite B in *;
      try (eapply throws_impl; [exact K|apply H1]); try exact Logic.I.
    + apply throws_bind; [|intros [c w']; apply slice_ok]. eapply throws_impl; [exact K|]. apply (H1 o w e).
    + destruct (parseStructTag (gf_key f)) as [kt ?]. destruct (parseStructTag (gf_val f)) as [vt ?].
      apply throws_bind; [|intros [kc w']; apply throws_bind].
      * eapply throws_impl; [|apply H1]. intros x [Hx|(? & [] & _)]. discriminate.
      * eapply throws_impl; [|apply H1]. intros x [Hx|(k' & L & Hx)]; apply K; [left; exact Hx|].
        right. exists k'. split; [left; exact L|exact Hx].
      * intros [vc w'']. eapply throws_impl; [|apply H6]. intros x Hx. apply K. right. eexists. split; [right; eauto|exact Hx].
    + assert (Hs : throws (letx (c, w0) := x_codec D name others fuel o w e (t_zz t) true in op_ (sliceCodecOf (TPtr e) c w0))
          (fun x => type_fault o true e = Some x \/ in_type o (TPtr e) x)).
      { apply throws_bind; [|intros [c w']; apply slice_ok]. apply (H1 o w e). }
      assert (Hc : throws (x_codec D name others fuel o w (TPtr e) (t_zz t) false) (fun x => type_fault o false (TPtr e) = Some x \/ in_type o (TPtr e) x)) by apply H1.
      cbv zeta in K. destruct (baseTypeOf (TPtr e)); try (eapply throws_impl; [exact K|exact Hs]); try (eapply throws_impl; [exact K|exact Hc]).
      apply K. left. reflexivity.
  - intros o w key val tag kf vf. cbn [x_mapCodec]. apply throws_do. intros m. apply throws_bind; [apply H3|].
    intros [i w']. apply throws_do. intros _. exact Logic.I.
Qed.
Definition nowhere : other := {| o_text := EmptyString; o_struct := false |}.
Lemma texts_cached fuel k : throws (x_cached D name others fuel k) (faulty k nowhere).
Proof.
  unfold x_cached. apply throws_do. intros [i|]; [exact Logic.I|]. apply throws_bind; [apply (proj1 (proj2 (proj2 (texts fuel))))|].
  intros [i w]. intros r. exact Logic.I.
Qed.

Lemma panic_fault k s e : panic_text D name others k s = Some e -> faulty k nowhere e.
Proof.
  unfold panic_text. pose proof (throws_run _ _ (texts_cached (walk_fuel D) k) s) as H.
  destruct (fst (run _ s)) as [[a|x]| |]; try discriminate. congruence.
Qed.
Lemma panic_run k s : match panic_text D name others k s with
  | Some _ => fst (run (cachedStructInfoOf D (walk_fuel D) k) s) = Panicked
  | None => fst (run (cachedStructInfoOf D (walk_fuel D) k) s) <> Panicked
  end.
Proof.
  unfold panic_text. pose proof (throws_run _ _ (texts_cached (walk_fuel D) k) s) as H.
  pose proof (same_cached D name others (walk_fuel D) k s) as E. rewrite <- E.
  destruct (run (x_cached D name others (walk_fuel D) k) s) as [[[a|x]| |] s1]; cbn [fst untext] in *; try discriminate; try reflexivity. destruct H.
Qed.
Lemma panics_proof k s : match panic_text D name others k s with
  | Some _ => forall p b x, b <> [] ->
      fst (Size D (IPtr k p) s) = Panics Unsupported /\ fst (Marshal D (IPtr k p) s) = Panics Unsupported /\
      fst (Unmarshal D b (IPtr k (Some x)) s) = Panics Unsupported
  | None => user_key D k = true -> fst (Size D (IPtr k None) s) = Returns 0%Z
  end.
Proof.
  pose proof (panic_run k s) as H. destruct (panic_text D name others k s).
  - intros p b x Hb. unfold Size, Marshal, Unmarshal, with_info. destruct (zlen b =? 0)%Z eqn:Eb; [destruct b; [contradiction|unfold zlen in Eb; cbn in Eb; lia]|].
    destruct (run (cachedStructInfoOf D (walk_fuel D) k) s) as [[i| |] s1]; try discriminate. auto.
  - intros U. unfold Size, with_info. pose proof (nof_run _ _ (cached_nof D k ltac:(destruct k; [reflexivity|discriminate|reflexivity])) s) as N.
    destruct (run (cachedStructInfoOf D (walk_fuel D) k) s) as [[i| |] s1]; cbn [fst] in *; [reflexivity|contradiction..].
Qed.

Lemma no_fault_proof k s : user_key D k = true -> (forall e, ~ faulty k nowhere e) -> fst (Size D (IPtr k None) s) = Returns 0%Z.
Proof.
  intros U H. pose proof (panics_proof k s) as P. destruct (panic_text D name others k s) as [e|] eqn:E; [|apply P; exact U].
  exfalso. apply (H e). apply (panic_fault k s). exact E.
Qed.
Lemma hopeless_fault o f : hopeless_field f = true -> exists e, field_fault o f = Some e.
Proof.
  unfold hopeless_field, SpecPanic.field_fault. destruct (gf_exported f); [|discriminate]. destruct (gf_tag f) as [tag|]; [|discriminate].
  pose proof (tag_text_iff tag) as T. destruct (tag_text tag) as [e|]; [eauto|]. destruct T as [T _]. specialize (T eq_refl).
  destruct (parseStructTag tag) as [t e]. cbn [fst snd] in *. subst e. destruct (static_choice t (gf_type f)); [discriminate|].
  assert (A : forall r t, hopeless t = true -> exists e, type_fault o r t = Some e).
  { intros r u. induction u as [| | | | |u IH| |]; cbn [hopeless SpecPanic.type_fault]; try discriminate; eauto.
    destruct u; try discriminate; auto. }
  destruct (gf_type f) as [k| |k|e|k v|e|sid|]; cbn [hopeless_type]; try discriminate; auto.
  intros H. destruct (baseTypeOf (TPtr e)) eqn:B; try discriminate; eauto.
Qed.
Lemma only_fault_proof sid fs f s : nth_error D sid = Some fs -> In f fs -> hopeless_field f = true -> reachable D s ->
  (exists e, panic_text D name others (SNamed sid) s = Some e) /\
  forall e, (forall e', faulty (SNamed sid) nowhere e' -> e' = e) -> panic_text D name others (SNamed sid) s = Some e.
Proof.
  intros Hn Hi Hh Hs. pose proof (hopeless_proof D sid f fs Hn Hi Hh s Hs None [0%N] (VStruct []) ltac:(discriminate)) as (P & _).
  pose proof (panics_proof (SNamed sid) s) as Q. destruct (panic_text D name others (SNamed sid) s) as [e|] eqn:E.
  - split; [eauto|]. intros e' H. f_equal. apply H. apply (panic_fault _ s). exact E.
  - exfalso. rewrite Q in P; [discriminate|]. cbn. apply Nat.ltb_lt. apply nth_error_Some. congruence.
Qed.
End Fault.
