(** The calls of the library are race free as long as no type in use contains
    itself: the walker only reads and publishes finished codecs. *)
From Coq Require Import String Relations Wellfounded.
From Verif Require Import Base Wire GoType Leaf Codec Tag Walker Api Conc SpecConc SpecRace RaceFacts Typing WireFacts DecodeFacts
  GenFacts TypingFacts CodecSim WalkInv ConcFacts RefuteConc.
From Verif Require Import WalkSeq.
From Verif Require AnyWalk AnyApi.
Local Close Scope string_scope.

Section Walk.
Variable D : decls.
Variable U : skey -> Prop.
Notation sf := (sf U).

(** ** Containment of types; those used before are not looked into *)
Inductive node := NT (t : gotype) | NK (k : skey).
Inductive edge : node -> node -> Prop :=
| e_slice t : edge (NT t) (NT (TSlice t))
| e_ptr t : edge (NT t) (NT (TPtr t))
| e_mapk k v : edge (NT (TScalar k)) (NT (TMap k v))
| e_mapv k v : edge (NT v) (NT (TMap k v))
| e_entry k v a b : edge (NK (SEntry k v a b)) (NT (TMap k v))
| e_struct t k : struct_ptr t = Some k -> edge (NK k) (NT t)
| e_field k f : ~ U k -> In f (struct_fields D k) -> edge (NT (gf_type f)) (NK k).
(** [a] is strictly inside [b]. *)
Definition below : node -> node -> Prop := clos_trans node edge.
Definition fin (n : node) : Prop := Acc edge n.

Lemma fin_irrefl n : fin n -> ~ below n n.
Proof.
  intros H. assert (A : Acc below n).
  { apply Acc_clos_trans. exact H. }
  clear H. induction A as [n _ IH]. intros X. exact (IH n X X).
Qed.
Lemma fin_edge a b : fin b -> edge a b -> fin a.
Proof. intros H E. eapply Acc_inv; eassumption. Qed.

(** ** What a walker remembers *)
Notation busy := (node -> loc -> Prop).
Definition at_ok (B : busy) (n : node) : Prop := forall m x, B m x -> below n m.
Definition w_ok (B : busy) (K : locset) (w : walker) : Prop :=
  (forall t c, In (t, c) (w_codecs w) -> kc K c \/ B (NT t) (LCodec c)) /\
  (forall k i, In (k, i) (w_infos w) -> K (LInfo i) \/ B (NK k) (LInfo i)).
Definition more (B : busy) (n : node) (x : loc) : busy := fun m y => (m = n /\ y = x) \/ B m y.

Lemma at_ok_edge B n m : edge n m -> at_ok B m -> at_ok B n.
Proof. intros E H a x Hx. eapply t_trans; [apply t_step; exact E|eapply H; exact Hx]. Qed.
Lemma at_ok_more B n m x : edge n m -> at_ok B m -> at_ok (more B m x) n.
Proof. intros E H a y [[-> ->]|Hy]; [apply t_step; exact E|eapply at_ok_edge; eassumption]. Qed.
Lemma w_ok_sub B K K' w : sub K K' -> w_ok B K w -> w_ok B K' w.
Proof.
  intros S [H1 H2]. split; intros a b H; [apply H1 in H|apply H2 in H]; destruct H as [H|H]; auto.
  left. eapply kc_sub; eassumption.
Qed.
Lemma w_get_ok B K w t c : w_ok B K w -> at_ok B (NT t) -> fin (NT t) -> w_get w t = Some c -> kc K c.
Proof.
  intros [H _] Ha Hf E. apply assoc_in in E. apply H in E. destruct E as [E|E]; [assumption|].
  exfalso. apply (fin_irrefl _ Hf). eapply Ha; exact E.
Qed.
Lemma w_iget_ok B K w k i : w_ok B K w -> at_ok B (NK k) -> fin (NK k) -> w_iget w k = Some i -> K (LInfo i).
Proof.
  intros [_ H] Ha Hf E. apply assoc_in in E. apply H in E. destruct E as [E|E]; [assumption|].
  exfalso. apply (fin_irrefl _ Hf). eapply Ha; exact E.
Qed.
Lemma w_set_busy B K w t c : w_ok B K w -> w_ok (more B (NT t) (LCodec c)) K (w_set w t c).
Proof.
  intros [H1 H2]. split; cbn.
  - intros t' c' [E|H]; [inversion E; subst; right; left; auto|]. apply H1 in H. destruct H; auto. right. right. assumption.
  - intros k i H. apply H2 in H. destruct H; auto. right. right. assumption.
Qed.
Lemma w_iset_busy B K w k i : w_ok B K w -> w_ok (more B (NK k) (LInfo i)) K (w_iset w k i).
Proof.
  intros [H1 H2]. split; cbn.
  - intros t' c' H. apply H1 in H. destruct H; auto. right. right. assumption.
  - intros k' i' [E|H]; [inversion E; subst; right; left; auto|]. apply H2 in H. destruct H; auto. right. right. assumption.
Qed.
(** Once finished. *)
Lemma w_ok_done B K w n x : w_ok (more B n x) K w -> w_ok B (add K x) w.
Proof.
  intros [H1 H2]. split.
  - intros t c H. apply H1 in H. destruct H as [H|[[_ <-]|H]]; auto; left.
    + eapply kc_sub; [apply sub_add|exact H].
    + destruct c; cbn; [exact Logic.I|left; reflexivity].
  - intros k i H. apply H2 in H. destruct H as [H|[[_ <-]|H]]; auto; left; [right; assumption|left; reflexivity].
Qed.
Lemma w_set_done B K w t c : w_ok B K w -> kc K c -> w_ok B K (w_set w t c).
Proof.
  intros [H1 H2] Hc. split; [|exact H2]. intros t' c' [E|H]; [|apply H1; assumption]. left. inversion E; subst. assumption.
Qed.

Definition cpost (B : busy) (O K : locset) : cref * walker -> locset -> locset -> Prop :=
  fun r O' K' => kc K' (fst r) /\ w_ok B K' (snd r) /\ sub K K' /\ sub O O'.
Definition ipost (B : busy) (O K : locset) : iref * walker -> locset -> locset -> Prop :=
  fun r O' K' => K' (LInfo (fst r)) /\ w_ok B K' (snd r) /\ sub K K' /\ sub O O'.
Definition fpost (B : busy) (O K : locset) : list hfield * walker -> locset -> locset -> Prop :=
  fun r O' K' => fields_in K' (fst r) /\ w_ok B K' (snd r) /\ sub K K' /\ sub O O'.

Lemma cpost_weaken B O K O1 K1 : sub K K1 -> sub O O1 -> forall r O' K', cpost B O1 K1 r O' K' -> cpost B O K r O' K'.
Proof. intros S1 S2 r O' K' (A & C & E & F). repeat split; try assumption; try apply C; eapply sub_trans; eassumption. Qed.

Lemma sub_rem O O' x : ~ O x -> sub (add O x) O' -> sub O (rem O' x).
Proof. intros N S y Hy. split; [intros ->; contradiction|]. apply S. right. assumption. Qed.

Lemma sf_newCell {A} (Q : A -> locset -> locset -> Prop) (O K : locset) (k : cref -> prog A) :
  (forall n, ~ O (LCodec (CCell n)) -> sf (k (CCell n)) Q (add O (LCodec (CCell n))) K) -> sf (pbind newCell k) Q O K.
Proof. intros H. exact H. Qed.
Lemma sf_newInfo {A} (Q : A -> locset -> locset -> Prop) (O K : locset) (k : iref -> prog A) :
  (forall n, ~ O (LInfo n) -> sf (k n) Q (add O (LInfo n)) K) -> sf (pbind newInfo k) Q O K.
Proof. intros H. exact H. Qed.
Lemma sf_fill {A} (Q : A -> locset -> locset -> Prop) (O K : locset) c b (k : unit -> prog A) :
  O (LCodec c) -> body_in K b -> sf (k tt) Q (rem O (LCodec c)) (add K (LCodec c)) -> sf (pbind (fill c b) k) Q O K.
Proof. intros H1 H2 H3. exact (conj H1 (conj H2 H3)). Qed.
Lemma sf_setFields {A} (Q : A -> locset -> locset -> Prop) (O K : locset) i fs (k : unit -> prog A) :
  O (LInfo i) -> fields_in K fs -> sf (k tt) Q O K -> sf (pbind (setFields i fs) k) Q O K.
Proof. intros H1 H2 H3. exact (conj H1 (conj H2 H3)). Qed.
Lemma sf_setIndex {A} (Q : A -> locset -> locset -> Prop) (O K : locset) i fs (k : unit -> prog A) :
  O (LInfo i) -> fields_in K fs -> sf (k tt) Q (rem O (LInfo i)) (add K (LInfo i)) -> sf (pbind (setIndex i fs) k) Q O K.
Proof. intros H1 H2 H3. exact (conj H1 (conj H2 H3)). Qed.
Lemma sf_infoLoad {A} (Q : A -> locset -> locset -> Prop) (O K : locset) q (k : option iref -> prog A) :
  (forall r K', sub K K' -> someq (fun i => K' (LInfo i)) r -> (U q -> r <> None) -> sf (k r) Q O K') -> sf (pbind (infoLoad q) k) Q O K.
Proof. intros H. exact H. Qed.
Lemma sf_codecLoad {A} (Q : A -> locset -> locset -> Prop) (O K : locset) q (k : option cref -> prog A) :
  (forall r K', sub K K' -> someq (kc K') r -> sf (k r) Q O K') -> sf (pbind (codecLoad q) k) Q O K.
Proof. intros H. exact H. Qed.
Lemma sf_sliceLoad {A} (Q : A -> locset -> locset -> Prop) (O K : locset) q (k : option cref -> prog A) :
  (forall r K', sub K K' -> someq (kc K') r -> sf (k r) Q O K') -> sf (pbind (sliceLoad q) k) Q O K.
Proof. intros H. exact H. Qed.
Lemma sf_infoStore {A} (Q : A -> locset -> locset -> Prop) (O K : locset) q i (k : unit -> prog A) :
  K (LInfo i) -> sf (k tt) Q O K -> sf (pbind (infoStore q i) k) Q O K.
Proof. intros H1 H2. exact (conj H1 H2). Qed.
Lemma sf_infoLoadOrStore {A} (Q : A -> locset -> locset -> Prop) (O K : locset) q i (k : iref -> prog A) :
  K (LInfo i) -> (forall r K', sub K K' -> K' (LInfo r) -> sf (k r) Q O K') -> sf (pbind (infoLoadOrStore q i) k) Q O K.
Proof. intros H1 H2. exact (conj H1 H2). Qed.
Lemma sf_codecLoadOrStore {A} (Q : A -> locset -> locset -> Prop) (O K : locset) q c (k : cref -> prog A) :
  kc K c -> (forall r K', sub K K' -> kc K' r -> sf (k r) Q O K') -> sf (pbind (codecLoadOrStore q c) k) Q O K.
Proof. intros H1 H2. exact (conj H1 H2). Qed.
Lemma sf_sliceLoadOrStore {A} (Q : A -> locset -> locset -> Prop) (O K : locset) q c (k : cref -> prog A) :
  kc K c -> (forall r K', sub K K' -> kc K' r -> sf (k r) Q O K') -> sf (pbind (sliceLoadOrStore q c) k) Q O K.
Proof. intros H1 H2. exact (conj H1 H2). Qed.

Lemma kc_add K c : kc (add K (LCodec c)) c.
Proof. destruct c; cbn; [exact Logic.I|left; reflexivity]. Qed.

Lemma sf_slice B t c w O K : w_ok B K w -> at_ok B (NT t) -> fin (NT t) -> kc K c ->
  sf (sliceCodecOf t c w) (cpost B O K) O K.
Proof.
  intros Hw Ha Hf Hc. unfold sliceCodecOf. apply sf_sliceLoad. intros r K1 S1 Hr. destruct r as [s|].
  { split; [exact Hr|]. split; [eapply w_ok_sub; eassumption|]. split; [assumption|apply sub_refl]. }
  destruct (w_get w t) as [s|] eqn:E.
  { split; [eapply kc_sub; [exact S1|eapply w_get_ok; eassumption]|].
    split; [eapply w_ok_sub; eassumption|]. split; [assumption|apply sub_refl]. }
  apply sf_newCell. intros n Hn. apply sf_fill; [left; reflexivity|cbn; eapply kc_sub; eassumption|].
  apply sf_sliceLoadOrStore; [apply kc_add|]. intros r K' S Hr'. split; [exact Hr'|]. cbn [fst snd].
  split; [|split].
  - apply (w_ok_sub B (add K1 (LCodec (CCell n)))); [assumption|].
    apply w_set_done; [|apply kc_add]. eapply w_ok_sub; [|exact Hw]. eapply sub_trans; [exact S1|apply sub_add].
  - eapply sub_trans; [exact S1|]. eapply sub_trans; [apply sub_add|exact S].
  - apply sub_rem; [assumption|apply sub_refl].
Qed.

Lemma walk_sf : forall f,
  (forall w t zz rq B O K, w_ok B K w -> at_ok B (NT t) -> fin (NT t) -> sf (w_codec D f w t zz rq) (cpost B O K) O K) /\
  (forall w t k B O K, w_ok B K w -> at_ok B (NT t) -> fin (NT t) -> struct_ptr t = Some k ->
     sf (w_structCodec D f w t k) (cpost B O K) O K) /\
  (forall w k B O K, w_ok B K w -> at_ok B (NK k) -> fin (NK k) -> sf (w_structInfo D f w k) (ipost B O K) O K) /\
  (forall w idx fs B O K, w_ok B K w -> Forall (fun g => at_ok B (NT (gf_type g)) /\ fin (NT (gf_type g))) fs ->
     sf (w_fields D f w idx fs) (fpost B O K) O K) /\
  (forall w t g B O K, w_ok B K w -> at_ok B (NT (gf_type g)) -> fin (NT (gf_type g)) -> sf (w_field D f w t g) (cpost B O K) O K) /\
  (forall w key val tag kf vf B O K, w_ok B K w -> at_ok B (NT (TMap key val)) -> fin (NT (TMap key val)) ->
     kc K (f_codec kf) -> kc K (f_codec vf) ->
     sf (w_mapCodec D f w key val tag kf vf) (cpost B O K) O K).
Proof.
  induction f as [|f (IHc & IHs & IHi & IHfs & IHf & IHm)]; [repeat split; intros; exact Logic.I|].
  repeat apply conj.
  - intros w t zz rq B O K Hw Ha Hf. cbn [w_codec].
    destruct (w_get w t) as [c|] eqn:E.
    { split; [eapply w_get_ok; eassumption|]. split; [exact Hw|]. split; apply sub_refl. }
    assert (St : forall s, cpost B O K (CStatic s, w) O K).
    { intros s. split; [exact Logic.I|]. split; [exact Hw|]. split; apply sub_refl. }
    assert (Pt : forall k, struct_ptr t = Some k -> sf (w_structCodec D f w t k) (cpost B O K) O K) by (intros; apply IHs; assumption).
    destruct t as [k| |k|e|k v|e|sid|]; try exact Logic.I; try apply St.
    + assert (Pn : sf (let* p := newCell in let w := w_set w (TPtr e) p in
          let* (c, w) := w_codec D f w (elem_of (TPtr e)) zz rq in
          let* _ := fill p (BPtr (elem_of (TPtr e)) c) in Ret (p, w)) (cpost B O K) O K).
      { apply sf_newCell. intros n Hn. cbv zeta. apply sf_bind. cbn [elem_of].
        eapply sf_conseq; [|apply (IHc (w_set w (TPtr e) (CCell n)) e zz rq (more B (NT (TPtr e)) (LCodec (CCell n)))
            (add O (LCodec (CCell n))) K)].
        - intros [c w'] O' K' (C1 & C2 & C3 & C4). cbn [fst snd] in *. apply sf_fill; [apply C4; left; reflexivity|exact C1|].
          split; [apply kc_add|]. split; [eapply w_ok_done; exact C2|]. split; [eapply sub_trans; [exact C3|apply sub_add]|].
          apply sub_rem; assumption.
        - apply w_set_busy. assumption.
        - apply at_ok_more; [constructor|assumption].
        - eapply fin_edge; [exact Hf|constructor]. }
      destruct (struct_ptr (TPtr e)) as [k|] eqn:Es; [apply Pt; reflexivity|exact Pn].
    + apply Pt. reflexivity.
  - intros w t k B O K Hw Ha Hf Es. cbn [w_structCodec]. apply sf_codecLoad. intros r K1 S1 Hr.
    destruct r as [c|].
    { split; [exact Hr|]. split; [eapply w_ok_sub; eassumption|]. split; [assumption|apply sub_refl]. }
    destruct (w_get w t) as [c|] eqn:E.
    { split; [eapply kc_sub; [exact S1|eapply w_get_ok; eassumption]|].
      split; [eapply w_ok_sub; eassumption|]. split; [assumption|apply sub_refl]. }
    apply sf_newCell. intros n Hn. cbv zeta. apply sf_bind.
    eapply sf_conseq; [|apply (IHi (w_set w t (CCell n)) k (more B (NT t) (LCodec (CCell n))) (add O (LCodec (CCell n))) K1)].
    + intros [i w'] O' K' (C1 & C2 & C3 & C4). cbn [fst snd] in *. apply sf_fill; [apply C4; left; reflexivity|exact C1|].
      apply sf_codecLoadOrStore; [apply kc_add|]. intros r K2 S2 Hr2. split; [exact Hr2|]. cbn [fst snd].
      split; [eapply w_ok_sub; [exact S2|]; eapply w_ok_done; exact C2|].
      split; [|apply sub_rem; assumption].
      eapply sub_trans; [exact S1|]. eapply sub_trans; [exact C3|]. eapply sub_trans; [apply sub_add|exact S2].
    + apply w_set_busy. eapply w_ok_sub; eassumption.
    + apply at_ok_more; [constructor; assumption|assumption].
    + eapply fin_edge; [exact Hf|constructor; assumption].
  - intros w k B O K Hw Ha Hf. cbn [w_structInfo]. apply sf_infoLoad. intros r K1 S1 Hr Hu.
    destruct r as [i|].
    { split; [exact Hr|]. split; [eapply w_ok_sub; eassumption|]. split; [assumption|apply sub_refl]. }
    destruct (w_iget w k) as [i|] eqn:E.
    { split; [apply S1; eapply w_iget_ok; eassumption|].
      split; [eapply w_ok_sub; eassumption|]. split; [assumption|apply sub_refl]. }
    apply sf_newInfo. intros n Hn. cbv zeta. apply sf_bind.
    eapply sf_conseq; [|apply (IHfs (w_iset w k n) 0 (struct_fields D k) (more B (NK k) (LInfo n)) (add O (LInfo n)) K1)].
    + intros [fs w'] O' K' (C1 & C2 & C3 & C4). cbn [fst snd] in *.
      apply sf_setFields; [apply C4; left; reflexivity|exact C1|].
      apply sf_setIndex; [apply C4; left; reflexivity|exact C1|].
      apply sf_infoStore; [left; reflexivity|]. split; [left; reflexivity|]. cbn [fst snd].
      split; [eapply w_ok_done; exact C2|].
      split; [|apply sub_rem; assumption].
      eapply sub_trans; [exact S1|]. eapply sub_trans; [exact C3|]. apply sub_add.
    + apply w_iset_busy. eapply w_ok_sub; eassumption.
    + apply Forall_forall. intros g Hg. split.
      * apply at_ok_more; [constructor; [intros X; apply (Hu X); reflexivity|assumption]|assumption].
      * eapply fin_edge; [exact Hf|constructor; [intros X; apply (Hu X); reflexivity|assumption]].
  - intros w idx fs B O K Hw HF. cbn [w_fields]. destruct fs as [|g fs].
    { split; [constructor|]. split; [exact Hw|]. split; apply sub_refl. }
    inversion HF as [|? ? [Hg1 Hg2] HF']; subst. apply sf_bind.
    eapply sf_conseq with (Q1 := fun r O' K' => someq (fun x => kc K' (f_codec x)) (fst r) /\ w_ok B K' (snd r) /\ sub K K' /\ sub O O').
    + intros [o w'] O1 K1 (C1 & C2 & C3 & C4). cbn [fst snd] in *. apply sf_bind.
      eapply sf_conseq; [|apply (IHfs w' (S idx) fs B O1 K1); assumption].
      intros [r w2] O2 K2 (E1 & E2 & E3 & E4). cbn [fst snd] in *. split; [|split; [exact E2|split; eapply sub_trans; eassumption]].
      cbn [fst]. destruct o as [x|]; [|exact E1]. constructor; [|exact E1]. eapply kc_sub; [exact E3|exact C1].
    + assert (Sk : sf (Ret (@None hfield, w)) (fun r O' K' => someq (fun x => kc K' (f_codec x)) (fst r) /\ w_ok B K' (snd r) /\ sub K K' /\ sub O O') O K).
      { split; [exact Logic.I|]. split; [exact Hw|]. split; apply sub_refl. }
      destruct (gf_exported g); [|exact Sk]. destruct (gf_tag g) as [tag|]; [|exact Sk].
      destruct (parseStructTag tag) as [t [e|]]; [exact Logic.I|]. apply sf_bind.
      eapply sf_conseq; [|apply (IHf w t g B O K); assumption].
      intros [c w'] O1 K1 (C1 & C2 & C3 & C4). exact (conj C1 (conj C2 (conj C3 C4))).
  - intros w t g B O K Hw Ha Hf. cbn [w_field]. cbv zeta.
    assert (St : forall s, cpost B O K (CStatic s, w) O K).
    { intros s. split; [exact Logic.I|]. split; [exact Hw|]. split; apply sub_refl. }
    destruct (static_choice t (gf_type g)) as [s|]; [apply St|].
    assert (Sl : forall e, edge (NT e) (NT (gf_type g)) ->
       sf (let* (c, w) := w_codec D f w e (t_zz t) true in sliceCodecOf (gf_type g) c w) (cpost B O K) O K).
    { intros e He. apply sf_bind. eapply sf_conseq; [|apply (IHc w e (t_zz t) true B O K); [assumption|eapply at_ok_edge; eassumption|eapply fin_edge; eassumption]].
      intros [c w'] O1 K1 (C1 & C2 & C3 & C4). cbn [fst snd] in *.
      eapply sf_conseq; [apply (cpost_weaken B O K O1 K1); assumption|]. apply sf_slice; assumption. }
    destruct (gf_type g) as [k| |k|e|key val|e|sid|]; cbn [baseTypeOf]; try (apply IHc; assumption); try apply St.
    + apply (Sl e). constructor.
    + destruct (parseStructTag (gf_key g)) as [kt ke]. apply sf_bind.
      eapply sf_conseq; [|apply (IHc w (TScalar key) (t_zz kt) true B O K); [assumption| |]].
      2:{ eapply at_ok_edge; [|exact Ha]. constructor. }
      2:{ eapply fin_edge; [exact Hf|]. constructor. }
      intros [c1 w1] O1 K1 (C1 & C2 & C3 & C4). cbn [fst snd] in *.
      destruct (parseStructTag (gf_val g)) as [vt ve]. apply sf_bind.
      eapply sf_conseq; [|apply (IHc w1 val (t_zz vt) true B O1 K1); [assumption| |]].
      2:{ eapply at_ok_edge; [|exact Ha]. constructor. }
      2:{ eapply fin_edge; [exact Hf|]. constructor. }
      intros [c2 w2] O2 K2 (E1 & E2 & E3 & E4). cbn [fst snd] in *.
      eapply sf_conseq; [apply (cpost_weaken B O K O2 K2); eapply sub_trans; eassumption|].
      apply IHm; try assumption. eapply kc_sub; [exact E3|exact C1].
    + destruct (baseTypeOf e); try (apply IHc; assumption); try exact Logic.I; cbn [elem_of]; apply (Sl e); constructor.
  - intros w key val tag kf vf B O K Hw Ha Hf Hk Hv. cbn [w_mapCodec].
    apply sf_newCell. intros n Hn. cbv zeta. apply sf_bind.
    eapply sf_conseq; [|apply (IHi (w_set w (TMap key val) (CCell n)) _ (more B (NT (TMap key val)) (LCodec (CCell n))) (add O (LCodec (CCell n))) K)].
    + intros [i w'] O' K' (C1 & C2 & C3 & C4). cbn [fst snd] in *. apply sf_fill; [apply C4; left; reflexivity| |].
      { cbn. split; [eapply kc_sub; eassumption|]. split; [eapply kc_sub; eassumption|exact C1]. }
      split; [apply kc_add|]. split; [eapply w_ok_done; exact C2|]. split; [eapply sub_trans; [exact C3|apply sub_add]|].
      apply sub_rem; assumption.
    + apply w_set_busy. assumption.
    + apply at_ok_more; [constructor|assumption].
    + eapply fin_edge; [exact Hf|constructor].
Qed.
End Walk.

(** ** Types that do not contain themselves *)
Section Calls.
Variable D : decls.
Variable U : skey -> Prop.
Notation fin := (fin D U).
Notation sf := (sf U).

Lemma fin_scalar k : fin (NT (TScalar k)).
Proof. constructor. intros m E. inversion E; subst. discriminate. Qed.
Lemma fin_entry k v a b : fin (NT v) -> fin (NK (SEntry k v a b)).
Proof.
  intros H. constructor. intros m E. inversion E as [| | | | | |? ? _ X]; subst. cbn in X. destruct X as [<-|[<-|[]]]; [apply fin_scalar|exact H].
Qed.
Lemma fin_opt k : fin (NK (SOpt k)).
Proof. constructor. intros m E. inversion E as [| | | | | |? ? _ X]; subst. cbn in X. destruct X as [<-|[<-|[]]]; apply fin_scalar. Qed.
Lemma fin_used k : U k -> fin (NK k).
Proof. intros H. constructor. intros m E. inversion E; subst. contradiction. Qed.
Lemma fin_type t : finite_upto D U t -> fin (NT t).
Proof.
  induction 1 as [k| |k| |t _ IH|t _ IH|k t _ IH|sid Hu|sid _ IH]; constructor; intros m E; inversion E; subst; try discriminate; try assumption.
  - destruct t; try discriminate. inversion H1; subst. apply fin_opt.
  - apply fin_scalar.
  - apply fin_entry. assumption.
  - inversion H1; subst. apply fin_used. assumption.
  - inversion H1; subst. constructor. intros m' E'. inversion E' as [| | | | | |? ? _ X]; subst. cbn in X.
    destruct (nth_error D sid) as [fs|] eqn:En; [|destruct X]. eapply IH; [reflexivity|exact X].
Qed.
Lemma fin_key k : ready_key D U k -> fin (NK k).
Proof.
  intros [H|H]; [apply fin_used; assumption|]. destruct k as [sid|k v a b|k].
  - apply fin_type in H. eapply fin_edge; [exact H|]. constructor. reflexivity.
  - apply fin_entry, fin_type, H.
  - apply fin_opt.
Qed.

(** ** Using codecs *)
(** [p] only reads memory that is finished, or only package-level codecs. *)
Definition rd {A} (K : locset) (p : prog A) : Prop := forall O, sf p (fun _ O' K' => O' = O /\ K' = K) O K.

Lemma rd_ret {A} K (a : A) : rd K (Ret a).
Proof. intros O. split; reflexivity. Qed.
Lemma rd_bind {A B} K (p : prog A) (k : A -> prog B) : rd K p -> (forall a, rd K (k a)) -> rd K (pbind p k).
Proof.
  intros Hp Hk O. apply sf_bind. eapply sf_conseq; [|apply Hp]. intros a O' K' [-> ->]. apply Hk.
Qed.
Lemma rd_rbindp {A B} K (p : prog (res A)) (k : A -> prog (res B)) : rd K p -> (forall a, rd K (k a)) -> rd K (rbindp p k).
Proof. intros Hp Hk. apply rd_bind; [assumption|]. intros [a|c]; [apply Hk|apply rd_ret]. Qed.
Lemma rd_readCell {A} (K : locset) c (k : hbody -> prog A) : kc K c -> (forall b, body_in K b -> rd K (k b)) -> rd K (pbind (readCell c) k).
Proof. intros H Hk O. split; [exact H|]. intros b Hb. exact (Hk b Hb O). Qed.
Lemma rd_readInfo {A} (K : locset) i (k : hinfo -> prog A) : K (LInfo i) -> (forall x, info_in K x -> rd K (k x)) -> rd K (pbind (readInfo i) k).
Proof. intros H Hk O. split; [exact H|]. intros b Hb. exact (Hk b Hb O). Qed.

Section K.
Variable K : locset.
Lemma rd_sum l : Forall (rd K) l -> rd K (p_sum l).
Proof. induction 1; [apply rd_ret|]. cbn [p_sum]. apply rd_rbindp; [assumption|]. intros a. apply rd_rbindp; [assumption|]. intros; apply rd_ret. Qed.
Lemma rd_chain l : Forall (fun p => forall b, rd K (p b)) l -> forall b, rd K (p_chain b l).
Proof. induction 1; intros b; [apply rd_ret|]. cbn [p_chain]. apply rd_rbindp; auto. Qed.
Lemma rd_fields_size sub fs : (forall j, match sub j with Some g => forall c f, kc K c -> rd K (g c f) | None => True end) ->
  fields_in K fs -> rd K (p_fields_size sub fs).
Proof.
  intros H HF. induction HF as [|f fs Hf _ IH]; [apply rd_ret|]. cbn [p_fields_size]. apply rd_rbindp.
  - specialize (H (f_idx f)). destruct (sub (f_idx f)); [apply H; assumption|apply rd_ret].
  - intros a. apply rd_rbindp; [assumption|]. intros; apply rd_ret.
Qed.
Lemma rd_fields_encode sub fs : (forall j, match sub j with Some g => forall b c f, kc K c -> rd K (g b c f) | None => True end) ->
  fields_in K fs -> forall b, rd K (p_fields_encode sub b fs).
Proof.
  intros H HF. induction HF as [|f fs Hf _ IH]; intros b; [apply rd_ret|]. cbn [p_fields_encode]. apply rd_rbindp; [|auto].
  specialize (H (f_idx f)). destruct (sub (f_idx f)); [apply H; assumption|apply rd_ret].
Qed.
Lemma rd_sz : forall v c f, kc K c -> rd K (p_sz v c f).
Proof.
  induction v as [v IH] using val_ind2; intros c f Hc.
  destruct v; cbn [p_sz]; (apply rd_readCell; [exact Hc|]); intros [|x|t d|t d|k i|tag kf vf e i] Hb; cbn [body_in] in Hb; try apply rd_ret.
  - apply rd_sum, Forall_map'. eapply Forall_impl; [|apply IH]. cbn beta. auto.
  - destruct Hb as (Hk & Hv & _). apply rd_rbindp; [|intros; apply rd_ret]. apply rd_sum. destruct m as [l|]; [|constructor].
    apply Forall_map'. eapply Forall_impl; [|exact IH]. intros [k x] [Ik Ix]. cbn [fst snd] in *.
    apply rd_rbindp; [apply Ik; assumption|]. intros a. apply rd_rbindp; [apply Ix; assumption|]. intros; apply rd_ret.
  - destruct o as [x|]; [|apply rd_ret]. apply IH; assumption.
  - destruct o as [x|]; [|apply rd_ret]. apply rd_readInfo; [assumption|]. intros info [Hi _]. apply rd_rbindp; [|intros; apply rd_ret].
    apply rd_fields_size; [|exact Hi]. intros j. destruct x; try (destruct j; exact Logic.I). rewrite nth_error_map.
    destruct (nth_error fs j) as [y|] eqn:E; [|exact Logic.I]. cbn [option_map].
    destruct IH as [_ IH]. rewrite Forall_forall in IH. apply nth_error_In in E. intros. apply IH; assumption.
Qed.
Lemma rd_struct_size i x : K (LInfo i) -> rd K (p_struct_size i x).
Proof.
  intros H. apply rd_readInfo; [assumption|]. intros info [Hi _]. apply rd_fields_size; [|exact Hi]. intros j. destruct (get_field x j); [|exact Logic.I]. cbn. intros. apply rd_sz; assumption.
Qed.
Lemma rd_enc : forall v b c f, kc K c -> rd K (p_enc v b c f).
Proof.
  induction v as [v IH] using val_ind2; intros b c f Hc.
  destruct v; cbn [p_enc]; (apply rd_readCell; [exact Hc|]); intros [|x|t d|t d|k i|tag kf vf e i] Hb; cbn [body_in] in Hb; try apply rd_ret.
  - apply rd_chain, Forall_map'. eapply Forall_impl; [|apply IH]. cbn beta. auto.
  - destruct Hb as (Hk & Hv & _). apply rd_rbindp; [|intros; apply rd_ret]. apply rd_chain. destruct m as [l|]; [|constructor].
    apply Forall_map'. eapply Forall_impl; [|exact IH]. intros [k x] [Ik Ix] b'. cbn [fst snd] in *.
    apply rd_rbindp; [apply rd_sz; assumption|]. intros n. apply rd_rbindp; [apply rd_sz; assumption|]. intros m.
    apply rd_rbindp; [apply Ik; assumption|]. intros b2. apply Ix; assumption.
  - destruct o as [x|]; [|apply rd_ret]. apply IH; assumption.
  - destruct o as [x|]; [|apply rd_ret]. apply rd_rbindp; [apply rd_struct_size; assumption|]. intros n.
    apply rd_readInfo; [assumption|]. intros info [Hi _].
    apply rd_fields_encode; [|exact Hi]. intros j. destruct x; try (destruct j; exact Logic.I). rewrite nth_error_map.
    destruct (nth_error fs j) as [y|] eqn:E; [|exact Logic.I]. cbn [option_map].
    destruct IH as [_ IH]. rewrite Forall_forall in IH. apply nth_error_In in E. intros. apply IH; assumption.
Qed.
Lemma rd_struct_encode i b x : K (LInfo i) -> rd K (p_struct_encode i b x).
Proof.
  intros H. apply rd_readInfo; [assumption|]. intros info [Hi _]. apply rd_fields_encode; [|exact Hi]. intros j. destruct (get_field x j); [|exact Logic.I]. cbn. intros. apply rd_enc; assumption.
Qed.
Lemma lookup_in info fn fd : info_in K info -> lookup_field info fn = Some fd -> kc K (f_codec fd).
Proof.
  intros [_ H] E. unfold lookup_field in E. unfold fields_in in H. rewrite Forall_forall in H. apply H.
  apply find_some in E. rewrite in_rev. apply E.
Qed.
Lemma rd_dec : forall f, (forall c b v, kc K c -> rd K (p_dec D f c b v)) /\ (forall i b off x, K (LInfo i) -> rd K (p_decs D f i b off x)).
Proof.
  induction f as [|f [IHd IHs]]; [split; intros; apply rd_ret|]. split.
  - intros c b v Hc. rewrite p_dec_S. apply rd_readCell; [assumption|]. intros [|x|t d|t d|k i|tag kf vf e i] Hb; cbn [body_in] in Hb; try apply rd_ret.
    + destruct v; try apply rd_ret. apply rd_bind; [apply IHd; assumption|]. intros; apply rd_ret.
    + destruct v; try apply rd_ret. cbv zeta. destruct (match spare with [] => grow_spare t (length items) | _ => spare end); [apply rd_ret|].
      apply rd_bind; [apply IHd; assumption|]. intros; apply rd_ret.
    + destruct v; try apply rd_ret. destruct (decodeVarint b) as [[y n] [e|]]; [apply rd_ret|].
      destruct (from_ b n); [|apply rd_ret]. apply rd_bind; [apply IHs; assumption|]. intros; apply rd_ret.
    + destruct v; try apply rd_ret. destruct (zlen b =? 0)%Z; [apply rd_ret|].
      destruct (decodeVarint b) as [[y n] [e'|]]; [apply rd_ret|].
      destruct (from_ b n); [|apply rd_ret]. apply rd_bind; [apply IHs; apply Hb|]. intros; apply rd_ret.
  - intros i b off x Hi. rewrite p_decs_S. destruct (off <? zlen b)%Z; [|apply rd_ret].
    destruct (from_ b off) as [tl|]; [|apply rd_ret]. destruct (decodeTag tl) as [[[fn w] n] [e|]]; [apply rd_ret|].
    apply rd_readInfo; [assumption|]. intros info Hinfo. destruct (lookup_field info fn) as [fd|] eqn:El.
    + destruct (negb _); [apply rd_ret|]. destruct (field_data b (off + n) w); try apply rd_ret.
      destruct (get_field x (f_idx fd)); [|apply rd_ret]. apply rd_bind; [apply IHd; eapply lookup_in; eassumption|].
      intros [y m [e|]|c|]; try apply rd_ret. apply IHs; assumption.
    + destruct (skip_unknown b (off + n) w) as [[o [e|]]|c]; try apply rd_ret. apply IHs; assumption.
Qed.
End K.

(** A call: from any knowledge on. *)
Definition anyQ {A} : A -> locset -> locset -> Prop := fun _ _ _ => True.
Lemma sf_any_bind {A B} (p : prog A) (k : A -> prog B) O K : (forall O K, sf p anyQ O K) -> (forall a O K, sf (k a) anyQ O K) ->
  sf (pbind p k) anyQ O K.
Proof. intros Hp Hk. apply sf_bind. eapply sf_conseq; [|apply Hp]. intros a O' K' _. apply Hk. Qed.
Lemma sf_info {A} k (g : iref -> prog A) : ready_key D U k -> (forall (K : locset) i, K (LInfo i) -> rd K (g i)) ->
  forall O K, sf (pbind (p_info D k) g) anyQ O K.
Proof.
  intros Hk Hg O K. apply sf_bind. unfold p_info, cachedStructInfoOf.
  assert (G : forall i O (K : locset), K (LInfo i) -> sf (g i) anyQ O K).
  { intros i O1 K1 Hi. eapply sf_conseq; [|apply (Hg K1 i Hi)]. intros; exact Logic.I. }
  apply sf_infoLoad. intros r K1 S1 Hr _. destruct r as [i|]; [apply G; exact Hr|].
  apply sf_bind. eapply sf_conseq; [|apply (proj1 (proj2 (proj2 (walk_sf D U (walk_fuel D)))) _ k (fun _ _ => False) O K1)].
  - intros [i w] O' K' (C1 & _). cbn [fst] in C1. split; [exact C1|]. intros r K2 S2 Hr2. apply G. exact Hr2.
  - split; cbn; intros ? ? [].
  - intros m x [].
  - apply fin_key; assumption.
Qed.
Definition call_fin (c : call) : Prop := match arg_type c with Some k => ready_key D U k | None => True end.
Lemma sf_call c : call_fin c -> forall O K, sf (p_call D c) anyQ O K.
Proof.
  unfold call_fin. intros H O K. destruct c as [v|v|b v]; cbn [p_call arg_type] in *;
    (apply sf_any_bind; [|intros; exact Logic.I]; clear O K; intros O K).
  - destruct v as [| | |k p]; try exact Logic.I. apply sf_info; [exact H|]. intros K' i Hi.
    apply rd_bind; [|intros; apply rd_ret]. destruct p; [apply rd_struct_size; assumption|apply rd_ret].
  - destruct v as [| | |k p]; try exact Logic.I. apply sf_info; [exact H|]. intros K' i Hi.
    apply rd_bind; [|intros; apply rd_ret].
    apply rd_rbindp; [destruct p; [apply rd_struct_size; assumption|apply rd_ret]|]. intros n.
    apply rd_rbindp; [destruct p; [apply rd_struct_encode; assumption|apply rd_ret]|]. intros; apply rd_ret.
  - unfold p_Unmarshal. destruct (zlen b =? 0)%Z; [exact Logic.I|].
    destruct v as [| | |k [x|]]; try exact Logic.I. apply sf_info; [exact H|]. intros K' i Hi.
    apply rd_bind; [apply rd_dec; assumption|]. intros; apply rd_ret.
Qed.
Lemma sf_calls cs : Forall call_fin cs -> forall O K, sf (p_calls D cs) anyQ O K.
Proof.
  induction 1 as [|c cs Hc _ IH]; intros O K; [exact Logic.I|]. cbn [p_calls].
  apply sf_any_bind; [apply sf_call; assumption|]. intros a O1 K1. apply sf_any_bind; [exact IH|]. intros; exact Logic.I.
Qed.
End Calls.

(** The states a program can be in have no dangling references, for any
    declarations. *)
Lemma AI_closed D G s : AnyWalk.AI D G s -> RaceFacts.closed s.
Proof.
  intros [L Hc Hi Hic Hcc Hsl].
  assert (R : forall c, AnyWalk.inr_ G c -> kc (alloc s) c) by (intros [c|n]; cbn; [auto|lia]).
  split.
  - intros [[c|n]|i] Ha; cbn [alloc contents_in] in *; [destruct Ha| |].
    + cbn [hlook]. destruct (nth_error (g_cells s) n) as [b|] eqn:E; [|exact Logic.I].
      specialize (Hc n b E). destruct b; cbn in *; try exact Logic.I.
      * apply R, Hc.
      * apply R, Hc.
      * exact Hc.
      * destruct Hc as (H1 & H2 & H3 & _). split; [apply R; exact H1|]. split; [apply R; exact H2|exact H3].
    + unfold higet. destruct (nth_error (g_infos s) i) as [x|] eqn:E; [|split; constructor].
      destruct (Hi i x E) as (H1 & H2 & _). split; (eapply Forall_impl; [|eassumption]); intros f [X _]; apply R, X.
  - intros [k|t|c] x E; cbn in E.
    + destruct (assoc skey_eq_dec k (g_infoCache s)) as [i|] eqn:E1; [|discriminate]. inversion E; subst.
      cbn. apply assoc_in in E1. apply (Hic _ _ E1).
    + destruct (assoc gotype_eq_dec t (g_codecCache s)) as [c|] eqn:E1; [|discriminate]. inversion E; subst.
      apply R. apply assoc_in in E1. apply (Hcc _ _ E1).
    + destruct (assoc cref_eq_dec c (g_sliceMap s)) as [d|] eqn:E1; [|discriminate]. inversion E; subst.
      apply R. apply assoc_in in E1. apply (Hsl _ _ E1).
Qed.

Lemma SInv_closed D s : SInv D s -> RaceFacts.closed s.
Proof.
  intros (G & HI & HC).
  assert (R : forall c p, refp G c p -> kc (alloc s) c).
  { intros [c|n] p; cbn; [auto|]. intros H. rewrite <- (inv_lc _ _ _ _ HI). apply nth_error_Some. congruence. }
  assert (Ri : forall i k, refi G i k -> alloc s (LInfo i)).
  { intros i k H. cbn. rewrite <- (inv_li _ _ _ _ HI). apply nth_error_Some. unfold refi in H. congruence. }
  split.
  - intros [[c|n]|i] Ha; cbn [alloc contents_in] in *; [destruct Ha| |].
    + rewrite <- (inv_lc _ _ _ _ HI) in Ha. apply nth_error_Some in Ha.
      destruct (nth_error (gc G) n) as [p|] eqn:E; [|contradiction].
      pose proof (look_rel D G s HI HC (CCell n) p E) as B. destruct B as [|? ? ? H|? ? ? H|? ? ? H|? ? ? ? ? ? ? ? (_ & _ & H1) (_ & _ & H2) H3];
        [exact Logic.I|exact (R _ _ H)|exact (R _ _ H)|exact (Ri _ _ H)|].
      split; [exact (R _ _ H1)|]. split; [exact (R _ _ H2)|exact (Ri _ _ H3)].
    + rewrite <- (inv_li _ _ _ _ HI) in Ha. apply nth_error_Some in Ha.
      destruct (nth_error (gi G) i) as [k|] eqn:E; [|contradiction].
      destruct (iget_rel D G s HI HC i k E) as [F1 F2].
      split; [clear F2; induction F1 as [|f g l l' H F IH]|clear F1; induction F2 as [|f g l l' H F IH]]; constructor; auto;
        destruct H as (_ & _ & H); eauto.
  - intros [k|t|c] x E; cbn in E.
    + destruct (assoc skey_eq_dec k (g_infoCache s)) as [i|] eqn:E1; [|discriminate]. inversion E; subst.
      apply assoc_in in E1. apply (inv_ic _ _ _ _ HI) in E1. destruct E1 as [E1 _]. exact (Ri _ _ E1).
    + destruct (assoc gotype_eq_dec t (g_codecCache s)) as [c|] eqn:E1; [|discriminate]. inversion E; subst.
      apply assoc_in in E1. apply (inv_cc _ _ _ _ HI) in E1. destruct E1 as (k & _ & E1 & _). exact (R _ _ E1).
    + destruct (assoc cref_eq_dec c (g_sliceMap s)) as [d|] eqn:E1; [|discriminate]. inversion E; subst.
      apply assoc_in in E1. apply (inv_sm _ _ _ _ HI) in E1. destruct E1 as (e & p & _ & E1 & _). exact (R _ _ E1).
Qed.

Lemma race_free_from D s0 css l c : RaceFacts.closed s0 ->
  Forall (Forall (fun c => match arg_type c with
    | Some k => ready_key D (fun k => exists i, In (k, i) (g_infoCache s0)) k | None => True end)) css ->
  traced (map (p_calls D) css, s0) l c -> race_free l.
Proof.
  intros Hcl H T.
  apply (traced_race_free (fun k => exists i, In (k, i) (g_infoCache s0)) anyQ _ _ _ _ Hcl) in T; [exact T| |].
  - intros k [i Hi] E. cbn in E. destruct (assoc skey_eq_dec k (g_infoCache s0)) as [j|] eqn:E1; [discriminate|].
    revert E1. eapply in_assoc; exact Hi.
  - clear T. induction H as [|cs css Hc _ IH]; constructor; [|exact IH]. apply sf_calls. exact Hc.
Qed.
Lemma race_free_proof : forall D s0 css l c, reachable D s0 \/ (supported D = true /\ quiet D s0) ->
  Forall (Forall (fun c => match arg_type c with
    | Some k => ready_key D (fun k => exists i, In (k, i) (g_infoCache s0)) k | None => True end)) css ->
  traced (map (p_calls D) css, s0) l c -> race_free l.
Proof.
  intros D s0 css l c Hr. apply race_free_from. destruct Hr as [Hr|[HD Hq]].
  - destruct (AnyApi.reachable_AI D s0 Hr) as [G HA]. exact (AI_closed D G s0 HA).
  - apply (SInv_closed D). apply quiet_SInv; assumption.
Qed.

(** A recorded execution is one of Conc.v, and conversely. *)
Lemma traced_csteps_proof : forall c0 c, csteps c0 c <-> exists l, traced c0 l c.
Proof.
  intros c0 c. split.
  - intros S. assert (H : forall l, traced c0 l c0 -> exists l', traced c0 l' c).
    { assert (G : forall c1 c2, csteps c1 c2 -> forall l, traced c0 l c1 -> exists l', traced c0 l' c2).
      { induction 1 as [|c1 c2 c3 St _ IH]; intros l T; [eauto|]. destruct St. eapply IH. apply tr_step. exact T. }
      intros l T. eapply G; eassumption. }
    apply (H []). constructor.
  - intros [l T]. induction T as [|l pre o k post s _ IH]; [constructor|].
    assert (G : forall c1 c2 c3, csteps c1 c2 -> cstep c2 c3 -> csteps c1 c3).
    { intros c1 c2 c3. induction 1 as [|a b d St _ IH']; intros St'; [econstructor; [exact St'|constructor]|econstructor; eauto]. }
    eapply G; [exact IH|constructor].
Qed.

(** ** Types used before: nothing is written any more *)
(** Executed in [s], [p] only reads. *)
Fixpoint looks {A} (p : prog A) (s : gstate) : Prop :=
  match p with Do o k => is_read o = true /\ looks (k (fst (exec o s))) s | _ => True end.
Lemma looks_bind {A B} (p : prog A) (k : A -> prog B) s : looks p s -> (forall a, looks (k a) s) -> looks (pbind p k) s.
Proof. intros Hp Hk. induction p as [a| | |o c IH]; cbn in *; auto. destruct Hp. split; auto. Qed.
Lemma reads_looks {A} (p : prog A) s : reads p -> looks p s.
Proof. induction p as [a| | |o c IH]; cbn; auto. intros [H1 H2]. split; [apply is_run_read, H1|auto]. Qed.
Lemma looks_info {A} D k (g : iref -> prog A) s : assoc skey_eq_dec k (g_infoCache s) <> None ->
  (forall i, reads (g i)) -> looks (pbind (p_info D k) g) s.
Proof.
  intros H Hg. unfold p_info, cachedStructInfoOf, infoLoad, do_. cbn [pbind looks exec fst snd].
  destruct (assoc skey_eq_dec k (g_infoCache s)) as [i|]; [|contradiction]. cbn [pbind]. split; [reflexivity|]. apply reads_looks, Hg.
Qed.
Lemma looks_call D c s : warm_call s c -> looks (p_call D c) s.
Proof.
  unfold warm_call. intros H. destruct c as [v|v|b v]; cbn [p_call arg_type] in *; (apply looks_bind; [|intros; exact Logic.I]).
  - destruct v as [| | |k p]; try exact Logic.I. apply looks_info; [assumption|]. intros i.
    apply reads_bind; [destruct p; [apply reads_struct_size|exact Logic.I]|]. intros; exact Logic.I.
  - destruct v as [| | |k p]; try exact Logic.I. apply looks_info; [assumption|]. intros i. apply reads_bind; [|intros; exact Logic.I].
    apply reads_rbindp; [destruct p; [apply reads_struct_size|exact Logic.I]|]. intros n.
    apply reads_rbindp; [destruct p; [apply reads_struct_encode|exact Logic.I]|]. intros; exact Logic.I.
  - unfold p_Unmarshal. destruct (zlen b =? 0)%Z; [exact Logic.I|]. destruct v as [| | |k [x|]]; try exact Logic.I.
    apply looks_info; [assumption|]. intros i. apply reads_bind; [apply (reads_dec D)|]. intros; exact Logic.I.
Qed.
Lemma looks_calls D cs s : Forall (warm_call s) cs -> looks (p_calls D cs) s.
Proof.
  induction 1 as [|c cs Hc _ IH]; [exact Logic.I|]. cbn [p_calls]. apply looks_bind; [apply looks_call; assumption|].
  intros a. apply looks_bind; [exact IH|]. intros; exact Logic.I.
Qed.
Lemma looks_traced ts s l c : traced (ts, s) l c -> Forall (fun t => looks t s) ts ->
  snd c = s /\ Forall (fun t => looks t s) (fst c) /\ forall i u x, nth_error l i <> Some (u, AWrite x).
Proof.
  intros T HF. induction T as [|l pre o k post s1 _ IH].
  - split; [reflexivity|]. split; [exact HF|]. intros [|i]; discriminate.
  - cbn [fst snd] in *. destruct IH as (-> & F & N). apply Forall_app in F. destruct F as [F1 F2]. inversion F2 as [|? ? HH F3]; subst. destruct HH as [Ho Hk].
    split; [apply is_read_exec; assumption|]. split; [apply Forall_app; split; [assumption|]; constructor; assumption|].
    intros i u x E. apply nth_ext_inv in E. destruct E as [E|[_ E]]; [eapply N; exact E|].
    destruct o; discriminate.
Qed.
Lemma race_free_warm_proof : forall D s css l c,
  Forall (Forall (fun c => match c with
    | CSize (IPtr k _) | CMarshal (IPtr k _) | CUnmarshal _ (IPtr k _) => exists i, In (k, i) (g_infoCache s)
    | _ => True end)) css ->
  traced (map (p_calls D) css, s) l c -> race_free l.
Proof.
  intros D s css l c H T. destruct (looks_traced _ _ _ _ T) as (_ & _ & N).
  { clear T. induction H as [|cs css Hc _ IH]; constructor; [|exact IH]. apply looks_calls.
    eapply Forall_impl; [|exact Hc]. intros x Hx. unfold warm_call.
    destruct x as [[]|[]|? []]; cbn in *; auto; destruct Hx as [i Hi]; eapply in_assoc; exact Hi. }
  intros i j (t & u & a & b & x & Hi & Hj & _ & _ & [W|W] & _); unfold writes in W; subst; eapply N; eassumption.
Qed.

(** ** Witness: a recursive type *)
(** Executing the goroutines in a given order, recorded. *)
Fixpoint rsched (l : list nat) (e : list event) (c : config) : list event * config :=
  match l with
  | [] => (e, c)
  | i :: l =>
    match nth_error (fst c) i with
    | Some (Do o k) => rsched l (e ++ [(i, act_of o (snd c))]) (step1 i c)
    | _ => rsched l e c
    end
  end.
Lemma rsched_traced c0 l : forall e c, traced c0 e c -> traced c0 (fst (rsched l e c)) (snd (rsched l e c)).
Proof.
  induction l as [|i l IH]; intros e [ts s] T; [exact T|]. cbn [rsched fst snd step1].
  destruct (nth_error ts i) as [[a| | |o k]|] eqn:E; try (apply IH; exact T).
  apply IH. apply nth_error_split in E. destruct E as (l1 & l2 & -> & <-).
  rewrite firstn_app, Nat.sub_diag, firstn_all. cbn [firstn]. rewrite app_nil_r.
  replace (skipn (S (length l1)) (l1 ++ Do o k :: l2)) with l2.
  - apply tr_step. exact T.
  - rewrite skipn_app. replace (S (length l1) - length l1)%nat with 1%nat by lia. rewrite skipn_all2 by lia. reflexivity.
Qed.

Definition slot_eq_dec (a b : slot) : {a = b} + {a <> b}.
Proof. decide equality; [apply skey_eq_dec|apply gotype_eq_dec|apply cref_eq_dec]. Defined.
(** No event of goroutine [t] before position [n] reads a map entry written by another one. *)
Fixpoint alone_upto (l : list event) (t n : nat) (puts : list slot) : bool :=
  match n, l with
  | S n, (u, a) :: l =>
    match a with
    | APut m => alone_upto l t n (if Nat.eqb u t then puts else m :: puts)
    | AGet m => (negb (Nat.eqb u t) || forallb (fun m' => if slot_eq_dec m m' then false else true) puts) && alone_upto l t n puts
    | _ => alone_upto l t n puts
    end
  | _, _ => true
  end.
Lemma alone_upto_sync l t : forall n puts, alone_upto l t n puts = true ->
  (forall j m, j < n -> nth_error l j = Some (t, AGet m) -> ~ In m puts) /\
  (forall i j u m, j < n -> i < j -> nth_error l i = Some (u, APut m) -> nth_error l j = Some (t, AGet m) -> u = t).
Proof.
  induction l as [|[u a] l IH]; intros n puts H; [split; intros; destruct j; discriminate|].
  destruct n as [|n]; [split; intros; lia|]. cbn [alone_upto] in H.
  assert (X : exists puts', alone_upto l t n puts' = true /\ incl puts puts' /\
      (forall m, a = APut m -> u <> t -> In m puts') /\ (forall m, a = AGet m -> u = t -> ~ In m puts)).
  { destruct a as [x|x|m|m].
    - exists puts. repeat split; auto using incl_refl; discriminate.
    - exists puts. repeat split; auto using incl_refl; discriminate.
    - apply andb_prop in H. destruct H as [H1 H2]. exists puts. repeat split; auto using incl_refl; try discriminate.
      intros m' E -> Hm. inversion E; subst m'. rewrite Nat.eqb_refl in H1. cbn [negb orb] in H1.
      rewrite forallb_forall in H1. apply H1 in Hm. destruct (slot_eq_dec m m); congruence.
    - destruct (Nat.eqb u t) eqn:Eu.
      + exists puts. repeat split; auto using incl_refl; try discriminate.
        intros m' _ N. apply Nat.eqb_eq in Eu. contradiction.
      + exists (m :: puts). repeat split; auto using incl_tl, incl_refl; try discriminate.
        intros m' E _. inversion E; subst. left. reflexivity. }
  destruct X as (puts' & H1 & Hi & Hp & Hg). destruct (IH _ _ H1) as [I1 I2]. split.
  - intros [|j] m L E; cbn in E.
    + inversion E; subst. apply Hg; reflexivity.
    + intros Hm. eapply (I1 j m); [lia|exact E|apply Hi; exact Hm].
  - intros [|i] [|j] v m L1 L2 E1 E2; try lia; cbn in E1, E2.
    + inversion E1; subst. destruct (Nat.eq_dec v t) as [|N]; [assumption|]. exfalso.
      eapply (I1 j m); [lia|exact E2|apply Hp; [reflexivity|assumption]].
    + eapply (I2 i j); [lia|lia|exact E1|exact E2].
Qed.
Lemma alone_before l t n : alone_upto l t n [] = true -> forall i j, before l i j -> j < n ->
  forall a, nth_error l j = Some (t, a) -> exists b, nth_error l i = Some (t, b).
Proof.
  intros H. apply alone_upto_sync in H. destruct H as [_ H].
  induction 1 as [i j u a b L E1 E2|i j u v m L E1 E2 N|i j k B1 IH1 B2 IH2]; intros Hn c Ec.
  - rewrite E2 in Ec. inversion Ec; subst. eauto.
  - rewrite E2 in Ec. inversion Ec; subst. assert (u = t) by (eapply (H i j); eassumption). subst. eauto.
  - destruct (IH2 Hn c Ec) as [b Eb]. apply before_lt in B2. eapply IH1; [lia|exact Eb].
Qed.

(** The execution of [race_proof] (RefuteConc.v): the goroutine that marshals a Box
    reads info.fields of Node, the other one stores it afterwards. *)
Definition race_trace : list event := fst (rsched race_schedule [] (map (p_calls nodeD) race, g_empty)).
Lemma race_refuted_proof : exists D css l c, supported D = true /\
  Forall (Forall (fun c => match c with CMarshal (IPtr k (Some x)) => wts D x k = true | _ => False end)) css /\
  traced (map (p_calls D) css, g_empty) l c /\ ~ race_free l.
Proof.
  exists nodeD, race, race_trace, (snd (rsched race_schedule [] (map (p_calls nodeD) race, g_empty))).
  split; [reflexivity|]. split; [repeat constructor|]. split; [apply rsched_traced; constructor|].
  intros F. apply (F 22 23). exists 1, 0, (ARead (LInfo 0)), (AWrite (LInfo 0)), (LInfo 0).
  assert (E : nth_error race_trace 23 = Some (0, AWrite (LInfo 0))) by (vm_compute; reflexivity).
  split; [vm_compute; reflexivity|]. split; [exact E|]. split; [left; reflexivity|]. split; [right; reflexivity|].
  split; [right; reflexivity|]. split; [discriminate|]. split.
  - intros B. assert (A : alone_upto race_trace 0 24 [] = true) by (vm_compute; reflexivity).
    destruct (alone_before _ _ _ A _ _ B (Nat.lt_succ_diag_r 23) _ E) as [b Eb].
    assert (E2 : nth_error race_trace 22 = Some (1, ARead (LInfo 0))) by (vm_compute; reflexivity). congruence.
  - intros B. apply before_lt in B. lia.
Qed.
