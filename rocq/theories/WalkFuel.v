(** The walker terminates on all declarations, recursive or not, supported or
    not, whatever the caches answer: the recursion bound given by the model is
    never reached. The argument is the one the code relies on: a walker puts
    every struct type in w.infos before looking at its fields
    (walker.go:138-143), and everything else recurses on smaller types. *)
From Coq Require Import ZifyBool ZifyNat ZifyN String.
From Verif Require Import Base Wire GoType Leaf Codec Tag Walker Typing SpecWire DecodeFacts TypingFacts WalkInv.

(** [p] never runs out of fuel, whatever responses it gets, and what it returns
    satisfies [Q]. *)
Fixpoint nof {A} (p : prog A) (Q : A -> Prop) : Prop :=
  match p with
  | Ret a => Q a
  | Panic => True
  | NoFuel => False
  | Do o k => forall r, nof (k r) Q
  end.
Lemma nof_conseq {A} (p : prog A) (Q1 Q2 : A -> Prop) : (forall a, Q1 a -> Q2 a) -> nof p Q1 -> nof p Q2.
Proof. intros H. induction p as [a| | |o k IH]; cbn; auto. Qed.
Lemma nof_bind {A B} (p : prog A) (k : A -> prog B) Q : nof p (fun a => nof (k a) Q) -> nof (pbind p k) Q.
Proof. induction p as [a| | |o c IH]; cbn; auto. Qed.
Lemma nof_do (o : op) {B} (k : resp o -> prog B) Q : (forall r, nof (k r) Q) -> nof (pbind (do_ o) k) Q.
Proof. auto. Qed.

Section Fuel.
Variable D : decls.
Notation W := (decls_width D).
Definition DD : nat := Nat.max 1 (decls_depth D).

(** How many declared struct types have not been entered yet. *)
Definition seen (w : walker) (sid : nat) : bool :=
  match w_iget w (SNamed sid) with Some _ => true | None => false end.
Definition unseen (w : walker) : nat := length (filter (fun sid => negb (seen w sid)) (seq 0 (length D))).

Definition grows (w w' : walker) : Prop := forall sid, seen w sid = true -> seen w' sid = true.
Lemma grows_refl w : grows w w.
Proof. intros sid H. exact H. Qed.
Lemma grows_trans a b c : grows a b -> grows b c -> grows a c.
Proof. intros H1 H2 sid H. auto. Qed.
Lemma grows_set w w' t c : grows (w_set w t c) w' -> grows w w'.
Proof. intros H sid Hs. apply H. exact Hs. Qed.
Lemma grows_iset w k i : grows w (w_iset w k i).
Proof. intros sid. unfold seen, w_iget. cbn [w_iset w_infos assoc]. destruct (skey_eq_dec (SNamed sid) k); auto. Qed.
Lemma filter_le {A} (f g : A -> bool) l : (forall x, g x = true -> f x = true) -> length (filter g l) <= length (filter f l).
Proof.
  intros H. induction l as [|x l IH]; [auto|]. cbn. destruct (g x) eqn:E; [rewrite (H _ E); cbn; lia|].
  destruct (f x); cbn; lia.
Qed.
Lemma filter_lt {A} (f g : A -> bool) l y : (forall x, g x = true -> f x = true) -> In y l -> f y = true -> g y = false ->
  length (filter g l) < length (filter f l).
Proof.
  intros H. induction l as [|x l IH]; [intros []|]. intros [->|Hy] Hf Hg; cbn.
  - rewrite Hf, Hg. cbn. pose proof (filter_le f g l H). lia.
  - specialize (IH Hy Hf Hg). destruct (g x) eqn:E; [rewrite (H _ E); cbn; lia|]. destruct (f x); cbn; lia.
Qed.
Lemma grows_unseen w w' : grows w w' -> unseen w' <= unseen w.
Proof.
  intros H. apply filter_le. intros x. specialize (H x). destruct (seen w x); [rewrite H by reflexivity; discriminate|reflexivity].
Qed.
Lemma unseen_iset w sid i : sid < length D -> w_iget w (SNamed sid) = None -> unseen (w_iset w (SNamed sid) i) < unseen w.
Proof.
  intros H E. apply filter_lt with (y := sid).
  - intros x. pose proof (grows_iset w (SNamed sid) i x) as G. destruct (seen w x); [rewrite G by reflexivity; discriminate|reflexivity].
  - apply in_seq. lia.
  - unfold seen. rewrite E. reflexivity.
  - unfold seen, w_iget. cbn [w_iset w_infos assoc]. destruct (skey_eq_dec (SNamed sid) (SNamed sid)); [reflexivity|contradiction].
Qed.

(** The fuel each call needs. *)
Definition M : nat := W + 7 * DD + 13.
Definition need_info (u : nat) : nat := u * M + 4.
Definition need_sc (u : nat) : nat := need_info u + 1.
Definition need_codec (u d : nat) : nat := need_info u + 2 + d.
Definition need_field (u d : nat) : nat := need_info u + 3 + 7 * d.
Definition need_fields (u len d : nat) : nat := need_field u d + len + 1.
Definition need_map (u d : nat) : nat := need_fields u 2 d + 2.

Lemma need_info_mono u u' : u <= u' -> need_info u <= need_info u'.
Proof. unfold need_info. intros. pose proof (Nat.mul_le_mono_r u u' M). lia. Qed.

Lemma type_depth_pos t : 1 <= type_depth t.
Proof. destruct t; cbn; lia. Qed.
Lemma base_depth t : type_depth (baseTypeOf t) <= type_depth t.
Proof. induction t; cbn [baseTypeOf type_depth]; lia. Qed.
Lemma decls_depth_in sid fs f : nth_error D sid = Some fs -> In f fs -> type_depth (gf_type f) <= DD.
Proof.
  intros E H. destruct (In_nth_error _ _ H) as (j & Hj). apply fields_depth_nth in Hj. apply decls_depth_nth in E.
  unfold DD. lia.
Qed.
Lemma decls_width_nth sid fs : nth_error D sid = Some fs -> length fs <= W.
Proof.
  unfold decls_width. revert sid. induction D as [|x d IH]; intros [|sid] E; cbn in *; try discriminate.
  - inversion E; subst. lia.
  - apply IH in E. lia.
Qed.

Definition wpost {A} (w : walker) : A * walker -> Prop := fun '(_, w') => grows w w'.

Definition is_entry (k : skey) : bool := match k with SEntry _ _ _ _ => true | _ => false end.

Lemma fuel_ok fuel :
  (forall w t zz rq, need_codec (unseen w) (type_depth t) <= fuel -> nof (w_codec D fuel w t zz rq) (wpost w)) /\
  (forall w t k, is_entry k = false -> need_sc (unseen w) <= fuel -> nof (w_structCodec D fuel w t k) (wpost w)) /\
  (forall w k, match k with
               | SEntry key val _ _ => need_map (unseen w) (type_depth val) <= fuel + 1
               | _ => need_info (unseen w) <= fuel end -> nof (w_structInfo D fuel w k) (wpost w)) /\
  (forall w idx fs d, (forall f, In f fs -> gf_exported f = true -> type_depth (gf_type f) <= d) ->
     (need_fields (unseen w) (length fs) d <= fuel \/ ((forall f, In f fs -> gf_exported f = false) /\ length fs < fuel)) ->
     nof (w_fields D fuel w idx fs) (wpost w)) /\
  (forall w t f, need_field (unseen w) (type_depth (gf_type f)) <= fuel -> nof (w_field D fuel w t f) (wpost w)) /\
  (forall w key val tag kf vf, need_map (unseen w) (type_depth val) <= fuel -> nof (w_mapCodec D fuel w key val tag kf vf) (wpost w)).
Proof.
  induction fuel as [|fuel (IHc & IHs & IHi & IHfs & IHf & IHm)].
  { repeat split; intros; exfalso; unfold need_codec, need_sc, need_info, need_map, need_fields, need_field, need_info in *; try lia.
    destruct k; unfold need_info, need_map, need_fields, need_field, need_info in *; lia. }
  repeat split.
  - intros w t zz rq H. cbn [w_codec]. destruct (w_get w t); [apply grows_refl|].
    assert (Hs : forall k, struct_ptr t = Some k -> nof (w_structCodec D fuel w t k) (wpost w)).
    { intros k Hk. apply IHs; [destruct t as [| | | | |[]| |]; try discriminate; inversion Hk; reflexivity|].
      pose proof (type_depth_pos t). unfold need_sc, need_codec in *. lia. }
    destruct t as [k| |k|e|k e|e|sid|]; try exact Logic.I; try apply grows_refl.
    + destruct (struct_ptr (TPtr e)) as [k|]; [apply Hs; reflexivity|].
      apply nof_do. intros c. apply nof_bind. eapply nof_conseq; [|apply IHc].
      * intros [c' w'] G. intros r. cbn. exact (grows_set _ _ _ _ G).
      * change (unseen (w_set w (TPtr e) c)) with (unseen w). cbn [elem_of]. unfold need_codec in *. cbn [type_depth] in H. lia.
    + apply Hs. reflexivity.
  - intros w t k Hk H. cbn [w_structCodec]. apply nof_do. intros [c|]; [apply grows_refl|].
    destruct (w_get w t); [apply grows_refl|]. apply nof_do. intros c. apply nof_bind. eapply nof_conseq; [|apply IHi].
    + intros [i w'] G r r'. cbn. exact (grows_set _ _ _ _ G).
    + change (unseen (w_set w t c)) with (unseen w). destruct k; try discriminate; unfold need_sc in H; lia.
  - intros w k H. cbn [w_structInfo]. apply nof_do. intros [i|]; [apply grows_refl|].
    destruct (w_iget w k) as [i|] eqn:Ew; [apply grows_refl|]. apply nof_do. intros i. apply nof_bind.
    apply nof_conseq with (Q1 := wpost (w_iset w k i)).
    { intros [fs w'] G r r' r''. cbn. eapply grows_trans; [apply grows_iset|exact G]. }
    destruct k as [sid|key val kt vt|q].
    + destruct (Nat.lt_ge_cases sid (length D)) as [L|L].
      * pose proof (unseen_iset _ _ i L Ew) as U. cbn [struct_fields]. apply nth_error_Some in L.
        destruct (nth_error D sid) as [fs|] eqn:E; [|contradiction].
        apply IHfs with (d := DD); [intros f Hf _; eapply decls_depth_in; eassumption|].
        left. apply decls_width_nth in E. pose proof (need_info_mono (S (unseen (w_iset w (SNamed sid) i))) (unseen w) U) as N.
        assert (N2 : need_info (S (unseen (w_iset w (SNamed sid) i))) = need_info (unseen (w_iset w (SNamed sid) i)) + M).
        { unfold need_info. cbn [Nat.mul]. lia. }
        unfold need_fields, need_field. unfold M in N2. lia.
      * cbn [struct_fields]. rewrite (proj2 (nth_error_None _ _) L). apply IHfs with (d := 1); [intros f []|].
        right. split; [intros f []|]. cbn. unfold need_info in H. lia.
    + apply IHfs with (d := type_depth val).
      * intros f [<-|[<-|[]]] _; cbn [gf_type]; [apply type_depth_pos|auto].
      * left. cbn [struct_fields entry_fields length]. pose proof (grows_unseen _ _ (grows_iset w (SEntry key val kt vt) i)) as G.
        apply need_info_mono in G. unfold need_map, need_fields, need_field in *. lia.
    + apply IHfs with (d := 1).
      * intros f [<-|[<-|[]]]; discriminate.
      * right. split; [intros f [<-|[<-|[]]]; reflexivity|]. unfold need_info in H. cbn. lia.
  - intros w idx fs d Hd H. cbn [w_fields]. destruct fs as [|f fs]; [apply grows_refl|].
    apply nof_bind. apply nof_conseq with (Q1 := wpost w).
    { intros [x w'] G. apply nof_bind. eapply nof_conseq; [|apply IHfs with (d := d)].
      - intros [r w''] G2. cbn. eapply grows_trans; [exact G|exact G2].
      - intros g Hg. apply Hd. right. exact Hg.
      - apply grows_unseen in G. apply need_info_mono in G. destruct H as [H|[H1 H2]].
        + left. unfold need_fields, need_field in *. cbn [length] in H. lia.
        + right. split; [intros g Hg; apply H1; right; exact Hg|]. cbn [length] in H2. lia. }
    destruct (gf_exported f) eqn:Ee; [|apply grows_refl]. destruct (gf_tag f) as [tag|]; [|apply grows_refl].
    destruct (parseStructTag tag) as [t [e|]]; [exact Logic.I|]. apply nof_bind. eapply nof_conseq; [|apply IHf].
    + intros [c w'] G. exact G.
    + destruct H as [H|[H1 _]]; [|rewrite H1 in Ee by (left; reflexivity); discriminate].
      specialize (Hd f (or_introl eq_refl) Ee). unfold need_fields, need_field in *. cbn [length] in H. lia.
  - intros w t f H. cbn [w_field]. destruct (static_choice t (gf_type f)); [apply grows_refl|].
    pose proof (type_depth_pos (gf_type f)) as P.
    assert (Hsl : forall ty, type_depth (elem_of ty) <= type_depth (gf_type f) ->
      nof (let* (c, w) := w_codec D fuel w (elem_of ty) (t_zz t) true in sliceCodecOf ty c w) (wpost w)).
    { intros ty Hty. apply nof_bind. eapply nof_conseq; [|apply IHc; unfold need_field, need_codec in *; lia].
      intros [c w'] G. unfold sliceCodecOf. apply nof_do. intros [s|]; [exact G|].
      destruct (w_get w' ty); [exact G|]. apply nof_do. intros s. apply nof_do. intros _. apply nof_do. intros a. exact G. }
    assert (Hpl : nof (w_codec D fuel w (gf_type f) (t_zz t) false) (wpost w)).
    { apply IHc. unfold need_field, need_codec in *. lia. }
    assert (Hel : type_depth (elem_of (gf_type f)) <= type_depth (gf_type f)).
    { destruct (gf_type f); cbn [elem_of type_depth]; lia. }
    destruct (baseTypeOf (gf_type f)); try exact Hpl.
    + destruct (gf_type f) eqn:E; try (apply Hsl; exact Hel). apply grows_refl.
    + destruct (gf_type f) eqn:E; try (apply Hsl; exact Hel). apply grows_refl.
    + destruct (gf_type f) as [| | | |key val| | |] eqn:E; try exact Logic.I. cbn [type_depth] in *.
      destruct (parseStructTag (gf_key f)) as [kt ke]. destruct (parseStructTag (gf_val f)) as [vt ve].
      pose proof (type_depth_pos val).
      apply nof_bind. eapply nof_conseq; [|apply IHc; cbn [type_depth]; unfold need_field, need_codec in *; lia].
      intros [kc w1] G1. pose proof (need_info_mono _ _ (grows_unseen _ _ G1)) as U1.
      apply nof_bind. eapply nof_conseq; [|apply IHc; unfold need_field, need_codec in *; lia].
      intros [vc w2] G2. pose proof (need_info_mono _ _ (grows_unseen _ _ G2)) as U2.
      eapply nof_conseq; [|apply IHm; unfold need_map, need_fields, need_field in *; lia].
      intros [mc w3] G3. eapply grows_trans; [exact G1|]. eapply grows_trans; [exact G2|exact G3].
  - intros w key val tag kf vf H. cbn [w_mapCodec]. apply nof_do. intros c. apply nof_bind. eapply nof_conseq; [|apply IHi].
    + intros [i w'] G r. exact (grows_set _ _ _ _ G).
    + change (unseen (w_set w (TMap key val) c)) with (unseen w). lia.
Qed.

Lemma cached_nof k : is_entry k = false -> nof (cachedStructInfoOf D (walk_fuel D) k) (fun _ => True).
Proof.
  intros Hk. unfold cachedStructInfoOf. apply nof_do. intros [i|]; [exact Logic.I|]. apply nof_bind.
  eapply nof_conseq; [|apply (proj1 (proj2 (proj2 (fuel_ok (walk_fuel D)))))].
  - intros [i w] _ r. exact Logic.I.
  - assert (U : unseen {| w_codecs := []; w_infos := [] |} <= length D).
    { unfold unseen. rewrite <- (seq_length (length D) 0) at 2. generalize (seq 0 (length D)). intros l.
      induction l as [|x l IH]; cbn [filter length]; [lia|]. match goal with |- context[if ?c then _ else _] => destruct c end; cbn [length]; lia. }
    apply need_info_mono in U.
    assert (need_info (length D) <= walk_fuel D).
    { unfold need_info, walk_fuel, M, DD. assert (H : Nat.max 1 (decls_depth D) <= decls_depth D + 1) by lia.
      assert (H2 : W + 7 * Nat.max 1 (decls_depth D) + 13 <= W + 7 * decls_depth D + 30) by lia.
      pose proof (Nat.mul_le_mono_l _ _ (length D) H2). rewrite Nat.mul_add_distr_r. lia. }
    destruct k; try discriminate; lia.
Qed.

Lemma nof_run {A} (p : prog A) Q : nof p Q -> forall s, fst (run p s) <> OutOfFuel.
Proof.
  induction p as [a| | |o k IH]; cbn; try discriminate; [contradiction|]. intros H s.
  destruct (exec o s) as [r s']. apply IH. apply H.
Qed.
End Fuel.
