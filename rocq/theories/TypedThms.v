(** The three functions on typed memory. *)
From Coq Require Import ZifyBool ZifyNat ZifyN.
From Verif Require Import Base Wire GoType Leaf Codec Tag Walker Resolve Api Typing SpecWire WireFacts DecodeFacts TypingFacts EncFacts CodecSim WalkSpec WalkSeq ApiFacts
  Unsafe SpecUnsafe UnsafeMem UnsafeRep UnsafeLeaf UnsafeEqs UnsafeEnc UnsafeDec UnsafeRel SpecTyped TypedFacts TypedDec TypedEnc TypedTree.
Local Open Scope nat_scope.

(** ** More fuel does not change an outcome *)
Definition below {A} (x y : api A) : Prop := x = Diverges \/ x = y.
Lemma below_refl {A} (x : api A) : below x x. Proof. right. reflexivity. Qed.
Lemma below_bind {A B} (x y : api A) (f g : A -> api B) : below x y -> (forall a, below (f a) (g a)) -> below (abind x f) (abind y g).
Proof. intros [->| ->] F; [left; reflexivity|]. destruct y; [apply F|right; reflexivity|right; reflexivity]. Qed.
Lemma below_opt {A B} (x : option A) (f g : A -> api B) : (forall a, below (f a) (g a)) -> below (aopt x f) (aopt x g).
Proof. intros F. destruct x; [apply F|right; reflexivity]. Qed.
Lemma below_sum {A} (f g : A -> api Z) l : (forall x, below (f x) (g x)) -> below (sum_api (map f l)) (sum_api (map g l)).
Proof.
  intros F. induction l as [|x l IH]; [right; reflexivity|]. cbn [map sum_api]. destruct (F x) as [->| ->]; [left; reflexivity|].
  destruct (g x); try (right; reflexivity). destruct IH as [->| ->]; [left; reflexivity|right; reflexivity].
Qed.
Lemma below_chain {A} (f g : A -> bytes -> api bytes) l : (forall x b, below (f x b) (g x b)) -> forall b, below (chain_api b (map f l)) (chain_api b (map g l)).
Proof.
  intros F. induction l as [|x l IH]; intros b; [right; reflexivity|]. cbn [map chain_api]. destruct (F x b) as [->| ->]; [left; reflexivity|].
  destruct (g x b); try (right; reflexivity). apply IH.
Qed.
Lemma below_trans {A} (x y z : api A) : below x y -> below y z -> below x z.
Proof. intros [->| ->]; [left; reflexivity|auto]. Qed.

Section Fuel.
Context {R I : Type}.
Variable look : R -> cbody R I.
Variable iget : I -> sinfo R.
Variable D : decls.
Variable other : nat -> nat -> nat * nat.
Notation usz := (usz look iget D other).
Notation usizes := (usizes look iget D other).
Notation uenc := (uenc look iget D other).
Notation uencs := (uencs look iget D other).
Lemma size_fuel : forall fuel, (forall c H a f, below (usz fuel c H a f) (usz (S fuel) c H a f)) /\
  (forall k i H a, below (usizes fuel k i H a) (usizes (S fuel) k i H a)).
Proof.
  induction fuel as [|fuel [IH1 IH2]]; [split; intros; left; reflexivity|]. split.
  - intros c H a f. rewrite usz_S, (usz_S _ _ _ _ (S fuel)). destruct (look c); try apply below_refl.
    + apply below_opt. intros [p|]; [apply IH1|apply below_refl].
    + apply below_opt. intros [[p n] cap]. apply below_sum. intros i. apply below_opt. intros x. apply IH1.
    + apply below_opt. intros [p|]; [|apply below_refl]. apply below_bind; [apply IH2|intros; apply below_refl].
    + apply below_opt. intros p. apply below_opt. intros l. apply below_bind; [|intros; apply below_refl].
      apply below_sum. intros kv. apply below_bind; [apply IH1|]. intros n. apply below_bind; [apply IH1|intros; apply below_refl].
  - intros k i H a. rewrite usizes_S, (usizes_S _ _ _ _ (S fuel)). apply below_sum. intros f. apply IH1.
Qed.
Lemma encode_fuel : forall fuel, (forall c H b a f, below (uenc fuel c H b a f) (uenc (S fuel) c H b a f)) /\
  (forall k i H b a, below (uencs fuel k i H b a) (uencs (S fuel) k i H b a)).
Proof.
  induction fuel as [|fuel [IH1 IH2]]; [split; intros; left; reflexivity|]. split.
  - intros c H b a f. rewrite uenc_S, (uenc_S _ _ _ _ (S fuel)). destruct (look c); try apply below_refl.
    + apply below_opt. intros [p|]; [apply IH1|apply below_refl].
    + apply below_opt. intros [[p n] cap]. apply below_chain. intros i b'. apply below_opt. intros x. apply IH1.
    + apply below_opt. intros [p|]; [|apply below_refl]. apply below_bind; [apply size_fuel|intros; apply IH2].
    + apply below_opt. intros p. apply below_opt. intros l. apply below_bind; [|intros; apply below_refl].
      apply below_chain. intros kv b'. apply below_bind; [apply size_fuel|]. intros n. apply below_bind; [apply size_fuel|]. intros m.
      apply below_bind; [apply IH1|]. intros b2. apply IH1.
  - intros k i H b a. rewrite uencs_S, (uencs_S _ _ _ _ (S fuel)). apply below_chain. intros f b'. apply IH1.
Qed.
End Fuel.
Lemma below_more {A} (F : nat -> api A) : (forall n, below (F n) (F (S n))) -> forall n m, n <= m -> below (F n) (F m).
Proof. intros S n m L. induction L; [apply below_refl|]. eapply below_trans; [exact IHL|apply S]. Qed.

Theorem size_more_proof D other k H a s fuel fuel' : fuel <= fuel' -> fst (uSize D other fuel k H a s) <> Diverges ->
  uSize D other fuel' k H a s = uSize D other fuel k H a s.
Proof.
  intros L N. unfold uSize, with_info in *. destruct (run (cachedStructInfoOf D (walk_fuel D) k) s) as [[i| |] s']; try reflexivity.
  cbn [fst] in N. f_equal.
  destruct (below_more (fun n => usizes (hlook s') (higet s') D other n k i H a) (fun n => proj2 (size_fuel _ _ _ _ n) _ _ _ _) _ _ L) as [E|E]; [contradiction|symmetry; exact E].
Qed.
Theorem marshal_more_proof D other k H a s fuel fuel' : fuel <= fuel' -> fst (uMarshal D other fuel k H a s) <> Diverges ->
  uMarshal D other fuel' k H a s = uMarshal D other fuel k H a s.
Proof.
  intros L N. unfold uMarshal, with_info in *. destruct (run (cachedStructInfoOf D (walk_fuel D) k) s) as [[i| |] s']; try reflexivity.
  cbn [fst] in N. f_equal.
  match type of N with ?x <> _ => assert (B : below x (abind (usizes (hlook s') (higet s') D other fuel' k i H a) (fun _ =>
    abind (uencs (hlook s') (higet s') D other fuel' k i H [] a) (fun b => Returns (Some b, None))))) end.
  { apply below_bind; [|intros _; apply below_bind; [|intros; apply below_refl]].
    - apply (below_more (fun n => usizes (hlook s') (higet s') D other n k i H a)); [|exact L]. intros n. apply size_fuel.
    - apply (below_more (fun n => uencs (hlook s') (higet s') D other n k i H [] a)); [|exact L]. intros n. apply encode_fuel. }
  destruct B as [E|E]; [contradiction|symmetry; exact E].
Qed.

Section Typed.
Variable D : decls.
Hypothesis HP : supported D = true.
Variable other : nat -> nat -> nat * nat.
Let HF : decls_fit D = true := HD_fit D HP.

Theorem unmarshal_typed_proof (grow : nat -> nat) (pick : ust -> skey -> option nat) s k b u a W :
  reachable D s -> user_key D k = true -> bytes_okb b = true -> small b ->
  typed D other W (hp u) -> pooled W (pl u) -> struct_at D other W k a ->
  exists u' e s' W',
    uUnmarshal grow pick D other b k u a s = (Returns (u', e), s') /\
    (forall x, wts D x k = true -> exists x', Unmarshal D b (IPtr k (Some x)) s = (Returns (IPtr k (Some x'), e), s')) /\
    typed D other W' (hp u') /\ pooled W' (pl u') /\ grows (hp u) W W' /\ extends (hp u) (hp u') /\
    (forall c o, c < length (hp u) -> ~ cover D other W c o -> spot (hp u') c o = spot (hp u) c o).
Proof.
  intros Hr Hk Hb Hs T P A. pose proof (reachable_SInv D HP s Hr) as SI.
  unfold uUnmarshal, Unmarshal. destruct (zlen b =? 0)%Z eqn:Ez.
  { exists u, None, s, W. split; [reflexivity|]. split; [intros x _; exists x; reflexivity|]. split; [exact T|]. split; [exact P|].
    split; [apply grows_refl|]. split; [apply extends_refl|]. intros; reflexivity. }
  destruct (info_related D HP k s SI Hk) as (i & s' & G' & E & _ & Hi & L & I). unfold with_info. rewrite E.
  rewrite (proj2 (udec_rel _ _ _ _ D other grow pick _ _ L I (decode_fuel D b)) i k k u b 0%Z a Hi).
  assert (F : 1 + length b * (decls_depth D + 4) <= decode_fuel D b) by (unfold decode_fuel; lia).
  assert (One : forall x, wts D x k = true -> exists x' n e u' W', decs plook (piget D) D (decode_fuel D b) k b 0 x = DRet x' n e /\
    udecs grow pick plook (piget D) D other (decode_fuel D b) k k u b 0 a = DRet u' n e /\ step D other W (hp u) W' (hp u') /\ pooled W' (pl u')).
  { intros x Hw. destruct (decs_total D HF k b x (decode_fuel D b) (user_key_ok D _ Hk) Hw Hb Hs F) as (x' & n & e & Ed & _).
    destruct (proj2 (typed_dec D HF other grow pick (decode_fuel D b)) k W u b 0%Z a x x' n e (user_key_ok D _ Hk) Hw T P A Hb Hs Ed) as (u' & W' & Eu & S & P').
    exists x', n, e, u', W'. auto. }
  destruct (One (zero_struct D k) (zero_struct_wts D k (user_key_ok D _ Hk))) as (_ & n & e & u' & W' & _ & Eu & S & P').
  exists u', (match e with Some e => Some e | None => if (n <? zlen b)%Z then Some ErrShortRead else None end), s', W'.
  split; [rewrite Eu; destruct e; reflexivity|]. split.
  - intros x Hw. destruct (One x Hw) as (x2 & n2 & e2 & u2 & W2 & Ed & Eu2 & _). rewrite Eu in Eu2. inversion Eu2; subst n2 e2.
    rewrite (proj2 (dec_rel _ _ _ _ D _ _ L I (decode_fuel D b)) i k b 0%Z x Hi), Ed. exists x2. destruct e; reflexivity.
  - split; [exact (s_typed _ _ _ _ _ _ S)|]. split; [exact P'|]. split; [exact (s_grows _ _ _ _ _ _ S)|].
    destruct (s_touch _ _ _ _ _ _ S) as [X Y]. split; [exact X|]. exact Y.
Qed.

Theorem size_typed_proof s k H a W fuel : reachable D s -> user_key D k = true -> typed D other W H -> struct_at D other W k a ->
  forall c, fst (uSize D other fuel k H a s) <> Panics c.
Proof.
  intros Hr Hk T A c. pose proof (reachable_SInv D HP s Hr) as SI.
  destruct (info_related D HP k s SI Hk) as (i & s' & G' & E & _ & Hi & L & I). unfold uSize, with_info. rewrite E. cbn [fst].
  rewrite (proj2 (usz_rel _ _ _ _ D other _ _ L I fuel) i k k H a Hi). intros Q.
  pose proof (proj2 (size_calm D HF other W H T fuel) k a (user_key_ok D _ Hk) A) as C. rewrite Q in C. exact C.
Qed.
Theorem marshal_typed_proof s k H a W fuel : homogeneous D = true -> reachable D s -> user_key D k = true -> typed D other W H -> struct_at D other W k a ->
  (forall c, fst (uMarshal D other fuel k H a s) <> Panics c) /\ forall b e, fst (uMarshal D other fuel k H a s) = Returns (b, e) -> e = None.
Proof.
  intros HH Hr Hk T A. pose proof (reachable_SInv D HP s Hr) as SI.
  destruct (info_related D HP k s SI Hk) as (i & s' & G' & E & _ & Hi & L & I). unfold uMarshal, with_info. rewrite E. cbn [fst].
  rewrite (proj2 (usz_rel _ _ _ _ D other _ _ L I fuel) i k k H a Hi).
  pose proof (proj2 (size_calm D HF other W H T fuel) k a (user_key_ok D _ Hk) A) as C.
  pose proof (proj2 (encode_calm D HF other W H T HH fuel) k [] a (user_key_ok D _ Hk) A) as C2.
  destruct (usizes plook (piget D) D other fuel k k H a); cbn [abind]; [|contradiction|split; [intros c; discriminate|intros b e Q; discriminate Q]].
  rewrite (proj2 (uenc_rel _ _ _ _ D other _ _ L I fuel) i k k H [] a Hi).
  destruct (uencs plook (piget D) D other fuel k k H [] a); cbn [abind]; [|contradiction|split; [intros c; discriminate|intros b e Q; discriminate Q]].
  split; [intros c; discriminate|]. intros b e Q. inversion Q. reflexivity.
Qed.
End Typed.
