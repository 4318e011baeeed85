(** The three functions on flat memory. *)
From Coq Require Import ZifyBool ZifyNat ZifyN.
From Verif Require Import Base Wire GoType Leaf Codec Tag Walker Resolve Api Typing SpecWire WireFacts DecodeFacts TypingFacts EncFacts CodecSim WalkSpec WalkSeq ApiFacts
  Unsafe SpecUnsafe UnsafeMem UnsafeRep UnsafeLeaf UnsafeEqs UnsafeEnc UnsafeDec UnsafeRel UnsafeBuild.
Local Open Scope nat_scope.

Section Flat.
Variable D : decls.
Hypothesis HP : supported D = true.
Variable other : nat -> nat -> nat * nat.
Let HF : decls_fit D = true := HD_fit D HP.

Lemma struct_frame sep H H' A k a x S : rep_struct D other sep H k a x S -> touch A H H' -> disjoint S A -> rep_struct D other sep H' k a x S.
Proof.
  assert (F : forall L vs, box D other sep H L vs S -> touch A H H' -> disjoint S A -> box D other sep H' L vs S).
  { intros L vs B T Dj. eapply box_frame; [exact B|apply (touch_ext _ _ _ T)|]. eapply touch_same; [exact T| |exact Dj].
    eapply box_born; exact B. }
  destruct k; cbn [SpecUnsafe.rep_struct]; intros R T Dj; try destruct R as (xs & -> & R); try (exists xs; split; [reflexivity|]); apply F; assumption.
Qed.

Theorem unmarshal_flat_proof (grow : nat -> nat) (pick : ust -> skey -> option nat) s k b u a x S P : reachable D s -> user_key D k = true -> wts D x k = true -> bytes_okb b = true -> small b ->
  rep_struct D other true (hp u) k a x S -> pool D other (hp u) (pl u) P -> disjoint S P ->
  exists u' x' e s' S' P',
    uUnmarshal grow pick D other b k u a s = (Returns (u', e), s') /\
    Unmarshal D b (IPtr k (Some x)) s = (Returns (IPtr k (Some x'), e), s') /\
    wts D x' k = true /\
    rep_struct D other true (hp u') k a x' S' /\ pool D other (hp u') (pl u') P' /\ disjoint S' P' /\
    subset S' (union S (unborn (hp u))) /\ subset P' (union P (unborn (hp u))) /\ touch (union S P) (hp u) (hp u').
Proof.
  intros Hr Hk Hw Hb Hs R Po Dj. pose proof (reachable_SInv D HP s Hr) as SI.
  unfold uUnmarshal, Unmarshal. destruct (zlen b =? 0)%Z eqn:Ez.
  { exists u, x, None, s, S, P. repeat (split; [solve [reflexivity|assumption|intros ? ? ?; left; assumption]|]). apply touch_refl. }
  destruct (info_related D HP k s SI Hk) as (i & s' & G' & E & _ & Hi & L & I). unfold with_info. rewrite E.
  rewrite (proj2 (dec_rel _ _ _ _ D _ _ L I (decode_fuel D b)) i k b 0%Z x Hi).
  rewrite (proj2 (udec_rel _ _ _ _ D other grow pick _ _ L I (decode_fuel D b)) i k k u b 0%Z a Hi).
  assert (F : 1 + length b * (decls_depth D + 4) <= decode_fuel D b) by (unfold decode_fuel; lia).
  destruct (decs_total D HF k b x (decode_fuel D b) (user_key_ok D _ Hk) Hw Hb Hs F) as (x' & n & e & Ed & Hw' & _).
  destruct (proj2 (dec_sim D HF other grow pick (decode_fuel D b)) k u b 0%Z a x S P x' n e (user_key_ok D _ Hk) R Po Dj Hb Hs Ed)
    as (u' & Eu & S' & P' & R' & Po' & Dj' & Q1 & Q2 & T).
  rewrite Ed, Eu.
  exists u', x', (match e with Some e => Some e | None => if (n <? zlen b)%Z then Some ErrShortRead else None end), s', S', P'.
  destruct e; repeat (split; [solve [reflexivity|assumption]|]); exact T.
Qed.

Theorem size_flat_proof s k H a x S sep : reachable D s -> user_key D k = true -> wts D x k = true ->
  rep_struct D other sep H k a x S ->
  exists n s' N, Size D (IPtr k (Some x)) s = (Returns n, s') /\
    forall fuel, N <= fuel -> uSize D other fuel k H a s = (Returns n, s').
Proof.
  intros Hr Hk Hw R. pose proof (reachable_SInv D HP s Hr) as SI.
  destruct (info_related D HP k s SI Hk) as (i & s' & G' & E & _ & Hi & L & I). unfold uSize. cbn [Size]. unfold with_info. rewrite E.
  destruct (struct_size_fine D HF k x (user_key_ok D _ Hk) Hw) as [n En].
  destruct (usizes_sim D HF other sep H k a x S n (user_key_ok D _ Hk) R En) as [N HN].
  exists n, s', N. split.
  - cbn [info_size]. rewrite (struct_size_rel _ _ _ _ _ _ L I i k x Hi), En. reflexivity.
  - intros fuel Lf. rewrite (proj2 (usz_rel _ _ _ _ D other _ _ L I fuel) i k k H a Hi), (HN fuel Lf). reflexivity.
Qed.

Theorem marshal_flat_proof s k H a x S sep : reachable D s -> user_key D k = true ->
  rep_struct D other sep H k a x S -> forall b s',
  Marshal D (IPtr k (Some x)) s = (Returns (Some b, None), s') ->
  exists N, forall fuel, N <= fuel -> uMarshal D other fuel k H a s = (Returns (Some b, None), s').
Proof.
  intros Hr Hk R b s0 M. pose proof (reachable_SInv D HP s Hr) as SI.
  destruct (info_related D HP k s SI Hk) as (i & s' & G' & E & _ & Hi & L & I). unfold uMarshal. cbn [Marshal] in M. unfold with_info in *. rewrite E in *.
  cbn [info_size info_encode] in M. rewrite (struct_size_rel _ _ _ _ _ _ L I i k x Hi), (struct_encode_rel _ _ _ _ _ _ L I i k [] x Hi) in M.
  destruct (struct_size plook (piget D) k x) as [n|] eqn:En; [|discriminate]. cbn [rbind] in M.
  destruct (struct_encode plook (piget D) k [] x) as [r|] eqn:Ee; [|discriminate]. cbn [rbind api_res] in M. inversion M; subst r s0.
  destruct (usizes_sim D HF other sep H k a x S n (user_key_ok D _ Hk) R En) as [N1 H1].
  destruct (uencs_sim D HF other sep H k a x S [] b (user_key_ok D _ Hk) R Ee) as [N2 H2].
  exists (Nat.max N1 N2). intros fuel Lf.
  rewrite (proj2 (usz_rel _ _ _ _ D other _ _ L I fuel) i k k H a Hi), (H1 fuel) by lia. cbn [abind].
  rewrite (proj2 (uenc_rel _ _ _ _ D other _ _ L I fuel) i k k H [] a Hi), (H2 fuel) by lia. reflexivity.
Qed.

Theorem represented_proof k x H : user_key D k = true -> wts D x k = true ->
  exists H' y S, extends H H' /\ rep_struct D other true H' k (y, 0) x S /\ subset S (unborn H) /\
    (forall b o, b < length H -> spot H' b o = spot H b o).
Proof.
  intros Hk Hw. destruct (build_struct D other k x (user_key_ok D _ Hk) Hw H) as (H' & y & S & [E T] & R & Q).
  exists H', y, S. split; [exact E|]. split; [exact R|]. split; [exact Q|]. intros b o L. apply T; [exact L|]. intros [].
Qed.
End Flat.

(** Other messages, and pooled entries, keep their value. *)
Lemma others_proof D : supported D = true -> forall other grow pick s k b u a x S P, reachable D s -> user_key D k = true -> wts D x k = true -> bytes_okb b = true -> small b ->
  rep_struct D other true (hp u) k a x S -> pool D other (hp u) (pl u) P -> disjoint S P ->
  forall sep k2 a2 y S2, rep_struct D other sep (hp u) k2 a2 y S2 -> disjoint S2 S -> disjoint S2 P ->
  exists u' e s', uUnmarshal grow pick D other b k u a s = (Returns (u', e), s') /\
    rep_struct D other sep (hp u') k2 a2 y S2.
Proof.
  intros HP other grow pick s k b u a x S P Hr Hk Hw Hb Hs R Po Dj sep k2 a2 y S2 R2 D1 D2.
  destruct (unmarshal_flat_proof D HP other grow pick s k b u a x S P Hr Hk Hw Hb Hs R Po Dj) as (u' & x' & e & s' & S' & P' & E & _ & _ & _ & _ & _ & _ & _ & T).
  exists u', e, s'. split; [exact E|]. eapply struct_frame; [exact R2|exact T|].
  intros c o H1 [H2|H2]; [eapply D1|eapply D2]; eassumption.
Qed.

Lemma marshal_homogeneous_proof D : supported D = true -> homogeneous D = true ->
  forall other s k H a x S sep, reachable D s -> user_key D k = true -> wts D x k = true ->
  rep_struct D other sep H k a x S ->
  exists b s' N, Marshal D (IPtr k (Some x)) s = (Returns (Some b, None), s') /\
    forall fuel, N <= fuel -> uMarshal D other fuel k H a s = (Returns (Some b, None), s').
Proof.
  intros HP HH other s k H a x S sep Hr Hk Hw R.
  destruct (size_exact_proof D HP s s k x Hr Hr Hk Hw HH) as (b & M & _).
  destruct (Marshal D (IPtr k (Some x)) s) as [r s'] eqn:E. cbn [fst] in M. subst r.
  destruct (marshal_flat_proof D HP other s k H a x S sep Hr Hk R b s' E) as [N HN]. exists b, s', N. auto.
Qed.
