(** Unmarshal of what another version of a schema wrote into a message that holds something. *)
From Coq Require Import ZifyBool ZifyNat ZifyN.
From Verif Require Import Base Wire GoType Leaf Codec Tag Walker Api Resolve Typing CodecSim SpecWire SpecTag SpecMsg SpecLib SpecExact SpecVersions SpecJoin SpecAbsorb
  WireFacts DecodeFacts GenFacts TypingFacts WalkInv WalkSpec WalkSeq EncFacts MsgResolve MsgEnc MsgDec MsgRound MsgFit MsgApi TidyFacts ExactThms MsgVersions VersionThms MsgJoin JoinThms MsgAbsorb
  Sample RefuteMsg.
Local Open Scope Z_scope.

Lemma wts_fits D sch m xs : covers D sch = true -> wts D (VStruct xs) (SNamed m) = true -> fits_msg sch xs (msg sch m) = true.
Proof.
  intros HV Hw. destruct (covers_facts _ _ HV) as (HI & _). apply (fit_fields sch D); [|apply types_of; assumption].
  apply Forall_forall. intros x _. apply (fit_all sch D HI).
Qed.
Theorem absorb_proof D sch D' sch' same : covers D sch = true -> covers D' sch' = true -> accepted same sch sch' ->
  forall s s' m m' xs ys, same m m' = true -> reachable D s -> reachable D' s' -> wts D' (VStruct xs) (SNamed m') = true -> forallb fresh xs = true -> forallb tidy xs = true ->
  wts D (VStruct ys) (SNamed m) = true -> encodable_msg sch ys (msg sch m) = true -> zlen (ser (message sch ys (msg sch m))) < 2^63 ->
  exists b zs, fst (Marshal D (ptr m ys) s) = Returns (Some b, None) /\
    fst (Unmarshal D' b (ptr m' xs) s') = Returns (ptr m' zs, None) /\
    map shown zs = map norm (absorb_msg sch sch' xs ys (msg sch m) (msg sch' m')) /\ wts D' (VStruct zs) (SNamed m') = true.
Proof.
  intros HV HV' HU s s' m m' xs ys Hm Hr Hr' Hx Hf Ht Hw He Hsm.
  destruct (covers_facts _ _ HV) as (HI & HS & HC & _). destruct (covers_facts _ _ HV') as (_ & HS' & HC' & _).
  pose proof (wts_msg _ _ _ Hw) as [_ Hw'].
  destruct (marshal_spec D sch HV s m ys Hr Hw He Hsm) as [_ M].
  destruct (merge_absorb sch sch' D same HI HS HC HS' HC' HU m m' xs ys Hm Hw' He Hsm (wts_fits D' sch' m' xs HV' Hx)) as (zs & G & N & P & B).
  pose proof (unmarshal_exact_proof D' sch' HV' s' m' xs xs _ Hr' Hx Hf Ht eq_refl B Hsm P) as U.
  unfold mg in G. rewrite G in U. destruct U as (zs' & U & Nz & _ & _ & Wz). eauto 8 using eq_trans.
Qed.
(** Field by field. *)
Lemma sent_at D sch sch' D' m m' xs ys j n f' : covers D sch = true -> wts D' (VStruct xs) (SNamed m') = true -> covers D' sch' = true ->
  nth_error (msg sch' m') j = Some (Field n f') -> exists x, nth_error xs j = Some x /\
  (forall i f y, nth_error (msg sch m) i = Some (Field n f) -> nth_error ys i = Some y ->
     nth_error (absorb_msg sch sch' xs ys (msg sch m) (msg sch' m')) j = Some (absorb sch sch' x y f f')) /\
  (~ In n (numbers (msg sch m)) -> nth_error (absorb_msg sch sch' xs ys (msg sch m) (msg sch' m')) j = Some x).
Proof.
  intros HV Hx HV' Hj. destruct (fits_nth sch' xs _ j n f' (wts_fits D' sch' m' xs HV' Hx) Hj) as (x & Hxj & _). exists x. split; [exact Hxj|].
  rewrite nth_absorb, Hj, Hxj. split.
  - intros i f y Hi Hy. f_equal.
    destruct (covers_facts _ _ HV) as (_ & HS & _ & _). destruct (schema_ok_msg sch HS m) as (_ & Hnd & _).
    clear - Hnd Hi Hy. revert i ys Hnd Hi Hy. generalize (msg sch m). induction l as [|g l IH]; intros i ys Hnd Hi Hy; [destruct i; discriminate|].
    destruct i as [|i]; destruct ys as [|y0 ys]; try discriminate; cbn [nth_error] in Hi, Hy.
    + inversion Hi; inversion Hy; subst. cbn [sent]. rewrite N.eqb_refl. reflexivity.
    + destruct g as [t|n' g]; cbn [sent].
      * apply (IH i); assumption.
      * cbn [numbers nodup_N] in Hnd. apply andb_true_iff in Hnd. destruct Hnd as [H1 H2]. destruct (N.eqb_spec n' n) as [->|]; [|apply (IH i); assumption].
        exfalso. apply negb_true_iff in H1. assert (existsb (N.eqb n) (numbers l) = true); [|congruence].
        apply existsb_exists. exists n. split; [eapply nth_numbers; exact Hi|apply N.eqb_refl].
  - intros Hn. rewrite sent_none by exact Hn. reflexivity.
Qed.
Theorem absorb_fields_proof D sch D' sch' same : covers D sch = true -> covers D' sch' = true -> accepted same sch sch' ->
  forall s s' m m' xs ys b zs, same m m' = true -> reachable D s -> reachable D' s' -> wts D' (VStruct xs) (SNamed m') = true -> forallb fresh xs = true -> forallb tidy xs = true ->
  wts D (VStruct ys) (SNamed m) = true -> encodable_msg sch ys (msg sch m) = true -> zlen (ser (message sch ys (msg sch m))) < 2^63 ->
  fst (Marshal D (ptr m ys) s) = Returns (Some b, None) -> fst (Unmarshal D' b (ptr m' xs) s') = Returns (ptr m' zs, None) ->
  forall j n f', nth_error (msg sch' m') j = Some (Field n f') -> exists x, nth_error xs j = Some x /\
    (forall i f y, nth_error (msg sch m) i = Some (Field n f) -> nth_error ys i = Some y ->
      option_map shown (nth_error zs j) = Some (norm (absorb sch sch' x y f f'))) /\
    (~ In n (numbers (msg sch m)) -> option_map shown (nth_error zs j) = Some (norm x)).
Proof.
  intros HV HV' HU s s' m m' xs ys b zs Hm Hr Hr' Hx Hf Ht Hw He Hsm M U j n f' Hj.
  destruct (absorb_proof D sch D' sch' same HV HV' HU s s' m m' xs ys Hm Hr Hr' Hx Hf Ht Hw He Hsm) as (b2 & zs2 & M2 & U2 & N & _).
  rewrite M2 in M. inversion M; subst b2. rewrite U2 in U. inversion U; subst zs2. clear M U.
  destruct (sent_at D sch sch' D' m m' xs ys j n f' HV Hx HV' Hj) as (x & Hxj & A & B). exists x. split; [exact Hxj|].
  rewrite <- nth_error_map, N, nth_error_map. split.
  - intros i f y Hi Hy. rewrite (A i f y Hi Hy). reflexivity.
  - intros Hn. rewrite (B Hn). reflexivity.
Qed.
(** The two special cases. *)
Theorem absorb_empty_proof D sch D' sch' : covers D sch = true -> covers D' sch' = true -> understood sch sch' ->
  forall m ys, wts D (VStruct ys) (SNamed m) = true -> encodable_msg sch ys (msg sch m) = true -> zlen (ser (message sch ys (msg sch m))) < 2^63 ->
  map norm (absorb_msg sch sch' (zeros (msg sch' m)) ys (msg sch m) (msg sch' m)) = map norm (translate_msg sch sch' ys (msg sch m) (msg sch' m)).
Proof.
  intros HV HV' HU m ys Hw He Hsm. destruct (covers_facts _ _ HV) as (HI & HS & HC & _). destruct (covers_facts _ _ HV') as (_ & HS' & HC' & _).
  pose proof (wts_msg _ _ _ Hw) as [_ Hw'].
  assert (HA : accepted Nat.eqb sch sch') by (intros q q' Eq n f f' H1 H2; apply Nat.eqb_eq in Eq; subst q'; apply accepts_compatible; exact (HU q n f f' H1 H2)).
  destruct (merge_absorb sch sch' D Nat.eqb HI HS HC HS' HC' HA m m _ ys (Nat.eqb_refl m) Hw' He Hsm (fits_zeros sch' _)) as (zs & G & N & _).
  destruct (merge_versions sch sch' D HI HS HC HS' HC' HU m ys Hw' He Hsm) as (zs2 & G2 & N2 & _). congruence.
Qed.
Theorem absorb_same_proof D sch : covers D sch = true ->
  forall m xs ys, wts D (VStruct xs) (SNamed m) = true -> wts D (VStruct ys) (SNamed m) = true ->
  encodable_msg sch ys (msg sch m) = true -> zlen (ser (message sch ys (msg sch m))) < 2^63 ->
  map norm (absorb_msg sch sch xs ys (msg sch m) (msg sch m)) = map norm (joined_msg sch xs ys (msg sch m)).
Proof.
  intros HV m xs ys Hx Hw He Hsm. destruct (covers_facts _ _ HV) as (HI & HS & HC & _). pose proof (wts_msg _ _ _ Hw) as [_ Hw'].
  assert (HA : accepted Nat.eqb sch sch) by (intros q q' Eq n f f' H1 H2; apply Nat.eqb_eq in Eq; subst q'; apply accepts_compatible; exact (understood_refl D sch HV q n f f' H1 H2)).
  destruct (merge_absorb sch sch D Nat.eqb HI HS HC HS HC HA m m xs ys (Nat.eqb_refl m) Hw' He Hsm (wts_fits D sch m xs HV Hx)) as (zs & G & N & _).
  destruct (join_merge D sch HV m xs ys (types_of D sch HV m xs Hx) (types_of D sch HV m ys Hw) He Hsm) as (zs2 & G2 & N2). congruence.
Qed.
(** A nil map of the writer puts an entry into the reader's. *)
Lemma nil_map_absorbed : exists D sch D' sch' m xs ys b zs, covers D sch = true /\ covers D' sch' = true /\ accepted Nat.eqb sch sch' /\
  wts D' (VStruct xs) (SNamed m) = true /\ forallb fresh xs = true /\ forallb tidy xs = true /\ wts D (VStruct ys) (SNamed m) = true /\
  fst (Marshal D (ptr m ys) g_empty) = Returns (Some b, None) /\ fst (Unmarshal D' b (ptr m xs) g_empty) = Returns (ptr m zs, None) /\
  absorb_msg sch sch' xs ys (msg sch m) (msg sch' m) = xs /\ map norm zs <> map norm xs.
Proof.
  exists emptymapD, emptymap, emptymapD, emptymap, 0%nat, [VMap (Some [(VStr [], VStr [65%N])])], [VMap None]. do 2 eexists.
  split; [vm_compute; reflexivity|]. split; [vm_compute; reflexivity|]. split.
  { intros q q' Eq n f f' H1 H2. apply Nat.eqb_eq in Eq. subst q'. apply accepts_compatible. apply (understood_refl emptymapD emptymap) with (m := q) (n := n); [vm_compute; reflexivity|exact H1|exact H2]. }
  do 4 (split; [vm_compute; reflexivity|]). split; [vm_compute; reflexivity|]. split; [vm_compute; reflexivity|]. split; [reflexivity|]. vm_compute. discriminate.
Qed.
