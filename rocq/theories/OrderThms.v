(** Results of Marshal for any order in which maps are visited. *)
From Coq Require Import Permutation String.
From Verif Require Import Base Wire GoType Leaf Codec Tag Walker Api Resolve Typing SpecWire SpecMsg SpecOrder WireFacts WalkSeq MsgApi MsgRound MsgThms
  Order OrderFacts OrderMsg OrderAny Sample RefuteMsg.

Lemma orders_proof D : supported D = true -> forall k x s s' b, reachable D s -> user_key D k = true ->
  nMarshal D k x s b s' <-> exists y, reorder x y /\ Marshal D (IPtr k (Some y)) s = (Returns (Some b, None), s').
Proof.
  intros HD k x s s' b Hs Hk. split.
  - apply nmarshal_one; assumption.
  - intros (y & Hr & H). eapply nmarshal_all; eassumption.
Qed.
Lemma perm_proof D k x s s1 s2 b1 b2 : nMarshal D k x s b1 s1 -> nMarshal D k x s b2 s2 -> Permutation b1 b2 /\ length b1 = length b2.
Proof.
  intros H1 H2. apply nmarshal_perm_proof in H1. apply nmarshal_perm_proof in H2. destruct H1 as (c1 & E1 & P1), H2 as (c2 & E2 & P2).
  rewrite E1 in E2. inversion E2; subst. assert (P : Permutation b1 b2) by (eapply Permutation_trans; [exact P1|apply Permutation_sym; exact P2]).
  split; [exact P|apply Permutation_length; exact P].
Qed.
Lemma deterministic_proof D : supported D = true -> forall k x s1 s2 s1' s2' b1 b2, reachable D s1 -> reachable D s2 -> user_key D k = true -> small x = true ->
  nMarshal D k x s1 b1 s1' -> nMarshal D k x s2 b2 s2' -> b1 = b2.
Proof.
  intros HD k x s1 s2 s1' s2' b1 b2 R1 R2 Hk Hx H1 H2. apply (orders_proof D HD) in H1; auto. apply (orders_proof D HD) in H2; auto.
  destruct H1 as (y1 & Hr1 & E1), H2 as (y2 & Hr2 & E2). rewrite <- (small_same _ _ Hr1 Hx) in E1. rewrite <- (small_same _ _ Hr2 Hx) in E2.
  destruct (marshal_pure D HD s1 k (Some x) (reachable_SInv D HD _ R1) Hk) as (t1 & _ & M1).
  destruct (marshal_pure D HD s2 k (Some x) (reachable_SInv D HD _ R2) Hk) as (t2 & _ & M2).
  rewrite M1 in E1. rewrite M2 in E2. inversion E1. inversion E2. congruence.
Qed.

Lemma orders_decode_proof D sch : covers D sch = true -> forall s1 s2 s3 s4 s1' s2' m xs b1 b2, reachable D s1 -> reachable D s2 -> reachable D s3 -> reachable D s4 ->
  wts D (VStruct xs) (SNamed m) = true -> encodable_msg sch xs (msg sch m) = true -> (zlen (ser (message sch xs (msg sch m))) < 2^63)%Z ->
  nMarshal D (SNamed m) (VStruct xs) s1 b1 s1' -> nMarshal D (SNamed m) (VStruct xs) s2 b2 s2' ->
  exists rs1 rs2 zs1 zs2, b1 = ser rs1 /\ b2 = ser rs2 /\ shuffle sch (msg sch m) rs1 rs2 /\
    fst (Unmarshal D b1 (ptr m (zeros (msg sch m))) s3) = Returns (ptr m zs1, None) /\
    fst (Unmarshal D b2 (ptr m (zeros (msg sch m))) s4) = Returns (ptr m zs2, None) /\
    reorder (VStruct (map norm zs1)) (VStruct (map norm zs2)).
Proof.
  intros HC s1 s2 s3 s4 s1' s2' m xs b1 b2 R1 R2 R3 R4 Hw He Hl H1 H2.
  assert (HD : supported D = true) by (apply (covers_facts D sch); exact HC).
  assert (Hk : user_key D (SNamed m) = true) by (eapply wts_msg; eassumption).
  apply (orders_proof D HD) in H1; auto. apply (orders_proof D HD) in H2; auto.
  destruct H1 as (y1 & Hr1 & E1), H2 as (y2 & Hr2 & E2).
  assert (X : forall y, reorder (VStruct xs) y -> exists ys, y = VStruct ys /\ Forall2 reorder xs ys).
  { intros y Hr. inversion Hr; subst; eexists; (split; [reflexivity|]); [apply Forall2_same; constructor|assumption]. }
  destruct (X _ Hr1) as (ys1 & -> & F1). destruct (X _ Hr2) as (ys2 & -> & F2).
  assert (Hs : forall m n f, In (Field n f) (msg sch m) -> shape f = true).
  { intros m' n f. apply scope_shape. unfold covers in HC. repeat (apply andb_true_iff in HC; destruct HC as [HC ?]). assumption. }
  destruct (order_decodes_proof D sch HC s1 s2 s3 s4 m ys1 ys2) as (rs1 & rs2 & zs1 & zs2 & A & B & C & U1 & U2 & N); auto.
  - eapply wts_reorder; eassumption.
  - eapply encodable_reorder; eassumption.
  - unfold zlen. rewrite <- (shuffle_len _ _ _ _ (message_shuffle sch Hs xs ys1 m F1)). exact Hl.
  - eapply reorder_trans; [apply reorder_sym; exact Hr1|exact Hr2].
  - rewrite E1 in A. rewrite E2 in B. cbn in A, B. inversion A. inversion B. subst. exists rs1, rs2, zs1, zs2. auto 10.
Qed.

(** map[int32]float32 and a fixed32 field. Entries are framed with the size of the
    value read as an int32: too long for the first, too short for the second. *)
Definition floatmapD : decls :=
  [[smap "bytes,4,rep" "varint,1,opt" "fixed32,2,opt" (TMap KInt32 (TScalar KFloat32)); sfield "fixed32,5,opt" (TScalar KUint32)]].
Definition floatmap : schema := [[Field 4 (FMap Y_int32 (FAlways Y_float)); Field 5 (FImplicit Y_fixed32)]].
Definition floats : list val := [VMap (Some [(VI32 1, VF32 3212836864); (VI32 2, VF32 5)]); VU32 3670072].
Definition floats' : list val := [VMap (Some [(VI32 2, VF32 5); (VI32 1, VF32 3212836864)]); VU32 3670072].
Lemma orders_refuted_proof : exists D sch xs b1 b2 s zs y e, legal D sch xs /\
  nMarshal D (SNamed 0) (VStruct xs) g_empty b1 s /\ nMarshal D (SNamed 0) (VStruct xs) g_empty b2 s /\
  fst (Unmarshal D b1 (ptr 0 (zeros (msg sch 0))) g_empty) = Returns (ptr 0 zs, None) /\
  fst (Unmarshal D b2 (ptr 0 (zeros (msg sch 0))) g_empty) = Returns (y, Some e).
Proof.
  exists floatmapD, floatmap, floats.
  exists [34; 13; 8; 1; 21; 0; 0; 128; 191; 34; 4; 8; 2; 21; 5; 0; 0; 0; 45; 56; 0; 56; 0]%N.
  exists [34; 4; 8; 2; 21; 5; 0; 0; 0; 34; 13; 8; 1; 21; 0; 0; 128; 191; 45; 56; 0; 56; 0]%N.
  exists (snd (Marshal floatmapD (ptr 0 floats) g_empty)).
  exists [VMap (Some [(VI32 1, VF32 3212836864)]); VU32 0].
  exists (ptr 0 [VMap (Some []); VU32 0]), (UnmarshalFieldError 4 2 (UnmarshalFieldError 2 5 ErrUnexpectedEOF)).
  split; [vm_compute; repeat split|].
  split; [eapply nmarshal_all; [apply ro_same|]; vm_compute; reflexivity|].
  split; [apply (nmarshal_all _ _ _ _ _ _ (VStruct floats')); [|vm_compute; reflexivity]|].
  - constructor. constructor; [|constructor; [constructor|constructor]]. eapply ro_map; [apply perm_swap|]. repeat (constructor; [split; [reflexivity|constructor]|]). constructor.
  - split; vm_compute; reflexivity.
Qed.

(** A message whose map has two entries, and the same visited in the other order. *)
Definition pair1 : val := VStruct [VMap (Some [(VI32 1, VF32 7); (VI32 2, VF32 5)]); VU32 0].
Definition pair2 : val := VStruct [VMap (Some [(VI32 2, VF32 5); (VI32 1, VF32 7)]); VU32 0].
