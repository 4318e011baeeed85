(** Unmarshal and the memory of its arguments: proofs and witnesses. *)
From Coq Require Import String Permutation ZifyBool ZifyNat ZifyN.
From Verif Require Import Base Wire GoType Leaf Codec Tag Walker Api DecodeFacts Alias SpecAlias AliasFacts AliasSim Sample.
Local Open Scope Z_scope.

Lemma mUnmarshal_sim grow D M b k x s : buf M b x ->
  Unmarshal D (content M b) (IPtr k (Some (denote M x))) s =
    (amap (seen k) (fst (mUnmarshal grow D M b k x s)), snd (mUnmarshal grow D M b k x s)) /\
  forall x' M' e, fst (mUnmarshal grow D M b k x s) = Returns (x', M', e) ->
    post M M' (items_of x) (items_of x').
Proof.
  intros Hb. pose proof Hb as (Hok & _). unfold Unmarshal, mUnmarshal.
  destruct (zlen (content M b) =? 0).
  { split; [reflexivity|]. cbn. intros x' M' e [= <- <- <-]. apply post_refl; auto. }
  unfold with_info. destruct (run (cachedStructInfoOf D (walk_fuel D) k) s) as [[i| |] s']; cbn [fst snd];
    try (split; [reflexivity|intros; discriminate]).
  destruct (sim_both grow (hlook s') (higet s') D (decode_fuel D (content M b))) as [_ H].
  specialize (H i M b 0 x Hb).
  destruct (decs _ _ _ _ _ _ _ _) as [y n e|c|]; cbn [sim] in H.
  - destruct H as (x' & M' & -> & <- & HP). split; [destruct e; reflexivity|].
    intros x1 M1 e1 HR. destruct e; injection HR as <- <- <-; exact HP.
  - rewrite H. split; [reflexivity|]. cbn. discriminate.
  - rewrite H. split; [reflexivity|]. cbn. discriminate.
Qed.

Lemma memory_proof grow D M b k x s : allocated M b -> owned M x -> ~ In (ar b) (bytes_ids (items_of x)) ->
  Unmarshal D (content M b) (IPtr k (Some (denote M x))) s =
    (amap (seen k) (fst (mUnmarshal grow D M b k x s)), snd (mUnmarshal grow D M b k x s)).
Proof. intros [H1 H2] H3 H4. apply mUnmarshal_sim. split; auto. Qed.

Lemma no_alias_proof grow D M b k x s x' M' e s' :
  allocated M b -> owned M x -> apart b x ->
  mUnmarshal grow D M b k x s = (Returns (x', M', e), s') ->
  array M' (ar b) = array M (ar b) /\
  (forall a, (a < length M)%nat -> ~ In a (bytes_ids (items_of x)) -> array M' a = array M a) /\
  (forall M'', same_except (ar b) M' M'' -> denote M'' x' = denote M' x') /\
  owned M' x' /\
  (forall b', (ar b' < length M)%nat -> apart b' x -> apart b' x').
Proof.
  intros [H1 H2] H3 [H4 H5] HU.
  destruct (mUnmarshal_sim grow D M b k x s) as [_ HP]; [split; auto|].
  rewrite HU in HP. specialize (HP _ _ _ eq_refl).
  assert (Hap : forall b', (ar b' < length M)%nat -> apart b' x -> apart b' x').
  { intros b' Hl [Hb1 Hb2]. split; intros Hi.
    - apply (p_bytes _ _ _ _ HP) in Hi as [Hi|Hi]; auto. lia.
    - apply (p_str _ _ _ _ HP) in Hi as [Hi|Hi]; auto. lia. }
  split; [apply (p_frame _ _ _ _ HP); auto|].
  split; [apply (p_frame _ _ _ _ HP)|].
  split; [|split; [exact (p_ok _ _ _ _ HP)|exact Hap]].
  intros M'' HS. destruct (Hap b H1 (conj H4 H5)) as [Ha1 Ha2].
  apply denote_ext. destruct (p_ok _ _ _ _ HP) as [Hok _].
  rewrite Forall_forall in *. intros i Hi. specialize (Hok _ Hi).
  destruct i as [sl|sl|v]; cbn in *; auto; apply content_frame; auto; intros a Ha; apply HS; intros ->.
  - apply Ha1. apply in_flat_map. exists (IBytes sl). auto.
  - apply Ha2. apply in_flat_map. exists (IStr sl). auto.
Qed.

Lemma fresh_proof D M b k : denote M (mzero_struct D k) = zero_struct D k /\ owned M (mzero_struct D k) /\ apart b (mzero_struct D k).
Proof.
  pose proof (mzero_struct_free D k) as HF. split; [apply denote_mzero_struct|]. split.
  - apply free_okl; auto.
  - unfold apart. rewrite (free_bytes _ HF), (free_str _ HF). auto.
Qed.

(** ** Examples and witnesses *)
Definition blobD : decls := [[sfield "bytes,1,opt" TBytes; sfield "bytes,2,opt" (TScalar KString);
  sfield "bytes,3,rep" (TSlice TBytes)]].
Definition whole (a : nat) (l : bytes) : slice := {| ar := a; off := 0; ln := length l; cp := length l |}.

(** Input: field 1 = [7; 8], field 2 = "A", field 3 = [[9]]. *)
Definition blob_in : bytes := [10; 2; 7; 8; 18; 1; 65; 26; 1; 9]%N.
(** A message with a field of its own. *)
Definition blob_mem : mem := [blob_in; [1; 2; 3]; [4]]%N.
Definition blob_msg : mval :=
  MStruct [MBytes (Some (whole 1 [1; 2; 3]%N)); MStr empty_slice; MSlice true [] [MBytes (Some (whole 2 [4]%N))]].

(** Field 1 is the first two bytes of the input buffer. *)
Definition alias_in : bytes := [10; 2; 7; 8]%N.
Definition alias_msg : mval :=
  MStruct [MBytes (Some {| ar := 0; off := 0; ln := 2; cp := 4 |}); MStr empty_slice; MSlice false [] []].
Lemma input_written_proof : exists D M b k x x' M' s',
  allocated M b /\ owned M x /\
  mUnmarshal (fun n => n) D M b k x g_empty = (Returns (x', M', None), s') /\ content M' b <> content M b.
Proof.
  exists blobD, [alias_in], (whole 0 alias_in), (SNamed 0), alias_msg. do 3 eexists.
  split; [split; cbn; [lia|split; cbn; lia]|].
  split; [split; [repeat constructor; cbn; lia|split; [repeat constructor; cbn; tauto|cbn; tauto]]|].
  split; [vm_compute; reflexivity|]. vm_compute. discriminate.
Qed.
Lemma owned_blob : owned blob_mem blob_msg.
Proof.
  split; [repeat constructor; cbn; lia|]. split; [|cbn; tauto].
  cbn. constructor; [|constructor; [cbn; tauto|constructor]]. cbn. intros [H|[]]. discriminate.
Qed.

(** Two fields that are neighbours in one array, as sub-slices of a buffer are. *)
Definition shared_mem : mem := [alias_in; [1; 2]]%N.
Definition sharedD : decls := [[sfield "bytes,1,opt" TBytes; sfield "bytes,2,opt" TBytes]].
Definition shared_msg : mval :=
  MStruct [MBytes (Some {| ar := 1; off := 0; ln := 1; cp := 2 |}); MBytes (Some {| ar := 1; off := 1; ln := 1; cp := 1 |})].
Lemma shared_proof : exists D M b k x x' M' s' y1 y2 y1' y2',
  allocated M b /\ apart b x /\ Forall (item_ok M) (items_of x) /\
  denote M x = VStruct [y1; y2] /\
  mUnmarshal (fun n => n) D M b k x g_empty = (Returns (x', M', None), s') /\
  denote M' x' = VStruct [y1'; y2'] /\
  fst (Unmarshal D (content M b) (IPtr k (Some (VStruct [y1; y2]))) g_empty) =
    Returns (IPtr k (Some (VStruct [y1'; y2])), None) /\ y2' <> y2.
Proof.
  exists sharedD, shared_mem, (whole 0 alias_in), (SNamed 0), shared_msg. do 7 eexists.
  split; [split; cbn; [lia|split; cbn; lia]|].
  split; [split; cbn; [intros [H|[H|[]]]; discriminate|tauto]|].
  split; [repeat constructor; cbn; lia|].
  split; [vm_compute; reflexivity|].
  split; [vm_compute; reflexivity|].
  split; [vm_compute; reflexivity|].
  split; [vm_compute; reflexivity|]. discriminate.
Qed.

(** A slice the caller kept when it truncated a repeated field. *)
Definition stale_in : bytes := [26; 1; 9]%N.
Definition stale_mem : mem := [stale_in; [4]]%N.
Definition stale_msg : mval :=
  MStruct [MBytes None; MStr empty_slice; MSlice true [] [MBytes (Some (whole 1 [4]%N))]].
Lemma stale_proof : exists D M b k x kept x' M' s',
  allocated M b /\ owned M x /\ apart b x /\
  denote M x = VStruct [VBytes None; VStr []; VSlice true [] [VBytes (Some (content M kept))]] /\
  mUnmarshal (fun n => n) D M b k x g_empty = (Returns (x', M', None), s') /\
  content M' kept <> content M kept.
Proof.
  exists blobD, stale_mem, (whole 0 stale_in), (SNamed 0), stale_msg, (whole 1 [4]%N). do 3 eexists.
  split; [split; cbn; [lia|split; cbn; lia]|].
  split; [split; [repeat constructor; cbn; lia|split; [repeat constructor; cbn; tauto|cbn; tauto]]|].
  split; [split; cbn; [intros [H|[]]; discriminate|tauto]|].
  split; [vm_compute; reflexivity|].
  split; [vm_compute; reflexivity|]. vm_compute. discriminate.
Qed.
