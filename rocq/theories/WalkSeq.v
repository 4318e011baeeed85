(** Calls made one after the other: on any reachable state of the caches, Size,
    Marshal and Unmarshal compute with the codecs of the pure resolution. *)
From Coq Require Import ZifyBool ZifyNat ZifyN String.
From Verif Require Import Base Wire GoType Leaf Codec Tag Walker Api Resolve Typing SpecWire WireFacts DecodeFacts
  GenFacts TypingFacts CodecSim WalkInv WalkSpec WalkFuel.

(** ** Reachable states *)

(** Arguments of the types that are declared. *)
Definition iface_ok (D : decls) (v : iface) : bool :=
  match v with IPtr k _ => user_key D k | _ => true end.

(** States of the caches after any sequence of calls, whatever their outcome. *)
Inductive reachable (D : decls) : gstate -> Prop :=
| reach_init : reachable D g_empty
| reach_size s v : reachable D s -> iface_ok D v = true -> reachable D (snd (Size D v s))
| reach_marshal s v : reachable D s -> iface_ok D v = true -> reachable D (snd (Marshal D v s))
| reach_unmarshal s b v : reachable D s -> iface_ok D v = true -> reachable D (snd (Unmarshal D b v s)).

Section Seq.
Variable D : decls.
Hypothesis HD : supported D = true.

Definition none : own := {| oc := []; oi := [] |}.

(** Everything allocated is complete, except what [o] lists. *)
Definition complete (o : own) (G : gh) (s : gstate) : Prop :=
  (forall n b, nth_error (g_cells s) n = Some b -> b <> BNil \/ In n (oc o)) /\
  (forall i x k, nth_error (g_infos s) i = Some x -> refi G i k -> idone D G x k \/ In i (oi o)).

Lemma complete_step ac o G s o' G' s' : Inv D ac G s -> gstep D ac o G s o' G' s' -> complete o G s -> complete o' G' s'.
Proof.
  intros HI S [A B]. pose proof (gs_keeps _ _ _ _ _ _ _ _ S) as K. split.
  - intros n b H. destruct (gs_fill _ _ _ _ _ _ _ _ S _ _ H) as [F|[F|[F1 F2]]]; auto.
    apply A in F2. destruct F2; [left; assumption|contradiction].
  - intros i x k H R. destruct (gs_done _ _ _ _ _ _ _ _ S _ _ _ H R) as [F|[F|[F1 F2]]]; auto.
    assert (exists k0, refi G i k0) as (k0 & R0).
    { assert (L : i < length (g_infos s)) by (apply nth_error_Some; congruence).
      rewrite <- (inv_li _ _ _ _ HI) in L. apply nth_error_Some in L. unfold refi. destruct (nth_error (gi G) i); [eauto|contradiction]. }
    assert (k0 = k). { pose proof (refi_ext _ _ _ _ (k_ext _ _ _ _ _ K) R0) as R1. unfold refi in *. congruence. } subst k0.
    destruct (B _ _ _ F2 R0) as [F3|F3]; [|contradiction].
    left. eapply idone_ext; [apply K|exact F3].
Qed.

Lemma seq_sound {A} ac (p : prog A) Q : forall o G s, wp D ac p Q o G s -> Inv D ac G s -> complete o G s ->
  match run p s with
  | (Done a, s') => exists o' G', Q a o' G' s' /\ complete o' G' s'
  | (Panicked, _) => False
  | (OutOfFuel, _) => True
  end.
Proof.
  induction p as [a| | |op k IH]; intros o G s H HI HC; cbn in *; auto.
  - exists o, G. auto.
  - destruct (H G s (rely_refl _ _ _ _ _ HI)) as (o2 & G2 & S & O & W). destruct (exec op s) as [r s']. cbn [fst snd] in *.
    eapply IH; [exact W|apply (gs_inv _ _ _ _ _ _ _ _ S)|]. eapply complete_step; eassumption.
Qed.

(** What holds between calls. *)
Definition SInv (s : gstate) : Prop := exists G, Inv D alone G s /\ complete none G s.

Lemma SInv_empty : SInv g_empty.
Proof.
  exists {| gc := []; gi := [] |}. split.
  - split; try reflexivity; try (intros [|n]; discriminate); try (intros k Hk; discriminate Hk); intros ? ? [].
  - split; intros [|n]; discriminate.
Qed.

(** The relation between the heap and the pure layer. *)
Section Complete.
Variables (G : gh) (s : gstate).
Hypothesis HI : Inv D alone G s.
Hypothesis HC : complete none G s.

Lemma look_rel c p : refp G c p -> body_rel (refp G) (refi G) (hlook s c) (plook p).
Proof.
  destruct c as [x|n]; cbn; [intros ->; constructor|]. intros H.
  assert (L : n < length (gc G)) by (apply nth_error_Some; congruence). rewrite (inv_lc _ _ _ _ HI) in L.
  apply nth_error_Some in L. destruct (nth_error (g_cells s) n) as [b|] eqn:E; [|contradiction].
  destruct (inv_cells _ _ _ _ HI _ _ _ E H) as [->|B]; [|exact B].
  destruct HC as [A _]. destruct (A _ _ E) as [F|[]]. contradiction.
Qed.
Lemma iget_rel i k : refi G i k -> info_rel (refp G) (higet s i) (piget D k).
Proof.
  intros H. unfold higet. assert (L : i < length (gi G)) by (apply nth_error_Some; unfold refi in H; congruence).
  rewrite (inv_li _ _ _ _ HI) in L. apply nth_error_Some in L.
  destruct (nth_error (g_infos s) i) as [x|] eqn:E; [|contradiction].
  destruct HC as [_ B]. destruct (B _ _ _ E H) as [[F1 F2]|[]]. split; [exact F1|].
  assert (Eq : i_index (piget D k) = i_fields (piget D k)).
  { unfold piget, pinfo. destruct (pfields 0 (struct_fields D k)); reflexivity. }
  rewrite Eq. exact F2.
Qed.
End Complete.

(** Looking up the info of a declared type. *)
Lemma info_related k s : SInv s -> user_key D k = true ->
  exists i s' G', run (cachedStructInfoOf D (walk_fuel D) k) s = (Done i, s') /\ SInv s' /\ refi G' i k /\
    (forall c p, refp G' c p -> body_sim (refp G') (refi G') (hlook s' c) (plook p)) /\
    (forall i k, refi G' i k -> info_rel (refp G') (higet s' i) (piget D k)).
Proof.
  intros (G & HI & HC) Hk.
  pose proof (cached_spec D HD alone (walk_fuel D) 0 k none G s HI) as W.
  assert (O : own_ok none s) by (split; intros n []).
  specialize (W O (kpre_user D HD k Hk)). assert (F : neark D alone 0 k) by (split; [apply Nat.le_refl|right; reflexivity]). specialize (W F).
  pose proof (seq_sound _ _ _ _ _ _ W HI HC) as S.
  assert (NF : fst (run (cachedStructInfoOf D (walk_fuel D) k) s) <> OutOfFuel).
  { eapply nof_run. apply cached_nof. destruct k; try discriminate; reflexivity. }
  destruct (run (cachedStructInfoOf D (walk_fuel D) k) s) as [[i| |] s']; cbn [fst] in NF; try contradiction.
  destruct S as (o' & G' & (-> & O' & R & Hr & _) & C').
  pose proof (r_inv _ _ _ _ _ _ _ R) as HI'.
  exists i, s', G'. split; [reflexivity|]. split; [exists G'; auto|]. split; [exact Hr|]. split.
  - intros c p Hc. apply bs_rel. exact (look_rel _ _ HI' C' c p Hc).
  - exact (iget_rel _ _ HI' C').
Qed.
Lemma info_pure k s : SInv s -> user_key D k = true ->
  exists i s', run (cachedStructInfoOf D (walk_fuel D) k) s = (Done i, s') /\ SInv s' /\
    (forall x, struct_size (hlook s') (higet s') i x = struct_size plook (piget D) k x) /\
    (forall b x, struct_encode (hlook s') (higet s') i b x = struct_encode plook (piget D) k b x) /\
    (forall f b off x, decs (hlook s') (higet s') D f i b off x = decs plook (piget D) D f k b off x) /\
    map (fun f => (f_idx f, f_meta f)) (i_fields (higet s' i)) = map (fun f => (f_idx f, f_meta f)) (i_fields (piget D k)).
Proof.
  intros H Hk. destruct (info_related k s H Hk) as (i & s' & G' & E & H' & Hr & L & I).
  exists i, s'. split; [exact E|]. split; [exact H'|].
  split; [|split; [|split]]; intros.
  - eapply struct_size_rel; eassumption.
  - eapply struct_encode_rel; eassumption.
  - eapply (proj2 (dec_rel _ _ _ _ D _ _ L I f)). assumption.
  - destruct (I i k Hr) as [FR _]. induction FR as [|a b l l' Hab FR IH]; [reflexivity|]. cbn [map]. rewrite IH. f_equal.
    destruct Hab as (-> & -> & _). reflexivity.
Qed.

Lemma with_info_SInv {A} k s (f : iref -> gstate -> api A) : SInv s -> user_key D k = true -> SInv (snd (with_info D k s f)).
Proof.
  intros H Hk. unfold with_info. destruct (info_pure k s H Hk) as (i & s' & -> & H' & _). exact H'.
Qed.
Lemma size_SInv v s : SInv s -> iface_ok D v = true -> SInv (snd (Size D v s)).
Proof. intros H Hv. destruct v; cbn [Size snd]; auto. apply with_info_SInv; assumption. Qed.
Lemma marshal_SInv v s : SInv s -> iface_ok D v = true -> SInv (snd (Marshal D v s)).
Proof. intros H Hv. destruct v; cbn [Marshal snd]; auto. apply with_info_SInv; assumption. Qed.
Lemma unmarshal_SInv b v s : SInv s -> iface_ok D v = true -> SInv (snd (Unmarshal D b v s)).
Proof.
  intros H Hv. unfold Unmarshal. destruct (zlen b =? 0)%Z; [exact H|].
  destruct v as [| | |k [x|]]; cbn [snd]; auto. apply with_info_SInv; assumption.
Qed.
Lemma reachable_SInv s : reachable D s -> SInv s.
Proof. induction 1; auto using SInv_empty, size_SInv, marshal_SInv, unmarshal_SInv. Qed.

(** ** The three functions *)
Lemma size_pure s k p : SInv s -> user_key D k = true -> exists s', SInv s' /\
  Size D (IPtr k p) s = (api_res match p with None => OK 0%Z | Some x => struct_size plook (piget D) k x end, s').
Proof.
  intros H Hk. destruct (info_pure k s H Hk) as (i & s' & E & H' & A & _). exists s'. split; [assumption|].
  cbn [Size]. unfold with_info. rewrite E. unfold info_size. destruct p; [rewrite A|]; reflexivity.
Qed.
Lemma marshal_pure s k p : SInv s -> user_key D k = true -> exists s', SInv s' /\
  Marshal D (IPtr k p) s = (api_res match p with
    | None => OK (Some [], None)
    | Some x => _ <- struct_size plook (piget D) k x ;; b <- struct_encode plook (piget D) k [] x ;; OK (Some b, None)
    end, s').
Proof.
  intros H Hk. destruct (info_pure k s H Hk) as (i & s' & E & H' & A & B & _). exists s'. split; [assumption|].
  cbn [Marshal]. unfold with_info. rewrite E. unfold info_size, info_encode. destruct p; [rewrite A, B|]; reflexivity.
Qed.

Definition pdecode (k : skey) (b : bytes) (x : val) : lres := ldecs plook (piget D) D (decode_fuel D b) k b x.

Lemma user_key_ok k : user_key D k = true -> key_ok D k.
Proof. destruct k; cbn [user_key key_ok]; [intros H; btrue; assumption|discriminate|auto]. Qed.

Lemma unmarshal_pure s k b x : SInv s -> user_key D k = true -> wts D x k = true -> bytes_okb b = true -> small b ->
  exists s', SInv s' /\
  ((exists x', pdecode k b x = LOk x' /\ wts D x' k = true /\
      Unmarshal D b (IPtr k (Some x)) s = (Returns (IPtr k (Some x'), None), s')) \/
   (exists x' e, pdecode k b x = LErr x' e /\ wts D x' k = true /\
      Unmarshal D b (IPtr k (Some x)) s = (Returns (IPtr k (Some x'), Some e), s'))).
Proof.
  intros H Hk Hx Hb Hs. unfold Unmarshal. destruct (zlen b =? 0)%Z eqn:Ez.
  { assert (b = []) by (destruct b; [reflexivity|unfold zlen in Ez; cbn [length] in Ez; lia]). subst b.
    exists s. split; [assumption|]. left. exists x. split; [|split; [assumption|reflexivity]].
    unfold pdecode, decode_fuel. replace ((decls_depth D + 4) * S (length (@nil N))) with (S (decls_depth D + 3)) by (cbn [length]; lia). reflexivity. }
  destruct (info_pure k s H Hk) as (i & s' & E & H' & _ & _ & C & _). unfold with_info. rewrite E, C.
  exists s'. split; [assumption|].
  assert (HF : decls_fit D = true) by (apply HD_fit; assumption).
  assert (F : 1 + length b * (decls_depth D + 4) <= decode_fuel D b) by (unfold decode_fuel; lia).
  destruct (ldecs_total D HF k b x (decode_fuel D b) (user_key_ok _ Hk) Hx Hb Hs F) as [(x' & L & W)|(x' & e & L & W)].
  - left. exists x'. split; [exact L|]. split; [exact W|].
    pose proof (decs_ldecs plook (piget D) D (decode_fuel D b) k b x Hs) as A. rewrite L in A.
    destruct (decs_total D HF k b x (decode_fuel D b) (user_key_ok _ Hk) Hx Hb Hs F) as (y & n & e & E2 & _ & N).
    rewrite E2 in A |- *. destruct e; [discriminate|]. inversion A; subst y. rewrite (N eq_refl). rewrite Z.ltb_irrefl. reflexivity.
  - right. exists x', e. split; [exact L|]. split; [exact W|].
    pose proof (decs_ldecs plook (piget D) D (decode_fuel D b) k b x Hs) as A. rewrite L in A.
    destruct (decs_total D HF k b x (decode_fuel D b) (user_key_ok _ Hk) Hx Hb Hs F) as (y & n & e' & E2 & _ & N).
    rewrite E2 in A |- *. destruct e'; [|discriminate]. inversion A; subst. reflexivity.
Qed.
End Seq.
