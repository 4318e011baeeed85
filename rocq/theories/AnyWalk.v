(** The walker on declarations of any kind, supported or not: what a walk leaves
    alone, and what the caches and codecs it builds refer to. Used for the
    theorems that hold for all declarations (AnyApi.v). *)
From Coq Require Import ZifyBool ZifyNat ZifyN String.
From Verif Require Import Base Wire GoType Leaf Codec Tag Walker Api Resolve Typing SpecWire WireFacts DecodeFacts
  GenFacts TypingFacts CodecSim WalkInv WalkFuel WalkSeq.

(** ** What is there stays as it is *)
Record ext (s s' : gstate) : Prop := {
  e_lc : length (g_cells s) <= length (g_cells s');
  e_li : length (g_infos s) <= length (g_infos s');
  e_cells : forall n, n < length (g_cells s) -> nth_error (g_cells s') n = nth_error (g_cells s) n;
  e_infos : forall n, n < length (g_infos s) -> nth_error (g_infos s') n = nth_error (g_infos s) n;
  e_cache : forall k i, assoc skey_eq_dec k (g_infoCache s) = Some i -> assoc skey_eq_dec k (g_infoCache s') = Some i;
  e_new : forall k i, In (k, i) (g_infoCache s') -> In (k, i) (g_infoCache s) \/ length (g_infos s) <= i
}.
Lemma ext_refl s : ext s s.
Proof. split; auto. Qed.
Lemma ext_trans a b c : ext a b -> ext b c -> ext a c.
Proof.
  intros [A1 A2 A3 A4 A5 A6] [B1 B2 B3 B4 B5 B6]. split; auto; try lia.
  - intros n H. rewrite B3 by lia. auto.
  - intros n H. rewrite B4 by lia. auto.
  - intros k i H. destruct (B6 k i H) as [H1|H1]; [auto|right; lia].
Qed.

(** ** References stay inside the heap; pointers and slices of codecs get
    shallower. [rk]: how many pointer and slice codecs may follow each other. *)
Definition rk (G : list nat) (c : cref) : nat := match c with CStatic _ => 0 | CCell n => nth n G 0 end.
Definition inr_ (G : list nat) (c : cref) : Prop := match c with CStatic _ => True | CCell n => n < length G end.

Section Any.
Variable D : decls.
Notation DD := (DD D).

(** The fields a struct type has for protobuf: position and tag. *)
Fixpoint listing (idx : nat) (fs : list gofield) : list (nat * fmeta) :=
  match fs with
  | [] => []
  | f :: fs =>
    match gf_exported f, gf_tag f with
    | true, Some tag => (idx, meta_of (tag_wiretag (fst (parseStructTag tag)))) :: listing (S idx) fs
    | _, _ => listing (S idx) fs
    end
  end.
Definition lists (fs : list hfield) (l : list (nat * fmeta)) : Prop := map (fun f => (f_idx f, f_meta f)) fs = l.

Lemma listing_from fs : forall idx j m, In (j, m) (listing idx fs) -> idx <= j.
Proof.
  induction fs as [|f fs IH]; intros idx j m H; [destruct H|]. cbn [listing] in H.
  destruct (gf_exported f); [destruct (gf_tag f)|]; try (apply IH in H; lia). destruct H as [H|H]; [inversion H; lia|apply IH in H; lia].
Qed.
Lemma listing_nodup fs : forall idx, NoDup (map fst (listing idx fs)).
Proof.
  induction fs as [|f fs IH]; intros idx; [constructor|]. cbn [listing]. destruct (gf_exported f); [destruct (gf_tag f)|]; try apply IH.
  cbn [map fst]. constructor; [|apply IH]. intros H. apply in_map_iff in H. destruct H as ([j m] & E & H). apply listing_from in H. cbn [fst] in E. lia.
Qed.
Lemma lists_nodup fs idx gs : lists fs (listing idx gs) -> NoDup (map f_idx fs).
Proof.
  intros H. unfold lists in H. replace (map f_idx fs) with (map fst (map (fun f => (f_idx f, f_meta f)) fs)) by (rewrite map_map; reflexivity).
  rewrite H. apply listing_nodup.
Qed.

Definition field_in (G : list nat) (f : hfield) : Prop := inr_ G (f_codec f) /\ rk G (f_codec f) <= DD.
Definition body_in (G : list nat) (s : gstate) (r : nat) (b : hbody) : Prop :=
  match b with
  | BNil => True
  | BStatic _ => True
  | BPtr _ c | BSlice _ c => inr_ G c /\ rk G c < r
  | BStruct _ i => i < length (g_infos s)
  | BMap _ kf vf e i => inr_ G (f_codec kf) /\ inr_ G (f_codec vf) /\ i < length (g_infos s) /\ (exists k v kt vt, e = SEntry k v kt vt)
  end.
Definition info_in (G : list nat) (x : hinfo) : Prop :=
  Forall (field_in G) (i_fields x) /\ Forall (field_in G) (i_index x) /\ NoDup (map f_idx (i_fields x)).
Record AI (G : list nat) (s : gstate) : Prop := {
  a_len : length G = length (g_cells s);
  a_cells : forall n b, nth_error (g_cells s) n = Some b -> body_in G s (nth n G 0) b;
  a_infos : forall i x, nth_error (g_infos s) i = Some x -> info_in G x;
  a_info : forall k i, In (k, i) (g_infoCache s) -> i < length (g_infos s) /\
    lists (i_fields (higet s i)) (listing 0 (struct_fields D k)) /\ i_index (higet s i) = i_fields (higet s i);
  a_codec : forall t c, In (t, c) (g_codecCache s) -> inr_ G c /\ rk G c <= 1;
  a_slice : forall c d, In (c, d) (g_sliceMap s) -> inr_ G c /\ inr_ G d /\ rk G d <= S (rk G c)
}.
Definition WI (G : list nat) (s : gstate) (w : walker) : Prop :=
  (forall t c, In (t, c) (w_codecs w) -> inr_ G c /\ rk G c <= type_depth t) /\
  (forall k i, In (k, i) (w_infos w) -> i < length (g_infos s)).

Lemma AI_empty : AI [] g_empty.
Proof. split; try reflexivity; try (intros [|n]; discriminate); intros ? ? []. Qed.

(** Growing the ghost. *)
Definition gext (G G' : list nat) : Prop := exists l, G' = G ++ l.
Lemma gext_refl G : gext G G.
Proof. exists []. symmetry. apply app_nil_r. Qed.
Lemma gext_trans a b c : gext a b -> gext b c -> gext a c.
Proof. intros [l ->] [l' ->]. exists (l ++ l'). symmetry. apply app_assoc. Qed.
Lemma inr_ext G G' c : gext G G' -> inr_ G c -> inr_ G' c.
Proof. intros [l ->]. destruct c; cbn; [auto|]. rewrite app_length. lia. Qed.
Lemma rk_ext G G' c : gext G G' -> inr_ G c -> rk G' c = rk G c.
Proof. intros [l ->]. destruct c; cbn; [auto|]. intros. apply app_nth1. assumption. Qed.
Lemma nth_ext_ G G' n : gext G G' -> n < length G -> nth n G' 0 = nth n G 0.
Proof. intros [l ->] H. apply app_nth1. assumption. Qed.
Lemma field_in_ext G G' f : gext G G' -> field_in G f -> field_in G' f.
Proof. intros H [A B]. split; [eapply inr_ext; eassumption|]. rewrite (rk_ext G G') by assumption. exact B. Qed.
Lemma info_in_ext G G' x : gext G G' -> info_in G x -> info_in G' x.
Proof. intros H (A & B & C). split; [|split; [|exact C]]; eapply Forall_impl; try eassumption; intros f; apply field_in_ext; assumption. Qed.
Lemma body_in_ext G G' s s' r b : gext G G' -> length (g_infos s) <= length (g_infos s') -> body_in G s r b -> body_in G' s' r b.
Proof.
  intros H L. destruct b; cbn; auto.
  - intros [A B]. split; [eapply inr_ext; eassumption|]. rewrite (rk_ext G G') by assumption. exact B.
  - intros [A B]. split; [eapply inr_ext; eassumption|]. rewrite (rk_ext G G') by assumption. exact B.
  - lia.
  - intros (A & B & C & E). split; [eapply inr_ext; eassumption|]. split; [eapply inr_ext; eassumption|]. split; [lia|exact E].
Qed.
Lemma WI_ext G G' s s' w : gext G G' -> length (g_infos s) <= length (g_infos s') -> WI G s w -> WI G' s' w.
Proof.
  intros H L [A B]. split.
  - intros t c Hc. destruct (A t c Hc) as [A1 A2]. split; [eapply inr_ext; eassumption|]. rewrite (rk_ext G G') by assumption. exact A2.
  - intros k i Hi. specialize (B k i Hi). lia.
Qed.
Lemma assoc_In {K V} (dec : forall a b : K, {a = b} + {a <> b}) k (l : list (K * V)) v : assoc dec k l = Some v -> In (k, v) l.
Proof.
  induction l as [|[k' v'] l IH]; cbn; [discriminate|]. destruct (dec k k') as [->|]; [|auto]. intros H; inversion H. auto.
Qed.

(** ** Triples *)
(** Started in [s], [p] leaves the heap of [s] alone, keeps the invariant, and
    what it returns satisfies [Q]. [s0] is an earlier state whose objects stay
    untouched although [p] may write to objects allocated since. *)
Definition tr {A} (s0 : gstate) (p : prog A) (G : list nat) (s : gstate) (Q : A -> list nat -> gstate -> Prop) : Prop :=
  match run p s with
  | (Done a, s') => exists G', gext G G' /\ AI G' s' /\ ext s0 s' /\ length (g_infos s) <= length (g_infos s') /\ Q a G' s'
  | (_, s') => exists G', AI G' s' /\ ext s0 s'
  end.

Lemma run_bind {A B} (p : prog A) (k : A -> prog B) : forall s,
  run (pbind p k) s = match run p s with (Done a, s') => run (k a) s' | (Panicked, s') => (Panicked, s') | (OutOfFuel, s') => (OutOfFuel, s') end.
Proof.
  induction p as [a| | |o c IH]; intros s; try reflexivity. cbn [pbind run]. destruct (exec o s) as [r s']. apply IH.
Qed.
Lemma tr_bind {A B} s0 (p : prog A) (k : A -> prog B) G s Q1 Q : tr s0 p G s Q1 ->
  (forall a G' s', gext G G' -> AI G' s' -> ext s0 s' -> length (g_infos s) <= length (g_infos s') -> Q1 a G' s' -> tr s0 (k a) G' s' Q) ->
  tr s0 (pbind p k) G s Q.
Proof.
  unfold tr. rewrite run_bind. destruct (run p s) as [[a| |] s1]; auto. intros (G1 & X1 & A1 & E1 & L1 & H1) K.
  specialize (K a G1 s1 X1 A1 E1 L1 H1). destruct (run (k a) s1) as [[b| |] s2]; auto.
  destruct K as (G2 & X2 & A2 & E2 & L2 & H2). exists G2. split; [eapply gext_trans; eassumption|]. split; [assumption|]. split; [assumption|]. split; [lia|assumption].
Qed.
Lemma tr_ret {A} s0 (a : A) G s (Q : A -> list nat -> gstate -> Prop) : AI G s -> ext s0 s -> Q a G s -> tr s0 (Ret a) G s Q.
Proof. intros. exists G. auto 8 using gext_refl. Qed.
Lemma tr_panic {A} s0 G s (Q : A -> list nat -> gstate -> Prop) : AI G s -> ext s0 s -> tr s0 Panic G s Q.
Proof. intros. exists G. auto. Qed.
Lemma tr_nofuel {A} s0 G s (Q : A -> list nat -> gstate -> Prop) : AI G s -> ext s0 s -> tr s0 NoFuel G s Q.
Proof. intros. exists G. auto. Qed.
Lemma tr_conseq {A} s0 (p : prog A) G s (Q1 Q2 : A -> list nat -> gstate -> Prop) : tr s0 p G s Q1 ->
  (forall a G' s', gext G G' -> AI G' s' -> length (g_infos s) <= length (g_infos s') -> Q1 a G' s' -> Q2 a G' s') -> tr s0 p G s Q2.
Proof.
  unfold tr. intros H K. destruct (run p s) as [[a| |] s1]; auto. destruct H as (G1 & X1 & A1 & E1 & L1 & H1). exists G1. auto 8.
Qed.
Lemma tr_call {A B} s0 (p : prog A) (k : A -> prog B) G s Q1 Q : tr s p G s Q1 -> ext s0 s ->
  (forall a G' s', gext G G' -> AI G' s' -> ext s0 s' -> ext s s' -> Q1 a G' s' -> tr s0 (k a) G' s' Q) ->
  tr s0 (pbind p k) G s Q.
Proof.
  unfold tr. rewrite run_bind. intros H E K. destruct (run p s) as [[a| |] s1].
  - destruct H as (G1 & X1 & A1 & E1 & L1 & H1).
    specialize (K a G1 s1 X1 A1 (ext_trans _ _ _ E E1) E1 H1). destruct (run (k a) s1) as [[b| |] s2]; auto.
    destruct K as (G2 & X2 & A2 & E2 & L2 & H2). exists G2. split; [eapply gext_trans; eassumption|]. split; [assumption|]. split; [assumption|]. split; [lia|assumption].
  - destruct H as (G1 & A1 & E1). exists G1. split; [assumption|eapply ext_trans; eassumption].
  - destruct H as (G1 & A1 & E1). exists G1. split; [assumption|eapply ext_trans; eassumption].
Qed.
(** A procedure that touches nothing of its starting state. *)
Lemma tr_sub {A} s0 (p : prog A) G s Q : tr s p G s Q -> ext s0 s -> tr s0 p G s Q.
Proof.
  unfold tr. intros H E. destruct (run p s) as [[a| |] s1].
  - destruct H as (G1 & X1 & A1 & E1 & L1 & H1). exists G1. split; [assumption|]. split; [assumption|]. split; [eapply ext_trans; eassumption|auto].
  - destruct H as (G1 & A1 & E1). exists G1. split; [assumption|eapply ext_trans; eassumption].
  - destruct H as (G1 & A1 & E1). exists G1. split; [assumption|eapply ext_trans; eassumption].
Qed.

(** Reading a cache. *)
Lemma tr_do {A} s0 o (k : resp o -> prog A) G s G1 Q : gext G G1 -> AI G1 (snd (exec o s)) -> ext s0 (snd (exec o s)) ->
  length (g_infos s) <= length (g_infos (snd (exec o s))) ->
  tr s0 (k (fst (exec o s))) G1 (snd (exec o s)) Q -> tr s0 (pbind (do_ o) k) G s Q.
Proof.
  intros X A1 E L H. unfold tr in *. cbn [pbind do_ run]. destruct (exec o s) as [r s1]. cbn [fst snd] in *.
  destruct (run (k r) s1) as [[b| |] s2]; auto.
  destruct H as (G2 & X2 & A2 & E2 & L2 & H2). exists G2. split; [eapply gext_trans; eassumption|]. split; [assumption|]. split; [assumption|]. split; [lia|assumption].
Qed.

Lemma higet_in s i x : nth_error (g_infos s) i = Some x -> higet s i = x.
Proof. intros H. unfold higet. rewrite H. reflexivity. Qed.

Lemma tr_newCell {A} s0 r (k : cref -> prog A) G s Q : AI G s -> ext s0 s ->
  (let c := CCell (length (g_cells s)) in let s1 := g_with_cells s (g_cells s ++ [BNil]) in
   AI (G ++ [r]) s1 -> ext s0 s1 -> ext s s1 -> inr_ (G ++ [r]) c -> rk (G ++ [r]) c = r -> gext G (G ++ [r]) ->
   tr s0 (k c) (G ++ [r]) s1 Q) -> tr s0 (pbind newCell k) G s Q.
Proof.
  intros HA HE H. cbv zeta in H.
  assert (X : gext G (G ++ [r])) by (exists [r]; reflexivity).
  assert (E : ext s (g_with_cells s (g_cells s ++ [BNil]))).
  { split; cbn; auto. - rewrite app_length. lia. - intros n Hn. apply nth_error_app1. assumption. }
  assert (A1 : AI (G ++ [r]) (g_with_cells s (g_cells s ++ [BNil]))).
  { pose proof (a_len _ _ HA) as L. destruct HA as [_ B C I Cc Cs]. split; cbn.
    - rewrite !app_length. cbn. lia.
    - intros n b Hn. destruct (Nat.lt_ge_cases n (length (g_cells s))) as [Hl|Hl].
      + rewrite nth_error_app1 in Hn by assumption. rewrite (nth_ext_ G) by (assumption || lia). eapply body_in_ext; [exact X| |apply B; exact Hn]. auto.
      + rewrite nth_error_app2 in Hn by assumption. destruct (n - length (g_cells s)) as [|m]; [inversion Hn; exact Logic.I|destruct m; discriminate].
    - intros i x Hi. eapply info_in_ext; [exact X|]. eauto.
    - exact I.
    - intros t c Hc. destruct (Cc t c Hc). split; [eapply inr_ext; eassumption|]. rewrite (rk_ext G) by assumption. assumption.
    - intros c d Hc. destruct (Cs c d Hc) as (? & ? & ?). split; [eapply inr_ext; eassumption|]. split; [eapply inr_ext; eassumption|].
      rewrite !(rk_ext G (G ++ [r])) by assumption. assumption. }
  unfold newCell. eapply (tr_do s0 NewCell k G s (G ++ [r])); cbn [exec snd fst]; auto.
  - eapply ext_trans; eassumption.
  - apply H; auto.
    + eapply ext_trans; eassumption.
    + cbn. rewrite app_length. cbn. pose proof (a_len _ _ HA). lia.
    + cbn. rewrite <- (a_len _ _ HA). rewrite app_nth2 by lia. rewrite Nat.sub_diag. reflexivity.
Qed.
Lemma nth_upd {A} (l : list A) i j x : nth_error (upd l i x) j = if Nat.eqb i j then (if Nat.ltb i (length l) then Some x else None) else nth_error l j.
Proof.
  unfold upd. revert i j. induction l as [|y l IH]; intros [|i] [|j]; cbn; try reflexivity.
  - destruct (Nat.eqb i j); reflexivity.
  - rewrite IH. reflexivity.
Qed.
Lemma upd_length {A} (l : list A) i x : length (upd l i x) = length l.
Proof. unfold upd. revert i. induction l as [|y l IH]; intros [|i]; cbn; auto. Qed.

Lemma tr_fill {A} s0 n b (k : unit -> prog A) G s Q : AI G s -> ext s0 s -> length (g_cells s0) <= n -> body_in G s (nth n G 0) b ->
  (let s1 := g_with_cells s (upd (g_cells s) n b) in AI G s1 -> ext s0 s1 -> tr s0 (k tt) G s1 Q) ->
  tr s0 (pbind (fill (CCell n) b) k) G s Q.
Proof.
  intros HA HE Hn Hb H. cbv zeta in H.
  assert (E : ext s0 (g_with_cells s (upd (g_cells s) n b))).
  { destruct HE as [E1 E2 E3 E4 E5 E6]. split; cbn; auto. - rewrite upd_length. assumption.
    - intros m Hm. rewrite nth_upd. replace (n =? m) with false by lia. auto. }
  assert (A1 : AI G (g_with_cells s (upd (g_cells s) n b))).
  { destruct HA as [L B C I Cc Cs]. split; cbn; auto.
    - rewrite upd_length. assumption.
    - intros m b' Hm. rewrite nth_upd in Hm. destruct (Nat.eqb_spec n m) as [->|].
      + destruct (m <? length (g_cells s)); [inversion Hm; subst; exact Hb|discriminate].
      + apply (B m b' Hm). }
  unfold fill. eapply (tr_do s0 (Fill (CCell n) b) k G s G); cbn [exec snd fst]; auto using gext_refl.
Qed.

(** Writing to an info that no cache holds yet. *)
Definition unpub (s : gstate) (i : nat) : Prop := forall k, ~ In (k, i) (g_infoCache s).

Lemma tr_newInfo {A} s0 (k : iref -> prog A) G s Q : AI G s -> ext s0 s ->
  (let i := length (g_infos s) in let s1 := g_with_infos s (g_infos s ++ [i_empty]) in
   AI G s1 -> ext s0 s1 -> ext s s1 -> i < length (g_infos s1) -> tr s0 (k i) G s1 Q) -> tr s0 (pbind newInfo k) G s Q.
Proof.
  intros HA HE H. cbv zeta in H.
  assert (E : ext s (g_with_infos s (g_infos s ++ [i_empty]))).
  { split; cbn; auto. - rewrite app_length. lia. - intros n Hn. apply nth_error_app1. assumption. }
  assert (A1 : AI G (g_with_infos s (g_infos s ++ [i_empty]))).
  { destruct HA as [L B C I Cc Cs]. split; cbn; auto.
    - intros n b Hn. eapply body_in_ext; [apply gext_refl| |apply (B n b Hn)]. cbn. rewrite app_length. lia.
    - intros i x Hi. destruct (Nat.lt_ge_cases i (length (g_infos s))) as [Hl|Hl].
      + rewrite nth_error_app1 in Hi by assumption. eauto.
      + rewrite nth_error_app2 in Hi by assumption. destruct (i - length (g_infos s)) as [|m]; [inversion Hi; repeat split; constructor|destruct m; discriminate].
    - intros k0 i Hi. destruct (I k0 i Hi) as (I1 & I2). split; [rewrite app_length; lia|].
      unfold higet in *. cbn. rewrite nth_error_app1 by assumption. exact I2. }
  unfold newInfo. eapply (tr_do s0 NewInfo k G s G); cbn [exec snd fst]; auto using gext_refl.
  - eapply ext_trans; eassumption.
  - cbn. rewrite app_length. lia.
  - apply H; auto; [eapply ext_trans; eassumption|cbn; rewrite app_length; cbn; lia].
Qed.

(** The last three steps of walker.go:263-276 at once. *)
Lemma tr_publish {A} s0 k0 i fs (k : unit -> prog A) G s Q : AI G s -> ext s0 s -> length (g_infos s0) <= i -> i < length (g_infos s) ->
  assoc skey_eq_dec k0 (g_infoCache s0) = None -> unpub s i ->
  Forall (field_in G) fs -> lists fs (listing 0 (struct_fields D k0)) ->
  (forall s1, AI G s1 -> ext s0 s1 -> length (g_infos s1) = length (g_infos s) ->
     assoc skey_eq_dec k0 (g_infoCache s1) = Some i -> tr s0 (k tt) G s1 Q) ->
  tr s0 (let* _ := setFields i fs in let* _ := setIndex i fs in let* r := infoStore k0 i in k r) G s Q.
Proof.
  intros HA HE Hi Hl Hk Hu Hf Hls H.
  assert (Hl' := Hl). apply nth_error_Some in Hl'. destruct (nth_error (g_infos s) i) as [x|] eqn:Ex; [|contradiction]. clear Hl'.
  set (y := {| i_fields := fs; i_index := fs |}).
  set (s1 := g_with_infoCache (g_with_infos s (upd (upd (g_infos s) i {| i_fields := fs; i_index := i_index x |}) i y)) ((k0, i) :: g_infoCache s)).
  assert (Ln : length (g_infos s1) = length (g_infos s)) by (cbn; rewrite !upd_length; reflexivity).
  assert (Nth : forall j, nth_error (g_infos s1) j = if Nat.eqb i j then Some y else nth_error (g_infos s) j).
  { intros j. cbn. rewrite !nth_upd, upd_length. replace (i <? length (g_infos s)) with true by lia. destruct (i =? j); reflexivity. }
  assert (E : ext s0 s1).
  { destruct HE as [E1 E2 E3 E4 E5 E6]. split; auto.
    - rewrite Ln. assumption.
    - intros m Hm. rewrite Nth. replace (i =? m) with false by lia. auto.
    - intros k1 i1 H1. cbn [s1 g_with_infoCache g_infoCache assoc]. destruct (skey_eq_dec k1 k0) as [->|]; [congruence|]. apply E5. exact H1.
    - intros k1 i1 [H1|H1]; [inversion H1; subst; auto|auto]. }
  assert (A1 : AI G s1).
  { destruct HA as [L B C I Cc Cs]. split; auto.
    - intros n b Hn. eapply body_in_ext; [apply gext_refl| |apply (B n b Hn)]. rewrite Ln. auto.
    - intros j z Hj. rewrite Nth in Hj. destruct (i =? j); [inversion Hj; subst; split; [exact Hf|split; [exact Hf|eapply lists_nodup; exact Hls]]|eauto].
    - intros k1 j [Hj|Hj].
      + inversion Hj; subst k1 j. split; [rewrite Ln; exact Hl|]. unfold higet. rewrite Nth, Nat.eqb_refl. cbn. split; [exact Hls|reflexivity].
      + destruct (Nat.eqb_spec i j) as [->|Hne]; [exfalso; exact (Hu k1 Hj)|]. destruct (I k1 j Hj) as (I1 & I2). split; [rewrite Ln; exact I1|].
        unfold higet in *. rewrite Nth. replace (i =? j) with false by lia. exact I2. }
  assert (Ea : assoc skey_eq_dec k0 (g_infoCache s1) = Some i).
  { cbn [s1 g_with_infoCache g_infoCache assoc]. destruct (skey_eq_dec k0 k0); [reflexivity|contradiction]. }
  specialize (H s1 A1 E Ln Ea).
  unfold tr in *. unfold setFields, setIndex, infoStore. cbn [pbind do_ run exec]. rewrite Ex.
  assert (Nth2 : nth_error (g_infos (g_with_infos s (upd (g_infos s) i {| i_fields := fs; i_index := i_index x |}))) i = Some {| i_fields := fs; i_index := i_index x |}).
  { cbn. rewrite nth_upd, Nat.eqb_refl. replace (i <? length (g_infos s)) with true by lia. reflexivity. }
  rewrite Nth2. cbn [i_fields i_index].
  change (run (k tt) _) with (run (k tt) s1). destruct (run (k tt) s1) as [[b| |] s2]; auto.
  destruct H as (G2 & X2 & A2 & E2 & L2 & H2). exists G2. split; [assumption|]. split; [assumption|]. split; [assumption|]. split; [lia|assumption].
Qed.

Lemma tr_infoLoad {A} s0 k0 (k : option iref -> prog A) G s Q : AI G s -> ext s0 s ->
  tr s0 (k (assoc skey_eq_dec k0 (g_infoCache s))) G s Q -> tr s0 (pbind (infoLoad k0) k) G s Q.
Proof. intros A1 E H. unfold infoLoad. eapply (tr_do s0 (InfoLoad k0) k G s G); cbn [exec snd fst]; auto using gext_refl. Qed.
Lemma tr_codecLoad {A} s0 t (k : option cref -> prog A) G s Q : AI G s -> ext s0 s ->
  tr s0 (k (assoc gotype_eq_dec t (g_codecCache s))) G s Q -> tr s0 (pbind (codecLoad t) k) G s Q.
Proof. intros A1 E H. unfold codecLoad. eapply (tr_do s0 (CodecLoad t) k G s G); cbn [exec snd fst]; auto using gext_refl. Qed.
Lemma tr_sliceLoad {A} s0 c (k : option cref -> prog A) G s Q : AI G s -> ext s0 s ->
  tr s0 (k (assoc cref_eq_dec c (g_sliceMap s))) G s Q -> tr s0 (pbind (sliceLoad c) k) G s Q.
Proof. intros A1 E H. unfold sliceLoad. eapply (tr_do s0 (SliceLoad c) k G s G); cbn [exec snd fst]; auto using gext_refl. Qed.

Lemma tr_codecLoadOrStore {A} s0 t c (k : cref -> prog A) G s Q : AI G s -> ext s0 s -> inr_ G c -> rk G c <= 1 ->
  (forall d s1, AI G s1 -> ext s0 s1 -> inr_ G d -> rk G d <= 1 -> g_infos s1 = g_infos s -> tr s0 (k d) G s1 Q) ->
  tr s0 (pbind (codecLoadOrStore t c) k) G s Q.
Proof.
  intros A1 E I R H. unfold codecLoadOrStore.
  assert (A2 : AI G (g_with_codecCache s ((t, c) :: g_codecCache s))).
  { destruct A1 as [L B C I1 Cc Cs]. split; cbn; auto. intros t0 c0 [Hc|Hc]; [inversion Hc; subst; auto|eauto]. }
  assert (E2 : ext s0 (g_with_codecCache s ((t, c) :: g_codecCache s))) by (destruct E; split; assumption).
  eapply (tr_do s0 (CodecLoadOrStore t c) k G s G); cbn [exec]; destruct (assoc gotype_eq_dec t (g_codecCache s)) as [d|] eqn:Ea; cbn [fst snd]; auto using gext_refl.
  apply assoc_In in Ea. destruct (a_codec _ _ A1 _ _ Ea). auto.
Qed.
Lemma tr_sliceLoadOrStore {A} s0 c d (k : cref -> prog A) G s Q : AI G s -> ext s0 s -> inr_ G c -> inr_ G d -> rk G d <= S (rk G c) ->
  (forall d s1, AI G s1 -> ext s0 s1 -> inr_ G d -> rk G d <= S (rk G c) -> g_infos s1 = g_infos s -> tr s0 (k d) G s1 Q) ->
  tr s0 (pbind (sliceLoadOrStore c d) k) G s Q.
Proof.
  intros A1 E I1 I2 R H. unfold sliceLoadOrStore.
  assert (A2 : AI G (g_with_sliceMap s ((c, d) :: g_sliceMap s))).
  { destruct A1 as [L B C J1 Cc Cs]. split; cbn; auto. intros t0 c0 [Hc|Hc]; [inversion Hc; subst; auto|eauto]. }
  assert (E2 : ext s0 (g_with_sliceMap s ((c, d) :: g_sliceMap s))) by (destruct E; split; assumption).
  eapply (tr_do s0 (SliceLoadOrStore c d) k G s G); cbn [exec]; destruct (assoc cref_eq_dec c (g_sliceMap s)) as [d0|] eqn:Ea; cbn [fst snd]; auto using gext_refl.
  apply assoc_In in Ea. destruct (a_slice _ _ A1 _ _ Ea) as (? & ? & ?). auto.
Qed.

(** ** The walker *)
Definition cpost (t : gotype) : cref * walker -> list nat -> gstate -> Prop :=
  fun '(c, w) G s => inr_ G c /\ rk G c <= type_depth t /\ WI G s w.
Lemma WI_get G s w t c : WI G s w -> w_get w t = Some c -> inr_ G c /\ rk G c <= type_depth t.
Proof. intros [H _] E. apply assoc_In in E. auto. Qed.
Lemma WI_set G s w t c : WI G s w -> inr_ G c -> rk G c <= type_depth t -> WI G s (w_set w t c).
Proof. intros [A B] I R. split; [|exact B]. intros t0 c0 [H|H]; [inversion H; subst; auto|auto]. Qed.
Lemma WI_iset G s w k i : WI G s w -> i < length (g_infos s) -> WI G s (w_iset w k i).
Proof. intros [A B] L. split; [exact A|]. intros k0 i0 [H|H]; [inversion H; subst; auto|eauto]. Qed.
Lemma WI_same G s s' w : WI G s w -> g_infos s' = g_infos s -> WI G s' w.
Proof. intros [A B] E. split; [exact A|]. rewrite E. exact B. Qed.

Lemma slice_tr t c w G s : AI G s -> WI G s w -> inr_ G c -> S (rk G c) <= type_depth t ->
  tr s (sliceCodecOf t c w) G s (cpost t).
Proof.
  intros HA HW Hi Hr. unfold sliceCodecOf. apply tr_sliceLoad; [assumption|apply ext_refl|].
  destruct (assoc cref_eq_dec c (g_sliceMap s)) as [d|] eqn:E.
  { apply tr_ret; [assumption|apply ext_refl|]. apply assoc_In in E. destruct (a_slice _ _ HA _ _ E) as (_ & A & B).
    split; [exact A|]. split; [lia|exact HW]. }
  destruct (w_get w t) as [d|] eqn:Ew.
  { apply tr_ret; [assumption|apply ext_refl|]. destruct (WI_get _ _ _ _ _ HW Ew). split; [assumption|]. split; [assumption|exact HW]. }
  apply tr_newCell with (r := S (rk G c)); [assumption|apply ext_refl|]. cbv zeta. intros A1 E1 _ I1 R1 X1.
  assert (Hi' : inr_ (G ++ [S (rk G c)]) c) by (eapply inr_ext; eassumption).
  assert (Hr' : rk (G ++ [S (rk G c)]) c = rk G c) by (apply rk_ext; assumption).
  apply tr_fill; [assumption|assumption|lia| |].
  { cbn [body_in]. split; [exact Hi'|]. cbn [rk] in R1. rewrite R1, Hr'. lia. }
  cbv zeta. intros A2 E2. apply tr_sliceLoadOrStore; [assumption|assumption|exact Hi'|exact I1|rewrite R1, Hr'; lia|].
  intros d s3 A3 E3 I3 R3 G3. apply tr_ret; [assumption|assumption|]. split; [exact I3|]. split; [rewrite Hr' in R3; lia|].
  apply WI_set; [|exact I1|rewrite R1; exact Hr]. eapply WI_ext; [exact X1| |exact HW]. rewrite G3. cbn. auto.
Qed.

Lemma elem_depth t : match t with TSlice _ | TPtr _ => True | _ => False end -> S (type_depth (elem_of t)) = type_depth t.
Proof. destruct t; cbn; tauto. Qed.

Definition shallow (k : skey) : Prop := match k with SEntry _ v _ _ => type_depth v <= DD | _ => True end.
Lemma fields_shallow k f : shallow k -> In f (struct_fields D k) -> gf_exported f = true -> type_depth (gf_type f) <= DD.
Proof.
  intros Hk Hf He. destruct k as [sid|key v kt vt|o].
  - cbn [struct_fields] in Hf. destruct (nth_error D sid) eqn:E; [|destruct Hf]. eapply decls_depth_in; eassumption.
  - destruct Hf as [<-|[<-|[]]]; cbn [gf_type type_depth]; [unfold WalkFuel.DD; lia|exact Hk].
  - destruct Hf as [<-|[<-|[]]]; discriminate.
Qed.

Lemma walk_tr fuel :
  (forall w t zz rq G s, AI G s -> WI G s w -> tr s (w_codec D fuel w t zz rq) G s (cpost t)) /\
  (forall w t k G s, shallow k -> AI G s -> WI G s w -> tr s (w_structCodec D fuel w t k) G s (cpost t)) /\
  (forall w k G s, shallow k -> AI G s -> WI G s w ->
     tr s (w_structInfo D fuel w k) G s (fun '(i, w') G' s' => (i < length (g_infos s') /\
       (assoc skey_eq_dec k (g_infoCache s') = Some i \/ w_iget w k = Some i)) /\ WI G' s' w')) /\
  (forall w idx fs G s, (forall f, In f fs -> gf_exported f = true -> type_depth (gf_type f) <= DD) -> AI G s -> WI G s w ->
     tr s (w_fields D fuel w idx fs) G s (fun '(l, w') G' s' => (Forall (field_in G') l /\ lists l (listing idx fs)) /\ WI G' s' w')) /\
  (forall w t f G s, type_depth (gf_type f) <= DD -> AI G s -> WI G s w -> tr s (w_field D fuel w t f) G s (cpost (gf_type f))) /\
  (forall w key val tag kf vf G s, type_depth val <= DD -> inr_ G (f_codec kf) -> inr_ G (f_codec vf) -> AI G s -> WI G s w ->
     tr s (w_mapCodec D fuel w key val tag kf vf) G s (cpost (TMap key val))).
Proof.
  induction fuel as [|fuel (IHc & IHs & IHi & IHfs & IHf & IHm)].
  { repeat match goal with |- _ /\ _ => split end; intros; apply tr_nofuel; auto using ext_refl. }
  repeat match goal with |- _ /\ _ => split end.
  - intros w t zz rq G s HA HW. cbn [w_codec]. destruct (w_get w t) as [c|] eqn:E.
    { apply tr_ret; [assumption|apply ext_refl|]. destruct (WI_get _ _ _ _ _ HW E). split; [assumption|]. auto. }
    assert (Hst : forall x, tr s (Ret (CStatic x, w)) G s (cpost t)).
    { intros x. apply tr_ret; [assumption|apply ext_refl|]. cbn [cpost inr_ rk]. split; [exact Logic.I|]. split; [lia|exact HW]. }
    assert (Hs : forall k, struct_ptr t = Some k -> tr s (w_structCodec D fuel w t k) G s (cpost t)).
    { intros k Hk. apply IHs; auto. destruct t as [| | | | |[]| |]; try discriminate; inversion Hk; exact Logic.I. }
    destruct t as [k| |k|e|k e|e|sid|]; try (apply tr_panic; [assumption|apply ext_refl]); try apply Hst.
    + destruct (struct_ptr (TPtr e)) as [k|]; [apply Hs; reflexivity|].
      apply tr_newCell with (r := type_depth (TPtr e)); [assumption|apply ext_refl|]. cbv zeta. intros A1 E1 _ I1 R1 X1.
      eapply tr_call; [apply IHc; [exact A1|apply WI_set; [|exact I1|rewrite R1; auto]]|exact E1|].
      { eapply WI_ext; [exact X1| |exact HW]. cbn. auto. }
      intros [c' w'] G2 s2 X2 A2 E2 E2' (I2 & R2 & W2).
      assert (I1' := inr_ext _ _ _ X2 I1). assert (R1' : rk G2 (CCell (length (g_cells s))) = type_depth (TPtr e)).
      { rewrite (rk_ext _ _ _ X2 I1). exact R1. }
      apply tr_fill; [assumption|assumption|auto| |].
      { cbn [body_in]. split; [exact I2|]. cbn [rk] in R1'. rewrite R1'. cbn [type_depth elem_of] in *. lia. }
      cbv zeta. intros A3 E3. apply tr_ret; [assumption|assumption|]. split; [exact I1'|]. split; [rewrite R1'; auto|].
      eapply WI_same; [exact W2|reflexivity].
    + apply Hs. reflexivity.
  - intros w t k G s Hk HA HW. cbn [w_structCodec]. pose proof (type_depth_pos t) as Ht. apply tr_codecLoad; [assumption|apply ext_refl|].
    destruct (assoc gotype_eq_dec t (g_codecCache s)) as [c|] eqn:E.
    { apply tr_ret; [assumption|apply ext_refl|]. apply assoc_In in E. destruct (a_codec _ _ HA _ _ E). split; [assumption|]. split; [lia|assumption]. }
    destruct (w_get w t) as [c|] eqn:Ew.
    { apply tr_ret; [assumption|apply ext_refl|]. destruct (WI_get _ _ _ _ _ HW Ew). split; [assumption|]. auto. }
    apply tr_newCell with (r := 1); [assumption|apply ext_refl|]. cbv zeta. intros A1 E1 _ I1 R1 X1.
    eapply tr_call; [apply IHi; [exact Hk|exact A1|apply WI_set; [|exact I1|rewrite R1; auto]]|exact E1|].
    { eapply WI_ext; [exact X1| |exact HW]. cbn. auto. }
    intros [i w'] G2 s2 X2 A2 E2 E2' ((I2 & _) & W2).
    assert (I1' := inr_ext _ _ _ X2 I1). assert (R1' : rk G2 (CCell (length (g_cells s))) = 1) by (rewrite (rk_ext _ _ _ X2 I1); exact R1).
    apply tr_fill; [assumption|assumption|auto|exact I2|]. cbv zeta. intros A3 E3.
    apply tr_codecLoadOrStore; [assumption|assumption|exact I1'|rewrite R1'; auto|].
    intros d s4 A4 E4 I4 R4 G4. apply tr_ret; [assumption|assumption|]. split; [exact I4|]. split; [lia|].
    eapply WI_same; [exact W2|rewrite G4; reflexivity].
  - intros w k G s Hk HA HW. cbn [w_structInfo]. apply tr_infoLoad; [assumption|apply ext_refl|].
    destruct (assoc skey_eq_dec k (g_infoCache s)) as [i|] eqn:E.
    { apply tr_ret; [assumption|apply ext_refl|]. split; [|exact HW]. split; [|left; exact E]. apply assoc_In in E. apply (a_info _ _ HA _ _ E). }
    destruct (w_iget w k) as [i|] eqn:Ew.
    { apply tr_ret; [assumption|apply ext_refl|]. split; [|exact HW]. split; [|right; reflexivity]. apply assoc_In in Ew. apply (proj2 HW k). exact Ew. }
    apply tr_newInfo; [assumption|apply ext_refl|]. cbv zeta. intros A1 E1 _ L1.
    eapply tr_call; [apply IHfs; [intros f; apply fields_shallow; exact Hk|exact A1|]|exact E1|].
    { apply WI_iset; [|exact L1]. eapply WI_ext; [apply gext_refl| |exact HW]. cbn. rewrite app_length. lia. }
    intros [fs w'] G2 s2 X2 A2 E2 E2' ((F2 & Ls2) & W2).
    apply (tr_publish s k (length (g_infos s)) fs (fun _ => Ret (length (g_infos s), w'))); try assumption; auto.
    + pose proof (e_li _ _ E2'). lia.
    + intros k1 H1. destruct (e_new _ _ E2' _ _ H1) as [H2|H2]; [|lia]. apply (a_info _ _ HA) in H2. lia.
    + intros s3 A3 E3 L3 C3. apply tr_ret; [assumption|assumption|]. split.
      * pose proof (e_li _ _ E2'). split; [lia|]. left. exact C3.
      * eapply WI_ext; [apply gext_refl| |exact W2]. lia.
  - intros w idx fs G s Hd HA HW. cbn [w_fields]. destruct fs as [|f fs].
    { apply tr_ret; [assumption|apply ext_refl|]. split; [|exact HW]. split; [constructor|reflexivity]. }
    eapply tr_call with (Q1 := fun '(o, w') G' s' => (match o with
        | Some x => field_in G' x /\ match gf_exported f, gf_tag f with true, Some tag => (f_idx x, f_meta x) = (idx, meta_of (tag_wiretag (fst (parseStructTag tag)))) | _, _ => False end
        | None => match gf_exported f, gf_tag f with true, Some tag => False | _, _ => True end end) /\ WI G' s' w'); [|apply ext_refl|].
    { destruct (gf_exported f) eqn:Ee; [|apply tr_ret; [assumption|apply ext_refl|auto]].
      destruct (gf_tag f) as [tag|]; [|apply tr_ret; [assumption|apply ext_refl|auto]].
      destruct (parseStructTag tag) as [t [e|]]; [apply tr_panic; [assumption|apply ext_refl]|].
      pose proof (Hd f (or_introl eq_refl) Ee) as Hdf.
      eapply tr_call; [apply IHf; assumption|apply ext_refl|].
      intros [c w'] G1 s1 X1 A1 E1 _ (I1 & R1 & W1). apply tr_ret; [assumption|assumption|]. split; [|exact W1].
      split; [|reflexivity]. split; cbn [mkfield f_codec]; [exact I1|lia]. }
    intros [o w'] G1 s1 X1 A1 E1 _ (Ho & W1).
    eapply tr_call; [apply IHfs; [intros g Hg; apply Hd; right; exact Hg|exact A1|exact W1]|exact E1|].
    intros [l w''] G2 s2 X2 A2 E2 _ ((F2 & L2) & W2). apply tr_ret; [assumption|assumption|]. split; [|exact W2].
    destruct o as [x|]; cbn [listing].
    + destruct Ho as [Fx Ho]. split; [constructor; [eapply field_in_ext; eassumption|exact F2]|].
      destruct (gf_exported f); [|destruct Ho]. destruct (gf_tag f); [|destruct Ho]. unfold lists in *. cbn [map]. rewrite Ho, L2. reflexivity.
    + split; [exact F2|]. destruct (gf_exported f); [|exact L2]. destruct (gf_tag f); [destruct Ho|exact L2].
  - intros w t f G s Hd HA HW. cbn [w_field].
    assert (Hst : forall x, tr s (Ret (CStatic x, w)) G s (cpost (gf_type f))).
    { intros x. apply tr_ret; [assumption|apply ext_refl|]. cbn [cpost inr_ rk]. split; [exact Logic.I|]. split; [lia|exact HW]. }
    destruct (static_choice t (gf_type f)); [apply Hst|].
    assert (Hpl : tr s (w_codec D fuel w (gf_type f) (t_zz t) false) G s (cpost (gf_type f))) by (apply IHc; assumption).
    assert (Hsl : match gf_type f with TSlice _ | TPtr _ => True | _ => False end ->
      tr s (let* (c, w) := w_codec D fuel w (elem_of (gf_type f)) (t_zz t) true in sliceCodecOf (gf_type f) c w) G s (cpost (gf_type f))).
    { intros Hty. apply elem_depth in Hty. eapply tr_call; [apply IHc; assumption|apply ext_refl|].
      intros [c w'] G1 s1 X1 A1 E1 _ (I1 & R1 & W1). apply tr_sub; [|exact E1]. apply slice_tr; auto. lia. }
    destruct (baseTypeOf (gf_type f)) eqn:Eb; try exact Hpl.
    + destruct (gf_type f) eqn:E; try discriminate; [apply Hst|apply Hsl; exact Logic.I].
    + destruct (gf_type f) eqn:E; try discriminate; [apply Hsl; exact Logic.I|apply Hsl; exact Logic.I].
    + destruct (gf_type f) as [| | | |key val| | |] eqn:E; try (apply tr_panic; [assumption|apply ext_refl]). cbn [type_depth] in Hd.
      destruct (parseStructTag (gf_key f)) as [kt ke]. destruct (parseStructTag (gf_val f)) as [vt ve].
      eapply tr_call; [apply IHc; assumption|apply ext_refl|].
      intros [kc w1] G1 s1 X1 A1 E1 _ (I1 & R1 & W1).
      eapply tr_call; [apply IHc; assumption|exact E1|].
      intros [vc w2] G2 s2 X2 A2 E2 _ (I2 & R2 & W2). apply tr_sub; [|exact E2].
      apply IHm; auto; cbn [mkfield f_codec]; [lia|eapply inr_ext; eassumption].
  - intros w key val tag kf vf G s Hd Hkf Hvf HA HW. cbn [w_mapCodec].
    apply tr_newCell with (r := 1); [assumption|apply ext_refl|]. cbv zeta. intros A1 E1 _ I1 R1 X1.
    eapply tr_call; [apply IHi; [exact Hd|exact A1|apply WI_set; [|exact I1|rewrite R1; cbn [type_depth]; lia]]|exact E1|].
    { eapply WI_ext; [exact X1| |exact HW]. cbn. auto. }
    intros [i w'] G2 s2 X2 A2 E2 E2' ((I2 & _) & W2).
    assert (I1' := inr_ext _ _ _ X2 I1). assert (R1' : rk G2 (CCell (length (g_cells s))) = 1) by (rewrite (rk_ext _ _ _ X2 I1); exact R1).
    apply tr_fill; [assumption|assumption|auto| |].
    { cbn [body_in]. split; [|split; [|(split; [exact I2|do 4 eexists; reflexivity])]]; (eapply inr_ext; [exact X2|]); (eapply inr_ext; [exact X1|]); assumption. }
    cbv zeta. intros A3 E3. apply tr_ret; [assumption|assumption|]. split; [exact I1'|]. split; [rewrite R1'; cbn [type_depth]; lia|].
    eapply WI_same; [exact W2|reflexivity].
Qed.

(** ** Looking up a type *)
Lemma cached_tr k G s : shallow k -> AI G s ->
  tr s (cachedStructInfoOf D (walk_fuel D) k) G s (fun i _ s' => i < length (g_infos s') /\ assoc skey_eq_dec k (g_infoCache s') = Some i).
Proof.
  intros Hk HA. unfold cachedStructInfoOf. apply tr_infoLoad; [assumption|apply ext_refl|].
  destruct (assoc skey_eq_dec k (g_infoCache s)) as [i|] eqn:E.
  { apply tr_ret; [assumption|apply ext_refl|]. split; [|exact E]. apply assoc_In in E. apply (a_info _ _ HA _ _ E). }
  eapply tr_call; [apply (proj1 (proj2 (proj2 (walk_tr (walk_fuel D))))); [exact Hk|exact HA|]|apply ext_refl|].
  { split; intros ? ? []. }
  intros [i w] G1 s1 X1 A1 E1 _ ((L & [C|C]) & W); [|discriminate].
  unfold infoLoadOrStore. unfold tr. cbn [do_ run exec]. rewrite C. exists G1. split; [apply gext_refl|]. auto.
Qed.
End Any.
