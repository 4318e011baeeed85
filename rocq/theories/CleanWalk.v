(** The walker on declarations some of which are rejected: the codecs of the
    other types are those of the pure resolution, in every state. *)
From Coq Require Import ZifyBool ZifyNat ZifyN String.
From Verif Require Import Base Wire GoType Leaf Codec Tag Walker Api Resolve Typing SpecReject SpecClean
  TypingFacts CodecSim WalkInv WalkFuel WalkSeq AnyWalk RejectFacts.
Local Close Scope string_scope.

(** The Go type a codec of pure resolution is for, slices and maps excepted. *)
Definition ty_of (p : pref) : gotype :=
  match p with
  | PStatic (SC w _) => TScalar (wk_kind w)
  | PStatic SCBytes => TBytes
  | PPtr t _ => TPtr t
  | PStruct (SNamed m) => TMsg m
  | PStruct (SOpt k) => TPtr (TOption k)
  | _ => TOther
  end.
Lemma pcodec_ty t zz rq p : pcodec t zz rq = Some p -> ty_of p = t.
Proof.
  destruct t as [k| |k|e|k e|e|m|]; cbn [pcodec]; try discriminate; try (intros H; inversion H; reflexivity).
  - intros H; inversion H; subst p. destruct k, zz; reflexivity.
  - destruct e; try (intros H; inversion H; reflexivity);
      match goal with |- option_map _ ?x = _ -> _ => destruct x; [|discriminate]; intros H; inversion H; reflexivity end.
Qed.
Lemma pcodec_hopeless t zz rq : hopeless t = true -> pcodec t zz rq = None.
Proof.
  induction t as [| | | | |e IH| |]; try discriminate; try reflexivity. intros H. apply hopeless_peel in H. destruct H as [H Hn].
  apply IH in H. destruct e; try discriminate; try reflexivity; try (cbn [pcodec] in *; rewrite H; reflexivity). exfalso. eapply Hn. reflexivity.
Qed.

Section Clean.
Variable D : decls.
Variable goodk : skey -> Prop.
Fixpoint goodp (p : pref) : Prop :=
  match p with
  | PStatic _ => True
  | PPtr _ q | PSlice _ q => goodp q
  | PStruct k => goodk k
  | PMap _ kt vt key val kp vp => goodp kp /\ goodp vp /\ goodk (SEntry key val kt vt)
  end.
Hypothesis Hgood : forall k, goodk k -> exists l, pfields 0 (struct_fields D k) = Some l /\ Forall (fun f => goodp (f_codec f)) l.
Variable VV : list (gotype * pref).
Hypothesis Hfun : forall t p q, In (t, p) VV -> In (t, q) VV -> p = q.
(** Keys the walker comes across. *)
Variable vk : skey -> Prop.
Hypothesis Hvk : forall k f t, vk k -> In f (struct_fields D k) -> gf_exported f = true ->
  forall tag, gf_tag f = Some tag -> parseStructTag tag = (t, None) -> hopeless_field f = true \/
  exists p, pfield t f = Some p /\ incl (pref_visits (gf_type f) p) VV /\
    match p with PMap _ kt vt key val _ _ => vk (SEntry key val kt vt) | _ => True end.
Hypothesis Hvn : forall m, vk (SNamed m).
Hypothesis Hvo : forall k, vk (SOpt k).
Hypothesis HVV : forall t p, In (t, p) VV -> hopeless t = false /\ struct_ptr t = None.
Hypothesis HVm : forall key val p, ~ In (TMap key val, p) VV.

(** ** Ghost state and invariant *)
Record cgh := { hc : list (option pref); hi : list skey }.
Definition cref_is (G : cgh) (c : cref) (p : pref) : Prop :=
  match c with CStatic s => p = PStatic s | CCell n => nth_error (hc G) n = Some (Some p) end.
Definition iref_is (G : cgh) (i : iref) (k : skey) : Prop := nth_error (hi G) i = Some k.
Definition cin (G : cgh) (c : cref) : Prop := match c with CStatic _ => True | CCell n => n < length (hc G) end.
Definition FL G (fs : list hfield) (k : skey) : Prop := Forall2 (field_rel (cref_is G)) fs (i_fields (piget D k)).

Record CI (oc oi : list nat) (G : cgh) (s : gstate) : Prop := {
  c_lc : length (hc G) = length (g_cells s);
  c_li : length (hi G) = length (g_infos s);
  c_cells : forall n b p, nth_error (g_cells s) n = Some b -> cref_is G (CCell n) p -> goodp p ->
    In n oc \/ body_rel (cref_is G) (iref_is G) b (plook p);
  c_infos : forall i x k, nth_error (g_infos s) i = Some x -> iref_is G i k -> goodk k ->
    In i oi \/ (FL G (i_fields x) k /\ FL G (i_index x) k);
  c_ic : forall k i, In (k, i) (g_infoCache s) -> iref_is G i k;
  c_cc : forall t c, In (t, c) (g_codecCache s) -> forall k, struct_ptr t = Some k -> cref_is G c (PStruct k);
  c_sm : forall c d, In (c, d) (g_sliceMap s) -> cin G c /\ forall p, cref_is G c p -> cref_is G d (PSlice (ty_of p) p)
}.
Record CW (G : cgh) (w : walker) : Prop := {
  cw_vv : forall t c, In (t, c) (w_codecs w) -> forall p, In (t, p) VV -> cref_is G c p;
  cw_st : forall t c, In (t, c) (w_codecs w) -> forall k, struct_ptr t = Some k -> cref_is G c (PStruct k);
  cw_ne : forall t c, In (t, c) (w_codecs w) -> match t with TScalar _ | TBytes => False | _ => True end;
  cw_ho : wok w;
  cw_in : forall k i, In (k, i) (w_infos w) -> iref_is G i k
}.
Definition cext (G G' : cgh) : Prop := (exists a, hc G' = hc G ++ a) /\ (exists b, hi G' = hi G ++ b).
Lemma cext_refl G : cext G G.
Proof. split; exists []; symmetry; apply app_nil_r. Qed.
Lemma cext_trans a b c : cext a b -> cext b c -> cext a c.
Proof.
  intros [[x1 E1] [y1 F1]] [[x2 E2] [y2 F2]]. split; [exists (x1 ++ x2)|exists (y1 ++ y2)]; [rewrite E2, E1|rewrite F2, F1]; symmetry; apply app_assoc.
Qed.
Lemma cref_ext G G' c p : cext G G' -> cref_is G c p -> cref_is G' c p.
Proof. intros [[x E] _]. destruct c; cbn; [auto|]. rewrite E. apply nth_app_some. Qed.
Lemma cref_back G G' c p : cext G G' -> cin G c -> cref_is G' c p -> cref_is G c p.
Proof. intros [[x E] _]. destruct c; cbn; [auto|]. rewrite E. intros H. rewrite nth_error_app1 by assumption. auto. Qed.
Lemma iref_ext G G' i k : cext G G' -> iref_is G i k -> iref_is G' i k.
Proof. intros [_ [x E]]. unfold iref_is. rewrite E. apply nth_app_some. Qed.
Lemma cin_ext G G' c : cext G G' -> cin G c -> cin G' c.
Proof. intros [[x E] _]. destruct c; cbn; [auto|]. rewrite E, app_length. lia. Qed.
Lemma cref_cin G c p : cref_is G c p -> cin G c.
Proof. destruct c; cbn; [auto|]. intros H. apply nth_error_Some. congruence. Qed.
Lemma cref_fun G c p q : cref_is G c p -> cref_is G c q -> p = q.
Proof. destruct c; cbn; congruence. Qed.
Lemma field_rel_ext G G' a b : cext G G' -> field_rel (cref_is G) a b -> field_rel (cref_is G') a b.
Proof. intros X (A & B & C). split; [exact A|]. split; [exact B|]. eapply cref_ext; eassumption. Qed.
Lemma fields_rel_ext G G' l l' : cext G G' -> Forall2 (field_rel (cref_is G)) l l' -> Forall2 (field_rel (cref_is G')) l l'.
Proof. intros X. induction 1; constructor; auto. eapply field_rel_ext; eassumption. Qed.
Lemma body_rel_ext G G' a b : cext G G' -> body_rel (cref_is G) (iref_is G) a b -> body_rel (cref_is G') (iref_is G') a b.
Proof.
  intros X [s|t c1 c2 H|t c1 c2 H|k i1 i2 H|tag kf1 vf1 kf2 vf2 e i1 i2 H1 H2 H3]; constructor;
    eauto using cref_ext, iref_ext, field_rel_ext.
Qed.
Lemma CW_ext G G' w : cext G G' -> CW G w -> CW G' w.
Proof. intros X [A B C E F]. split; eauto using cref_ext, iref_ext. Qed.
Lemma CI_less oc oi oc' oi' G s : CI oc oi G s ->
  (forall n p, In n oc -> cref_is G (CCell n) p -> goodp p -> In n oc') ->
  (forall i k, In i oi -> iref_is G i k -> goodk k -> In i oi') -> CI oc' oi' G s.
Proof.
  intros [L1 L2 A B C1 C2 C3] H1 H2. split; auto.
  - intros n b p Hn Hp Hg. destruct (A n b p Hn Hp Hg) as [H|H]; [left; eauto|auto].
  - intros i x k Hn Hp Hg. destruct (B i x k Hn Hp Hg) as [H|H]; [left; eauto|auto].
Qed.

(** ** Triples *)
Definition tc {A} (oc oi : list nat) (p : prog A) (bad : Prop) (G : cgh) (s : gstate) (Q : A -> cgh -> gstate -> Prop) : Prop :=
  match run p s with
  | (Done a, s') => exists G', cext G G' /\ CI oc oi G' s' /\ Q a G' s'
  | (Panicked, s') => exists G', cext G G' /\ CI oc oi G' s' /\ bad
  | (OutOfFuel, _) => True
  end.
Lemma tc_ret {A} oc oi (a : A) bad G s (Q : A -> cgh -> gstate -> Prop) : CI oc oi G s -> Q a G s -> tc oc oi (Ret a) bad G s Q.
Proof. intros H1 H2. exists G. split; [apply cext_refl|]. auto. Qed.
Lemma tc_panic {A} oc oi (bad : Prop) G s (Q : A -> cgh -> gstate -> Prop) : CI oc oi G s -> bad -> tc oc oi Panic bad G s Q.
Proof. intros H1 H2. exists G. split; [apply cext_refl|]. auto. Qed.
Lemma tc_bind {A B} oc oi oc1 oi1 (p : prog A) (k : A -> prog B) (bad1 bad : Prop) G s Q1 Q : tc oc1 oi1 p bad1 G s Q1 ->
  (forall G' s', cext G G' -> CI oc1 oi1 G' s' -> bad1 -> CI oc oi G' s' /\ bad) ->
  (forall a G' s', cext G G' -> CI oc1 oi1 G' s' -> Q1 a G' s' -> tc oc oi (k a) bad G' s' Q) ->
  tc oc oi (pbind p k) bad G s Q.
Proof.
  unfold tc. rewrite run_bind. intros H Hb Hk. destruct (run p s) as [[a| |] s1]; auto.
  - destruct H as (G1 & X1 & C1 & H1). specialize (Hk a G1 s1 X1 C1 H1). destruct (run (k a) s1) as [[b| |] s2]; auto;
    destruct Hk as (G2 & X2 & Hk); exists G2; (split; [eapply cext_trans; eassumption|exact Hk]).
  - destruct H as (G1 & X1 & C1 & H1). exists G1. split; [assumption|]. apply Hb; assumption.
Qed.
Lemma tc_call {A B} oc oi (p : prog A) (k : A -> prog B) (bad1 bad : Prop) G s Q1 Q : tc oc oi p bad1 G s Q1 -> (bad1 -> bad) ->
  (forall a G' s', cext G G' -> CI oc oi G' s' -> Q1 a G' s' -> tc oc oi (k a) bad G' s' Q) -> tc oc oi (pbind p k) bad G s Q.
Proof. intros H Hb Hk. eapply tc_bind; [exact H| |exact Hk]. auto. Qed.
Lemma tc_do {A} oc oi oc1 oi1 o (k : resp o -> prog A) bad G s G1 Q : cext G G1 -> CI oc1 oi1 G1 (snd (exec o s)) ->
  tc oc oi (k (fst (exec o s))) bad G1 (snd (exec o s)) Q -> tc oc oi (pbind (do_ o) k) bad G s Q.
Proof.
  intros X _ H. unfold tc in *. cbn [pbind do_ run]. destruct (exec o s) as [r s1]. cbn [fst snd] in *.
  destruct (run (k r) s1) as [[b| |] s2]; auto; destruct H as (G2 & X2 & H); exists G2; (split; [eapply cext_trans; eassumption|exact H]).
Qed.
Lemma tc_conseq {A} oc oi (p : prog A) (bad1 bad : Prop) G s (Q1 Q : A -> cgh -> gstate -> Prop) : tc oc oi p bad1 G s Q1 ->
  (bad1 -> bad) -> (forall a G' s', cext G G' -> Q1 a G' s' -> Q a G' s') -> tc oc oi p bad G s Q.
Proof.
  unfold tc. intros H Hb Hq. destruct (run p s) as [[a| |] s1]; auto; destruct H as (G1 & X1 & C1 & H1); exists G1; eauto.
Qed.

Definition gcell (G : cgh) (r : option pref) : cgh := {| hc := hc G ++ [r]; hi := hi G |}.
Definition ginfo (G : cgh) (k : skey) : cgh := {| hc := hc G; hi := hi G ++ [k] |}.
Lemma gcell_ext G r : cext G (gcell G r).
Proof. split; [exists [r]; reflexivity|exists []; symmetry; apply app_nil_r]. Qed.
Lemma ginfo_ext G k : cext G (ginfo G k).
Proof. split; [exists []; symmetry; apply app_nil_r|exists [k]; reflexivity]. Qed.

(** The new codec is the caller's until it is filled. *)
Lemma tc_newCell {A} oc oi r (k : cref -> prog A) bad G s Q : CI oc oi G s ->
  (let n := length (g_cells s) in let s1 := g_with_cells s (g_cells s ++ [BNil]) in
   CI (n :: oc) oi (gcell G r) s1 -> nth_error (hc (gcell G r)) n = Some r -> n < length (g_cells s1) ->
   tc oc oi (k (CCell n)) bad (gcell G r) s1 Q) -> tc oc oi (pbind newCell k) bad G s Q.
Proof.
  intros HC H. cbv zeta in H. pose proof (gcell_ext G r) as X.
  assert (C1 : CI (length (g_cells s) :: oc) oi (gcell G r) (g_with_cells s (g_cells s ++ [BNil]))).
  { pose proof (c_lc _ _ _ _ HC) as L. destruct HC as [_ L2 B I C1 C2 C3]. split; cbn [g_with_cells g_cells g_infos g_infoCache g_codecCache g_sliceMap]; auto.
    - cbn. rewrite !app_length. cbn. lia.
    - intros n b p Hn Hp Hg. destruct (Nat.lt_ge_cases n (length (g_cells s))) as [Hl|Hl].
      + rewrite nth_error_app1 in Hn by assumption. destruct (B n b p Hn) as [J|J]; auto.
        * eapply cref_back; [exact X| |exact Hp]. cbn. lia.
        * left. right. exact J.
        * right. eapply body_rel_ext; eassumption.
      + assert (n = length (g_cells s)). { assert (n < length (g_cells s ++ [BNil])) by (apply nth_error_Some; congruence). rewrite app_length in *. cbn in *. lia. }
        left. left. auto.
    - intros i x k0 Hi Hk Hg. destruct (I i x k0 Hi Hk Hg) as [J|[J1 J2]]; [auto|]. right. split; eapply fields_rel_ext; eassumption.
    - intros t c Hc k0 Hk. eapply cref_ext; eauto.
    - intros c d Hc. destruct (C3 c d Hc) as [J1 J2]. split; [eapply cin_ext; eassumption|]. intros p Hp.
      eapply cref_ext; [exact X|]. apply J2. eapply cref_back; eassumption. }
  unfold newCell. eapply (tc_do oc oi _ _ NewCell k bad G s (gcell G r)); cbn [exec snd fst]; [exact X|exact C1|].
  apply H; [exact C1| |cbn; rewrite app_length; cbn; lia].
  cbn. rewrite <- (c_lc _ _ _ _ HC). rewrite nth_error_app2 by lia. rewrite Nat.sub_diag. reflexivity.
Qed.
Lemma tc_fill {A} oc oi n b (k : unit -> prog A) bad G s Q : CI (n :: oc) oi G s ->
  (forall p, cref_is G (CCell n) p -> goodp p -> body_rel (cref_is G) (iref_is G) b (plook p)) ->
  (let s1 := g_with_cells s (upd (g_cells s) n b) in CI oc oi G s1 -> tc oc oi (k tt) bad G s1 Q) ->
  tc oc oi (pbind (fill (CCell n) b) k) bad G s Q.
Proof.
  intros HC Hb H. cbv zeta in H.
  assert (C1 : CI oc oi G (g_with_cells s (upd (g_cells s) n b))).
  { destruct HC as [L1 L2 B I C1 C2 C3]. split; cbn [g_with_cells g_cells g_infos g_infoCache g_codecCache g_sliceMap]; auto.
    - rewrite upd_length. assumption.
    - intros m b' p Hm Hp Hg. rewrite nth_upd in Hm. destruct (Nat.eqb_spec n m) as [->|Hne].
      + destruct (m <? length (g_cells s)); [inversion Hm; subst|discriminate]. right. apply Hb; assumption.
      + destruct (B m b' p Hm Hp Hg) as [[J|J]|J]; auto. contradiction. }
  unfold fill. eapply (tc_do oc oi _ _ (Fill (CCell n) b) k bad G s G); cbn [exec snd fst]; [apply cext_refl|exact C1|]. apply H. exact C1.
Qed.
Lemma tc_newInfo {A} oc oi k0 (k : iref -> prog A) bad G s Q : CI oc oi G s ->
  (let i := length (g_infos s) in let s1 := g_with_infos s (g_infos s ++ [i_empty]) in
   CI oc (i :: oi) (ginfo G k0) s1 -> iref_is (ginfo G k0) i k0 -> i < length (g_infos s1) ->
   tc oc oi (k i) bad (ginfo G k0) s1 Q) -> tc oc oi (pbind newInfo k) bad G s Q.
Proof.
  intros HC H. cbv zeta in H. pose proof (ginfo_ext G k0) as X.
  assert (C1 : CI oc (length (g_infos s) :: oi) (ginfo G k0) (g_with_infos s (g_infos s ++ [i_empty]))).
  { pose proof (c_li _ _ _ _ HC) as L. destruct HC as [L1 _ B I C1 C2 C3]. split; cbn [g_with_infos g_cells g_infos g_infoCache g_codecCache g_sliceMap]; auto.
    - cbn. rewrite !app_length. cbn. lia.
    - intros n b p Hn Hp Hg. destruct (B n b p Hn Hp Hg) as [J|J]; auto. right. eapply body_rel_ext; eassumption.
    - intros i x k1 Hi Hk Hg. destruct (Nat.lt_ge_cases i (length (g_infos s))) as [Hl|Hl].
      + rewrite nth_error_app1 in Hi by assumption. unfold iref_is in Hk. cbn [ginfo hi] in Hk. rewrite nth_error_app1 in Hk by lia.
        destruct (I i x k1 Hi Hk Hg) as [J|[J1 J2]]; [left; right; exact J|]. right. split; eapply fields_rel_ext; eassumption.
      + assert (i = length (g_infos s)). { assert (i < length (g_infos s ++ [i_empty])) by (apply nth_error_Some; congruence). rewrite app_length in *. cbn in *. lia. }
        left. left. auto.
    - intros k1 i Hi. eapply iref_ext; eauto. }
  unfold newInfo. eapply (tc_do oc oi _ _ NewInfo k bad G s (ginfo G k0)); cbn [exec snd fst]; [exact X|exact C1|].
  apply H; [exact C1| |cbn; rewrite app_length; cbn; lia].
  unfold iref_is. cbn. rewrite <- (c_li _ _ _ _ HC). rewrite nth_error_app2 by lia. rewrite Nat.sub_diag. reflexivity.
Qed.
Lemma tc_publish {A} oc oi k0 i fs (k : unit -> prog A) bad G s Q : CI oc (i :: oi) G s -> i < length (g_infos s) ->
  iref_is G i k0 -> (goodk k0 -> FL G fs k0) ->
  (forall s1, CI oc oi G s1 -> tc oc oi (k tt) bad G s1 Q) ->
  tc oc oi (let* _ := setFields i fs in let* _ := setIndex i fs in let* r := infoStore k0 i in k r) bad G s Q.
Proof.
  intros HC Hl Hi Hf H.
  assert (Hl' := Hl). apply nth_error_Some in Hl'. destruct (nth_error (g_infos s) i) as [x|] eqn:Ex; [|contradiction]. clear Hl'.
  set (y := {| i_fields := fs; i_index := fs |}).
  set (s1 := g_with_infoCache (g_with_infos s (upd (upd (g_infos s) i {| i_fields := fs; i_index := i_index x |}) i y)) ((k0, i) :: g_infoCache s)).
  assert (Ln : length (g_infos s1) = length (g_infos s)) by (cbn; rewrite !upd_length; reflexivity).
  assert (Nth : forall j, nth_error (g_infos s1) j = if Nat.eqb i j then Some y else nth_error (g_infos s) j).
  { intros j. cbn. rewrite !nth_upd, upd_length. replace (i <? length (g_infos s)) with true by lia. destruct (i =? j); reflexivity. }
  assert (C1 : CI oc oi G s1).
  { destruct HC as [L1 L2 B I C1 C2 C3]. split; auto.
    - rewrite Ln. assumption.
    - intros j z k1 Hj Hk Hg. rewrite Nth in Hj. destruct (Nat.eqb_spec i j) as [->|Hne].
      + inversion Hj; subst z. assert (k1 = k0) by (unfold iref_is in *; congruence). subst k1. right. split; apply Hf; assumption.
      + destruct (I j z k1 Hj Hk Hg) as [[J|J]|J]; auto. contradiction.
    - intros k1 j [Hj|Hj]; [inversion Hj; subst; assumption|auto]. }
  specialize (H s1 C1).
  unfold tc in *. unfold setFields, setIndex, infoStore. cbn [pbind do_ run exec]. rewrite Ex.
  assert (Nth2 : nth_error (g_infos (g_with_infos s (upd (g_infos s) i {| i_fields := fs; i_index := i_index x |}))) i = Some {| i_fields := fs; i_index := i_index x |}).
  { cbn. rewrite nth_upd, Nat.eqb_refl. replace (i <? length (g_infos s)) with true by lia. reflexivity. }
  rewrite Nth2. cbn [i_fields i_index].
  change (run (k tt) _) with (run (k tt) s1). exact H.
Qed.
Lemma tc_infoLoad {A} oc oi k0 (k : option iref -> prog A) bad G s Q : CI oc oi G s ->
  tc oc oi (k (assoc skey_eq_dec k0 (g_infoCache s))) bad G s Q -> tc oc oi (pbind (infoLoad k0) k) bad G s Q.
Proof. intros C H. unfold infoLoad. eapply (tc_do oc oi oc oi (InfoLoad k0) k bad G s G); cbn [exec snd fst]; auto using cext_refl. Qed.
Lemma tc_codecLoad {A} oc oi t (k : option cref -> prog A) bad G s Q : CI oc oi G s ->
  tc oc oi (k (assoc gotype_eq_dec t (g_codecCache s))) bad G s Q -> tc oc oi (pbind (codecLoad t) k) bad G s Q.
Proof. intros C H. unfold codecLoad. eapply (tc_do oc oi oc oi (CodecLoad t) k bad G s G); cbn [exec snd fst]; auto using cext_refl. Qed.
Lemma tc_sliceLoad {A} oc oi c (k : option cref -> prog A) bad G s Q : CI oc oi G s ->
  tc oc oi (k (assoc cref_eq_dec c (g_sliceMap s))) bad G s Q -> tc oc oi (pbind (sliceLoad c) k) bad G s Q.
Proof. intros C H. unfold sliceLoad. eapply (tc_do oc oi oc oi (SliceLoad c) k bad G s G); cbn [exec snd fst]; auto using cext_refl. Qed.
Lemma tc_codecLoadOrStore {A} oc oi t c k0 (k : cref -> prog A) bad G s Q : CI oc oi G s -> struct_ptr t = Some k0 -> cref_is G c (PStruct k0) ->
  (forall d s1, CI oc oi G s1 -> cref_is G d (PStruct k0) -> tc oc oi (k d) bad G s1 Q) ->
  tc oc oi (pbind (codecLoadOrStore t c) k) bad G s Q.
Proof.
  intros HC Ht Hc H. unfold codecLoadOrStore.
  assert (C2 : CI oc oi G (g_with_codecCache s ((t, c) :: g_codecCache s))).
  { destruct HC as [L1 L2 B I C1 C2 C3]. split; auto. intros t0 c0 [E|E] k1 Hk1; [|eauto]. inversion E; subst. congruence. }
  eapply (tc_do oc oi oc oi (CodecLoadOrStore t c) k bad G s G); [apply cext_refl|..];
    cbn [exec]; destruct (assoc gotype_eq_dec t (g_codecCache s)) as [d|] eqn:Ea; cbn [fst snd]; auto.
  apply H; [assumption|]. apply assoc_In in Ea. eapply (c_cc _ _ _ _ HC); eassumption.
Qed.
Lemma tc_sliceLoadOrStore {A} oc oi c d p (k : cref -> prog A) bad G s Q : CI oc oi G s -> cref_is G c p -> cref_is G d (PSlice (ty_of p) p) ->
  (forall d s1, CI oc oi G s1 -> cref_is G d (PSlice (ty_of p) p) -> tc oc oi (k d) bad G s1 Q) ->
  tc oc oi (pbind (sliceLoadOrStore c d) k) bad G s Q.
Proof.
  intros HC Hc Hd H. unfold sliceLoadOrStore.
  assert (C2 : CI oc oi G (g_with_sliceMap s ((c, d) :: g_sliceMap s))).
  { destruct HC as [L1 L2 B I C1 C2 C3]. split; auto. intros c0 d0 [E|E]; [|eauto]. inversion E; subst. split; [eapply cref_cin; eassumption|].
    intros q Hq. rewrite (cref_fun _ _ _ _ Hq Hc). exact Hd. }
  eapply (tc_do oc oi oc oi (SliceLoadOrStore c d) k bad G s G); [apply cext_refl|..];
    cbn [exec]; destruct (assoc cref_eq_dec c (g_sliceMap s)) as [d0|] eqn:Ea; cbn [fst snd]; auto.
  apply H; [assumption|]. apply assoc_In in Ea. destruct (c_sm _ _ _ _ HC _ _ Ea) as [_ J]. apply J. exact Hc.
Qed.

(** ** The walker *)
Lemma CW_empty G : CW G {| w_codecs := []; w_infos := [] |}.
Proof. split; try (intros ? ? []). intros t _. reflexivity. Qed.
Lemma CW_set G w t c : CW G w -> (forall p, In (t, p) VV -> cref_is G c p) -> (forall k, struct_ptr t = Some k -> cref_is G c (PStruct k)) ->
  match t with TScalar _ | TBytes => False | _ => True end -> hopeless t = false -> CW G (w_set w t c).
Proof.
  intros [A B C E F] H1 H2 H3 H4. split; auto.
  - intros t0 c0 [H|H]; [inversion H; subst; auto|eauto].
  - intros t0 c0 [H|H]; [inversion H; subst; auto|eauto].
  - intros t0 c0 [H|H]; [inversion H; subst; exact H3|exact (C _ _ H)].
  - apply wok_set; assumption.
Qed.
Lemma CW_iset G w k i : CW G w -> iref_is G i k -> CW G (w_iset w k i).
Proof. intros [A B C E F] H. split; auto. intros k0 i0 [J|J]; [inversion J; subst; auto|eauto]. Qed.

(** A hopeless type ends in a panic. *)
Lemma hopeless_tc fuel : forall w t zz rq oc oi G s (Q : cref * walker -> cgh -> gstate -> Prop), hopeless t = true -> free w t -> CI oc oi G s ->
  tc oc oi (w_codec D fuel w t zz rq) True G s Q.
Proof.
  induction fuel as [|fuel IH]; intros w t zz rq oc oi G s Q Ht Hf HC; [exact Logic.I|]. cbn [w_codec].
  destruct t; try discriminate; cbn [free] in Hf; destruct Hf as [-> Hf]; try (apply tc_panic; [exact HC|exact Logic.I]).
  apply hopeless_peel in Ht. destruct Ht as [Ht Hn].
  assert (E : struct_ptr (TPtr t) = None) by (destruct t; try reflexivity; exfalso; eapply Hn; reflexivity).
  rewrite E. apply tc_newCell with (r := None); [exact HC|]. cbv zeta. intros C1 N1 _. cbn [elem_of].
  eapply tc_bind with (Q1 := fun _ _ _ => False); [apply IH; [exact Ht|apply free_set; [assumption|cbn; lia]|exact C1]| |].
  - intros G' s' X C2 _. split; [|exact Logic.I]. eapply CI_less; [exact C2| |auto]. intros n p [<-|J] Hp _; [|exact J].
    exfalso. cbn [cref_is] in Hp. destruct X as [[x X] _]. rewrite X in Hp. rewrite (nth_app_some _ _ _ _ N1) in Hp. discriminate.
  - intros a G' s' _ _ [].
Qed.

Definition cpost_is (p : pref) : cref * walker -> cgh -> gstate -> Prop := fun '(c, w) G s => cref_is G c p /\ CW G w.

Lemma slice_tc e c w p oc oi G s (bad : Prop) : CI oc oi G s -> CW G w -> cref_is G c p -> ty_of p = e ->
  In (TSlice e, PSlice e p) VV -> tc oc oi (sliceCodecOf (TSlice e) c w) bad G s (cpost_is (PSlice e p)).
Proof.
  intros HC HW Hc He Hv. unfold sliceCodecOf. apply tc_sliceLoad; [assumption|].
  destruct (assoc cref_eq_dec c (g_sliceMap s)) as [d|] eqn:Ea.
  { apply tc_ret; [assumption|]. apply assoc_In in Ea. destruct (c_sm _ _ _ _ HC _ _ Ea) as [_ J]. split; [|exact HW]. rewrite <- He. apply J. exact Hc. }
  destruct (w_get w (TSlice e)) as [d|] eqn:Ew.
  { apply tc_ret; [assumption|]. apply assoc_In in Ew. split; [eapply (cw_vv _ _ HW); eassumption|exact HW]. }
  apply tc_newCell with (r := Some (PSlice e p)); [assumption|]. cbv zeta. intros C1 N1 _.
  assert (Hc' : cref_is (gcell G (Some (PSlice e p))) c p) by (eapply cref_ext; [apply gcell_ext|exact Hc]).
  apply tc_fill; [assumption| |].
  { intros q Hq _. pose proof (cref_fun _ (CCell _) _ _ Hq N1) as ->. cbn [plook elem_of]. constructor. exact Hc'. }
  cbv zeta. intros C2. apply tc_sliceLoadOrStore with (p := p); [assumption|exact Hc'|rewrite He; exact N1|].
  intros d s3 C3 Hd. apply tc_ret; [assumption|]. rewrite He in Hd. split; [exact Hd|]. apply CW_set.
  - eapply CW_ext; [apply gcell_ext|exact HW].
  - intros q Hq. rewrite (Hfun _ _ _ Hq Hv). exact N1.
  - discriminate.
  - exact Logic.I.
  - reflexivity.
Qed.

Lemma struct_ptr_pcodec t k zz rq : struct_ptr t = Some k -> pcodec t zz rq = Some (PStruct k).
Proof. destruct t as [| | | | |[]| |]; try discriminate; intros H; inversion H; reflexivity. Qed.

Definition flist (idx : nat) (fs : list gofield) (G : cgh) (l : list hfield) : Prop :=
  forall r, pfields idx fs = Some r -> Forall2 (field_rel (cref_is G)) l r.
Definition fgood (idx : nat) (fs : list gofield) : Prop :=
  exists r, pfields idx fs = Some r /\ Forall (fun f => goodp (f_codec f)) r.

Lemma walk_tc fuel :
  (forall w t zz rq p oc oi G s, pcodec t zz rq = Some p -> incl (pref_visits t p) VV -> CI oc oi G s -> CW G w ->
     tc oc oi (w_codec D fuel w t zz rq) (~ goodp p) G s (cpost_is p)) /\
  (forall w t k oc oi G s, struct_ptr t = Some k -> vk k -> CI oc oi G s -> CW G w ->
     tc oc oi (w_structCodec D fuel w t k) (~ goodk k) G s (cpost_is (PStruct k))) /\
  (forall w k oc oi G s, vk k -> CI oc oi G s -> CW G w ->
     tc oc oi (w_structInfo D fuel w k) (~ goodk k) G s (fun '(i, w') G' s' => iref_is G' i k /\ CW G' w')) /\
  (forall w idx fs oc oi G s, (exists k, vk k /\ incl fs (struct_fields D k)) -> CI oc oi G s -> CW G w ->
     tc oc oi (w_fields D fuel w idx fs) (~ fgood idx fs) G s (fun '(l, w') G' s' => flist idx fs G' l /\ CW G' w')) /\
  (forall w t f oc oi G s p, pfield t f = Some p -> incl (pref_visits (gf_type f) p) VV ->
     match p with PMap _ kt vt key val _ _ => vk (SEntry key val kt vt) | _ => True end -> CI oc oi G s -> CW G w ->
     tc oc oi (w_field D fuel w t f) (~ goodp p) G s (cpost_is p)) /\
  (forall w key val tag kf vf kt vt kp vp oc oi G s, vk (SEntry key val kt vt) ->
     field_rel (cref_is G) kf (mkfield 0 kt kp) -> field_rel (cref_is G) vf (mkfield 1 vt vp) -> CI oc oi G s -> CW G w ->
     tc oc oi (w_mapCodec D fuel w key val tag kf vf) (~ goodk (SEntry key val kt vt)) G s (cpost_is (PMap tag kt vt key val kp vp))).
Proof.
  induction fuel as [|fuel (IHc & IHs & IHi & IHfs & IHf & IHm)].
  { repeat match goal with |- _ /\ _ => split end; intros; exact Logic.I. }
  repeat match goal with |- _ /\ _ => split end.
  - intros w t zz rq p oc oi G s Hp Hv HC HW. cbn [w_codec]. destruct (w_get w t) as [c|] eqn:E.
    { apply tc_ret; [assumption|]. apply assoc_In in E. split; [|exact HW].
      pose proof (cw_ne _ _ HW _ _ E) as Hne. destruct (struct_ptr t) as [k|] eqn:Es.
      - rewrite (struct_ptr_pcodec t k zz rq Es) in Hp. inversion Hp; subst p. eapply (cw_st _ _ HW); eassumption.
      - eapply (cw_vv _ _ HW); [exact E|]. apply Hv. destruct t as [k| |k|e|k e|e|m|]; try discriminate; try contradiction.
        cbn [pcodec] in Hp. destruct e; try discriminate; try (inversion Hp; subst p; left; reflexivity);
          match type of Hp with option_map _ ?x = _ => destruct x; [|discriminate]; inversion Hp; subst p; left; reflexivity end. }
    destruct (struct_ptr t) as [k|] eqn:Es.
    { pose proof (struct_ptr_pcodec t k zz rq Es) as Ep. rewrite Ep in Hp. inversion Hp; subst p. cbn [goodp].
      assert (Hk : vk k) by (destruct t as [| | | | |[]| |]; try discriminate; inversion Es; auto).
      destruct t as [| | | | |e|m|]; try discriminate; apply IHs; auto. }
    destruct t as [k| |k|e|k e|e|m|]; try discriminate.
    + inversion Hp; subst p. apply tc_ret; [assumption|]. split; [reflexivity|exact HW].
    + inversion Hp; subst p. apply tc_ret; [assumption|]. split; [reflexivity|exact HW].
    + assert (Hq : exists q, pcodec e zz rq = Some q /\ p = PPtr e q).
      { cbn [pcodec] in Hp. destruct e; try discriminate; try (inversion Hp; subst p; eexists; split; reflexivity);
          match type of Hp with option_map _ ?x = _ => destruct x eqn:Ex; [|discriminate]; inversion Hp; subst p; eexists; split; [first [exact Ex|reflexivity]|reflexivity] end. }
      destruct Hq as (q & Hq & ->). cbn [pref_visits] in Hv.
      assert (Hin : In (TPtr e, PPtr e q) VV) by (apply Hv; left; reflexivity).
      assert (Hv' : incl (pref_visits e q) VV) by (intros z Hz; apply Hv; right; exact Hz).
      apply tc_newCell with (r := Some (PPtr e q)); [assumption|]. cbv zeta. intros C1 N1 _. cbn [elem_of].
      eapply tc_bind; [apply IHc; [exact Hq|exact Hv'|exact C1|apply CW_set]| |].
      * eapply CW_ext; [apply gcell_ext|exact HW].
      * intros q' Hq'. rewrite (Hfun _ _ _ Hq' Hin). exact N1.
      * congruence.
      * exact Logic.I.
      * apply (proj1 (HVV _ _ Hin)).
      * intros G' s' X C2 Hb. split; [|exact Hb]. eapply CI_less; [exact C2| |auto]. intros n p' [<-|J] Hp' Hg; [|exact J]. exfalso.
        rewrite (cref_fun _ _ _ _ Hp' (cref_ext _ _ (CCell _) _ X N1)) in Hg. exact (Hb Hg).
      * intros [c w'] G2 s2 X C2 [Hc2 W2]. assert (N2 := cref_ext _ _ (CCell _) _ X N1).
        apply tc_fill; [assumption| |].
        { intros p' Hp' _. rewrite (cref_fun _ _ _ _ Hp' N2). cbn [plook]. constructor. exact Hc2. }
        cbv zeta. intros C3. apply tc_ret; [assumption|]. split; [exact N2|exact W2].
  - intros w t k oc oi G s Ht Hk HC HW. cbn [w_structCodec]. apply tc_codecLoad; [assumption|].
    destruct (assoc gotype_eq_dec t (g_codecCache s)) as [c|] eqn:E.
    { apply tc_ret; [assumption|]. apply assoc_In in E. split; [eapply (c_cc _ _ _ _ HC); eassumption|exact HW]. }
    destruct (w_get w t) as [c|] eqn:Ew.
    { apply tc_ret; [assumption|]. apply assoc_In in Ew. split; [eapply (cw_st _ _ HW); eassumption|exact HW]. }
    apply tc_newCell with (r := Some (PStruct k)); [assumption|]. cbv zeta. intros C1 N1 _.
    eapply tc_bind; [apply IHi; [exact Hk|exact C1|apply CW_set]| |].
    + eapply CW_ext; [apply gcell_ext|exact HW].
    + intros q Hq. apply HVV in Hq. destruct Hq. congruence.
    + intros k' Hk'. replace k' with k by congruence. exact N1.
    + destruct t; try discriminate; exact Logic.I.
    + destruct t as [| | | | |[]| |]; try discriminate; reflexivity.
    + intros G' s' X C2 Hb. split; [|exact Hb]. eapply CI_less; [exact C2| |auto]. intros n p' [<-|J] Hp' Hg; [|exact J]. exfalso.
      rewrite (cref_fun _ _ _ _ Hp' (cref_ext _ _ (CCell _) _ X N1)) in Hg. exact (Hb Hg).
    + intros [i w'] G2 s2 X C2 [Hi2 W2]. assert (N2 := cref_ext _ _ (CCell _) _ X N1).
      apply tc_fill; [assumption| |].
      { intros p' Hp' _. rewrite (cref_fun _ _ _ _ Hp' N2). cbn [plook]. constructor. exact Hi2. }
      cbv zeta. intros C3. eapply tc_codecLoadOrStore; [exact C3|exact Ht|exact N2|].
      intros d s4 C4 Hd. apply tc_ret; [assumption|]. split; [exact Hd|exact W2].
  - intros w k oc oi G s Hk HC HW. cbn [w_structInfo]. apply tc_infoLoad; [assumption|].
    destruct (assoc skey_eq_dec k (g_infoCache s)) as [i|] eqn:E.
    { apply tc_ret; [assumption|]. apply assoc_In in E. split; [eapply (c_ic _ _ _ _ HC); eassumption|exact HW]. }
    destruct (w_iget w k) as [i|] eqn:Ew.
    { apply tc_ret; [assumption|]. apply assoc_In in Ew. split; [eapply (cw_in _ _ HW); eassumption|exact HW]. }
    apply tc_newInfo with (k0 := k); [assumption|]. cbv zeta. intros C1 N1 L1.
    eapply tc_bind; [apply IHfs; [exists k; split; [exact Hk|apply incl_refl]|exact C1|]| |].
    + apply CW_iset; [|exact N1]. eapply CW_ext; [apply ginfo_ext|exact HW].
    + intros G' s' X C2 Hb. assert (Hb' : ~ goodk k) by (intros Hg; apply Hb; destruct (Hgood k Hg) as (l & A & B); exists l; auto).
      split; [|exact Hb']. eapply CI_less; [exact C2|auto|]. intros i k' [<-|J] Hi Hg; [|exact J]. exfalso.
      pose proof (iref_ext _ _ _ _ X N1) as N2. unfold iref_is in *. assert (k' = k) by congruence. subst k'. exact (Hb' Hg).
    + intros [fs w'] G2 s2 X C2 [F2 W2]. assert (N2 := iref_ext _ _ _ _ X N1).
      apply (tc_publish oc oi k (length (g_infos s)) fs (fun _ => Ret (length (g_infos s), w'))); [assumption| |assumption| |].
      * rewrite <- (c_li _ _ _ _ C2). apply nth_error_Some. unfold iref_is in N2. congruence.
      * intros Hg. destruct (Hgood k Hg) as (l & A & B). unfold FL, piget, pinfo. rewrite A. cbn. apply F2. exact A.
      * intros s3 C3. apply tc_ret; [assumption|]. auto.
  - intros w idx fs oc oi G s (k & Hk & Hin) HC HW. cbn [w_fields]. destruct fs as [|f fs].
    { apply tc_ret; [assumption|]. split; [|exact HW]. intros r Hr. inversion Hr. constructor. }
    assert (Hin' : incl fs (struct_fields D k)) by (intros z Hz; apply Hin; right; exact Hz).
    eapply tc_call with (bad1 := ~ (forall tag, gf_exported f = true -> gf_tag f = Some tag -> exists t p, parseStructTag tag = (t, None) /\ pfield t f = Some p /\ goodp p))
      (Q1 := fun '(o, w') G' s' => match gf_exported f, gf_tag f with
        | true, Some tag => exists x t p, o = Some x /\ parseStructTag tag = (t, None) /\ pfield t f = Some p /\ field_rel (cref_is G') x (mkfield idx (tag_wiretag t) p)
        | _, _ => o = None end /\ CW G' w').
    { destruct (gf_exported f) eqn:Ee; [|apply tc_ret; [assumption|auto]].
      destruct (gf_tag f) as [tag|] eqn:Et; [|apply tc_ret; [assumption|auto]].
      destruct (parseStructTag tag) as [t [e|]] eqn:Ep.
      { apply tc_panic; [assumption|]. intros Hb. destruct (Hb tag eq_refl eq_refl) as (t' & p & A & _). congruence. }
      destruct (Hvk k f t Hk (Hin f (or_introl eq_refl)) Ee tag Et Ep) as [Hh|(p & Hp & Hv & Hm)].
      - eapply tc_call with (bad1 := True) (Q1 := fun _ _ _ => False); [| |intros ? ? ? _ _ []].
        + clear IHc IHs IHi IHfs IHm. destruct fuel as [|fuel']; [exact Logic.I|]. cbn [w_field].
          unfold hopeless_field in Hh. rewrite Ee, Et, Ep in Hh. destruct (static_choice t (gf_type f)); [discriminate|].
          pose proof (wok_free w) as Hfree. specialize (fun u => Hfree u (cw_ho _ _ HW)).
          destruct (gf_type f) as [ks| |ko|e|key e|e|m|] eqn:Ety; cbn [baseTypeOf elem_of hopeless_type] in *; try discriminate.
          * apply hopeless_tc; [exact Hh|apply Hfree; exact Hh|assumption].
          * eapply tc_call with (bad1 := True) (Q1 := fun _ _ _ => False); [apply hopeless_tc; [exact Hh|apply Hfree; exact Hh|assumption]|auto|intros ? ? ? _ _ []].
          * destruct (parseStructTag (gf_key f)) as [kt ke]. destruct (parseStructTag (gf_val f)) as [vt ve].
            assert (Ek : forall z, w_codec D fuel' w (TScalar key) z true = match fuel' with O => NoFuel | S _ => Ret (CStatic (SC (kind_wk key z) Required), w) end).
            { intros z. destruct fuel' as [|fuel'']; [reflexivity|]. cbn [w_codec]. destruct (w_get w (TScalar key)) as [c|] eqn:Eg; [|reflexivity].
              apply assoc_In in Eg. apply (cw_ne _ _ HW) in Eg. destruct Eg. }
            eapply tc_call with (bad1 := True) (Q1 := fun r _ _ => snd r = w); [rewrite Ek; destruct fuel'; [exact Logic.I|apply tc_ret; auto]|auto|].
            intros [kc w1] G1 s1 X1 C1 Ew. cbn [snd] in Ew. subst w1.
            eapply tc_call with (bad1 := True) (Q1 := fun _ _ _ => False); [apply hopeless_tc; [exact Hh|apply Hfree; exact Hh|assumption]|auto|intros ? ? ? _ _ []].
          * destruct (baseTypeOf e) eqn:Eb; try discriminate; try (apply hopeless_tc; [exact Hh|apply Hfree; exact Hh|assumption]).
            apply tc_panic; auto.
          * apply hopeless_tc; [exact Hh|apply Hfree; exact Hh|assumption].
        + intros _ Hb. destruct (Hb tag eq_refl eq_refl) as (t' & p & A & B & _). assert (t' = t) by congruence. subst t'. clear - Hh A B Ee Et Ep.
          unfold hopeless_field in Hh. rewrite Ee, Et, Ep in Hh. unfold pfield in B. destruct (static_choice t (gf_type f)); [discriminate|].
          pose proof pcodec_hopeless as N.
          destruct (gf_type f) as [ks| |ko|e|key e|e|m|]; cbn [hopeless_type baseTypeOf] in *; try discriminate.
          * rewrite N in B by exact Hh. discriminate.
          * rewrite (N e) in B by exact Hh. destruct (pcodec (TScalar key) _ true); discriminate.
          * destruct (baseTypeOf e); try discriminate; rewrite N in B by exact Hh; discriminate.
      - eapply tc_call; [apply IHf; eassumption| |].
        + intros Hb Hc. apply Hb. destruct (Hc tag eq_refl eq_refl) as (t' & p' & A & B & C). assert (t' = t) by congruence. subst t'. replace p with p' by congruence. exact C.
        + intros [c w'] G1 s1 X C1 [Hc1 W1]. apply tc_ret; [assumption|]. split; [|exact W1].
          exists (mkfield idx (tag_wiretag t) c), t, p. split; [reflexivity|]. split; [reflexivity|]. split; [exact Hp|]. split; [reflexivity|]. split; [reflexivity|exact Hc1]. }
    + intros Hb (r & Hr & Hg). apply Hb. intros tag Ee Et. cbn [pfields] in Hr. rewrite Ee, Et in Hr. destruct (pfields (S idx) fs); [|discriminate].
      destruct (parseStructTag tag) as [t [e|]]; [discriminate|]. destruct (pfield t f) as [p|] eqn:Ep; [|discriminate]. inversion Hr; subst r.
      inversion Hg; subst. exists t, p. auto.
    + intros [o w'] G1 s1 X1 C1 (Ho & W1).
      eapply tc_call; [apply IHfs; [exists k; auto|exact C1|exact W1]| |].
      * intros Hb (r & Hr & Hg). apply Hb. cbn [pfields] in Hr. destruct (pfields (S idx) fs) as [r'|] eqn:Er; [|discriminate].
        exists r'. split; [exact Er|]. destruct (gf_exported f); [|inversion Hr; subst; exact Hg]. destruct (gf_tag f) as [tag|]; [|inversion Hr; subst; exact Hg].
        destruct (parseStructTag tag) as [t [e|]]; [discriminate|]. destruct (pfield t f); [|discriminate]. inversion Hr; subst r. inversion Hg; assumption.
      * intros [l w''] G2 s2 X2 C2 (F2 & W2). apply tc_ret; [assumption|]. split; [|exact W2]. intros r Hr. cbn [pfields] in Hr.
        destruct (pfields (S idx) fs) as [r'|] eqn:Er; [|discriminate]. specialize (F2 r' Er).
        destruct (gf_exported f); [|subst o; inversion Hr; subst; exact F2]. destruct (gf_tag f) as [tag|]; [|subst o; inversion Hr; subst; exact F2].
        destruct Ho as (x & t & p & -> & Ep & Hp & Hx). rewrite Ep, Hp in Hr. inversion Hr; subst r. constructor; [|exact F2]. eapply field_rel_ext; eassumption.
  - intros w t f oc oi G s p Hp Hv Hm HC HW. cbn [w_field]. unfold pfield in Hp.
    destruct (static_choice t (gf_type f)) as [sc|].
    { inversion Hp; subst p. apply tc_ret; [assumption|]. split; [reflexivity|exact HW]. }
    assert (Hpl : pcodec (gf_type f) (t_zz t) false = Some p -> tc oc oi (w_codec D fuel w (gf_type f) (t_zz t) false) (~ goodp p) G s (cpost_is p)) by (intros; apply IHc; assumption).
    destruct (gf_type f) as [ks| |ko|e|key e|e|m|] eqn:Ety; cbn [baseTypeOf elem_of] in *; auto.
    + inversion Hp; subst p. apply tc_ret; [assumption|]. split; [reflexivity|exact HW].
    + destruct (pcodec e (t_zz t) true) as [q|] eqn:Eq; [|discriminate]. inversion Hp; subst p. cbn [pref_visits] in Hv.
      eapply tc_call; [apply IHc; [exact Eq| |exact HC|exact HW]|auto|].
      { intros z Hz. apply Hv. right. exact Hz. }
      intros [c w'] G1 s1 X1 C1 [Hc1 W1]. apply slice_tc; auto; [eapply pcodec_ty; exact Eq|apply Hv; left; reflexivity].
    + destruct (parseStructTag (gf_key f)) as [kt ke]. destruct (parseStructTag (gf_val f)) as [vt ve]. cbn [fst] in Hp.
      destruct (pcodec (TScalar key) (t_zz kt) true) as [kp|] eqn:Ek; [|discriminate]. destruct (pcodec e (t_zz vt) true) as [vp|] eqn:Ev; [|discriminate].
      inversion Hp; subst p. cbn [pref_visits] in Hv.
      eapply tc_call; [apply IHc; [exact Ek| |exact HC|exact HW]| |].
      { inversion Ek. intros z []. }
      { cbn [goodp]. tauto. }
      intros [kc w1] G1 s1 X1 C1 [Hk1 W1].
      eapply tc_call; [apply IHc; [exact Ev|exact Hv|exact C1|exact W1]| |].
      { cbn [goodp]. tauto. }
      intros [vc w2] G2 s2 X2 C2 [Hv2 W2].
      eapply tc_conseq; [apply IHm; [exact Hm| | |exact C2|exact W2]| |].
      * split; [reflexivity|]. split; [reflexivity|]. cbn [mkfield f_codec]. eapply cref_ext; [exact X2|exact Hk1].
      * split; [reflexivity|]. split; [reflexivity|]. exact Hv2.
      * cbn [goodp]. tauto.
      * auto.
    + destruct (baseTypeOf e) eqn:Eb; try discriminate; auto.
  - intros w key val tag kf vf kt vt kp vp oc oi G s Hk Hkf Hvf HC HW. cbn [w_mapCodec].
    assert (Ekt : wiretag (f_meta kf) = kt) by (destruct Hkf as (_ & -> & _); reflexivity).
    assert (Evt : wiretag (f_meta vf) = vt) by (destruct Hvf as (_ & -> & _); reflexivity).
    rewrite Ekt, Evt.
    apply tc_newCell with (r := Some (PMap tag kt vt key val kp vp)); [assumption|]. cbv zeta. intros C1 N1 _.
    eapply tc_bind; [apply IHi; [exact Hk|exact C1|apply CW_set]| |].
    + eapply CW_ext; [apply gcell_ext|exact HW].
    + intros q Hq. exfalso. exact (HVm key val q Hq).
    + discriminate.
    + exact Logic.I.
    + reflexivity.
    + intros G' s' X C2 Hb. split; [|exact Hb]. eapply CI_less; [exact C2| |auto]. intros n p' [<-|J] Hp' Hg; [|exact J]. exfalso.
      rewrite (cref_fun _ _ _ _ Hp' (cref_ext _ _ (CCell _) _ X N1)) in Hg. apply Hb. apply Hg.
    + intros [i w'] G2 s2 X C2 [Hi2 W2]. assert (N2 := cref_ext _ _ (CCell _) _ X N1).
      assert (X' : cext G G2) by (eapply cext_trans; [apply gcell_ext|exact X]).
      apply tc_fill; [assumption| |].
      { intros p' Hp' _. rewrite (cref_fun _ _ _ _ Hp' N2). cbn [plook]. constructor; [eapply field_rel_ext; eassumption..|exact Hi2]. }
      cbv zeta. intros C3. apply tc_ret; [assumption|]. split; [exact N2|exact W2].
Qed.
End Clean.
