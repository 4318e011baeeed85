(** The walker on declarations whose lists of one Go type do not all want the
    same codec: every list gets a codec some list of its type wants, and keeps
    it. *)
From Coq Require Import ZifyBool ZifyNat ZifyN String.
From Verif Require Import Base Wire GoType Leaf Codec Tag Walker Api Resolve Typing
  TypingFacts CodecSim WalkInv WalkFuel WalkSeq AnyWalk RejectFacts CleanWalk.
Local Close Scope string_scope.

Lemma assoc_none {K V} (dec : forall a b : K, {a = b} + {a <> b}) k (l : list (K * V)) : assoc dec k l = None -> forall v, ~ In (k, v) l.
Proof.
  induction l as [|[k' v'] l IH]; cbn; [auto|]. destruct (dec k k') as [|Hne]; [discriminate|]. intros H v [E|E]; [inversion E; congruence|]. exact (IH H v E).
Qed.

Section Zig.
Variable D : decls.
Variable VV : list (gotype * pref).
Hypothesis Hfun : forall t p q, In (t, p) VV -> In (t, q) VV -> (forall e, t <> TSlice e) -> p = q.
(** Keys the walker comes across. *)
Variable vk : skey -> Prop.
Hypothesis Hvk : forall k f tag, vk k -> In f (struct_fields D k) -> gf_exported f = true -> gf_tag f = Some tag ->
  exists t p, parseStructTag tag = (t, None) /\ pfield t f = Some p /\ incl (pref_visits (gf_type f) p) VV /\
    match p with PMap _ kt vt key val _ _ => vk (SEntry key val kt vt) | _ => True end.
Hypothesis Hvl : forall k, vk k -> pfields 0 (struct_fields D k) <> None.
Hypothesis Hvn : forall m, vk (SNamed m).
Hypothesis Hvo : forall k, vk (SOpt k).
Hypothesis HVV : forall t p, In (t, p) VV -> struct_ptr t = None.
Hypothesis HVm : forall key val p, ~ In (TMap key val, p) VV.

(** A codec a field may get instead of its own. *)
Definition pchoice (p0 p : pref) : Prop := p = p0 \/ exists e q0, p0 = PSlice e q0 /\ In (TSlice e, p) VV.
Definition fchosen (f0 f : sfield pref) : Prop := f_idx f0 = f_idx f /\ f_meta f0 = f_meta f /\ pchoice (f_codec f0) (f_codec f).

(** ** Ghost state and invariant *)
Record zgh := { hc : list pref; hi : list skey }.
Definition cref_is (G : zgh) (c : cref) (p : pref) : Prop :=
  match c with CStatic s => p = PStatic s | CCell n => nth_error (hc G) n = Some p end.
Definition iref_is (G : zgh) (i : iref) (k : skey) : Prop := nth_error (hi G) i = Some k.
Definition cin (G : zgh) (c : cref) : Prop := match c with CStatic _ => True | CCell n => n < length (hc G) end.
Definition FL G (fs : list hfield) (k : skey) : Prop :=
  exists l, Forall2 fchosen (i_fields (piget D k)) l /\ Forall2 (field_rel (cref_is G)) fs l.

Record CI (n0 : nat) (oc oi : list nat) (G : zgh) (s : gstate) : Prop := {
  c_lc : length (hc G) = length (g_cells s);
  c_li : length (hi G) = length (g_infos s);
  c_cells : forall n b p, nth_error (g_cells s) n = Some b -> cref_is G (CCell n) p ->
    In n oc \/ body_rel (cref_is G) (iref_is G) b (plook p);
  c_infos : forall i x k, nth_error (g_infos s) i = Some x -> iref_is G i k ->
    In i oi \/ (FL G (i_fields x) k /\ i_index x = i_fields x);
  c_ic : forall k i, In (k, i) (g_infoCache s) -> iref_is G i k;
  c_cc : forall t c, In (t, c) (g_codecCache s) -> forall k, struct_ptr t = Some k -> cref_is G c (PStruct k);
  c_sm : forall c d, In (c, d) (g_sliceMap s) -> cin G c /\ forall p, cref_is G c p -> cref_is G d (PSlice (ty_of p) p);
  c_n : n0 <= length (g_infos s);
  c_un : forall i j k, iref_is G i k -> iref_is G j k -> i = j;
  c_src : forall i k, iref_is G i k -> In (k, i) (g_infoCache s) \/ In i oi;
  c_vk : forall i k, iref_is G i k -> vk k
}.
Record CW (oi : list nat) (G : zgh) (w : walker) : Prop := {
  cw_vv : forall t c, In (t, c) (w_codecs w) -> forall p, In (t, p) VV ->
    match t with TSlice _ => exists q, In (t, q) VV /\ cref_is G c q | _ => cref_is G c p end;
  cw_st : forall t c, In (t, c) (w_codecs w) -> forall k, struct_ptr t = Some k -> cref_is G c (PStruct k);
  cw_ne : forall t c, In (t, c) (w_codecs w) -> match t with TScalar _ | TBytes => False | _ => True end;
  cw_in : forall k i, In (k, i) (w_infos w) -> iref_is G i k;
  cw_oi : forall i, In i oi -> exists k, iref_is G i k /\ In (k, i) (w_infos w)
}.
Definition cext (G G' : zgh) : Prop := (exists a, hc G' = hc G ++ a) /\ (exists b, hi G' = hi G ++ b).
Lemma cext_refl G : cext G G.
Proof. split; exists []; symmetry; apply app_nil_r. Qed.
Lemma cext_trans a b c : cext a b -> cext b c -> cext a c.
Proof.
  intros [[x1 E1] [y1 F1]] [[x2 E2] [y2 F2]]. split; [exists (x1 ++ x2)|exists (y1 ++ y2)]; [rewrite E2, E1|rewrite F2, F1]; symmetry; apply app_assoc.
Qed.
Lemma cref_ext G G' c p : cext G G' -> cref_is G c p -> cref_is G' c p.
Proof. intros [[x E] _]. destruct c; cbn; [auto|]. rewrite E. apply nth_app_some. Qed.
Lemma cref_back G G' c p : cext G G' -> cin G c -> cref_is G' c p -> cref_is G c p.
Proof. intros [[x E] _]. destruct c; cbn; [auto|]. rewrite E. intros H. rewrite nth_error_app1 by assumption. auto. Qed.
Lemma iref_ext G G' i k : cext G G' -> iref_is G i k -> iref_is G' i k.
Proof. intros [_ [x E]]. unfold iref_is. rewrite E. apply nth_app_some. Qed.
Lemma cin_ext G G' c : cext G G' -> cin G c -> cin G' c.
Proof. intros [[x E] _]. destruct c; cbn; [auto|]. rewrite E, app_length. lia. Qed.
Lemma cref_cin G c p : cref_is G c p -> cin G c.
Proof. destruct c; cbn; [auto|]. intros H. apply nth_error_Some. congruence. Qed.
Lemma cref_fun G c p q : cref_is G c p -> cref_is G c q -> p = q.
Proof. destruct c; cbn; congruence. Qed.
Lemma field_rel_ext G G' a b : cext G G' -> field_rel (cref_is G) a b -> field_rel (cref_is G') a b.
Proof. intros X (A & B & C). split; [exact A|]. split; [exact B|]. eapply cref_ext; eassumption. Qed.
Lemma fields_rel_ext G G' l l' : cext G G' -> Forall2 (field_rel (cref_is G)) l l' -> Forall2 (field_rel (cref_is G')) l l'.
Proof. intros X. induction 1; constructor; auto. eapply field_rel_ext; eassumption. Qed.
Lemma FL_ext G G' fs k : cext G G' -> FL G fs k -> FL G' fs k.
Proof. intros X (l & A & B). exists l. split; [exact A|]. eapply fields_rel_ext; eassumption. Qed.
Lemma body_rel_ext G G' a b : cext G G' -> body_rel (cref_is G) (iref_is G) a b -> body_rel (cref_is G') (iref_is G') a b.
Proof.
  intros X [s|t c1 c2 H|t c1 c2 H|k i1 i2 H|tag kf1 vf1 kf2 vf2 e i1 i2 H1 H2 H3]; constructor;
    eauto using cref_ext, iref_ext, field_rel_ext.
Qed.
Lemma CW_ext oi G G' w : cext G G' -> CW oi G w -> CW oi G' w.
Proof.
  intros X [A B C E F]. split; eauto using cref_ext, iref_ext.
  - intros t c Hc p Hp. specialize (A t c Hc p Hp). destruct t; eauto using cref_ext. destruct A as (q & A1 & A2). eauto using cref_ext.
  - intros i Hi. destruct (F i Hi) as (k & F1 & F2). eauto using iref_ext.
Qed.
Lemma CW_less i oi G w : CW (i :: oi) G w -> CW oi G w.
Proof. intros [A B C E F]. split; auto. intros j Hj. apply F. right. exact Hj. Qed.

(** ** Triples *)
(** Infos allocated before and not under construction stay as they are. *)
Definition keep (n0 : nat) (oi : list nat) (s s' : gstate) : Prop :=
  forall i x, i < n0 -> ~ In i oi -> nth_error (g_infos s) i = Some x -> nth_error (g_infos s') i = Some x.
Lemma keep_refl n oi s : keep n oi s s.
Proof. intros i x _ _ H. exact H. Qed.
Lemma keep_trans n oi a b c : keep n oi a b -> keep n oi b c -> keep n oi a c.
Proof. intros H1 H2 i x L N H. apply H2; auto. Qed.

Variable n0 : nat.
Notation CI' := (CI n0).
Definition tc {A} (oc oi : list nat) (p : prog A) (G : zgh) (s : gstate) (Q : A -> zgh -> gstate -> Prop) : Prop :=
  match run p s with
  | (Done a, s') => exists G', cext G G' /\ keep n0 oi s s' /\ CI' oc oi G' s' /\ Q a G' s'
  | (Panicked, s') => False
  | (OutOfFuel, _) => True
  end.
Lemma tc_ret {A} oc oi (a : A) G s (Q : A -> zgh -> gstate -> Prop) : CI' oc oi G s -> Q a G s -> tc oc oi (Ret a) G s Q.
Proof. intros H1 H2. exists G. split; [apply cext_refl|]. split; [apply keep_refl|]. auto. Qed.
Lemma tc_bind {A B} oc oi oc1 oi1 (p : prog A) (k : A -> prog B) G s Q1 Q : tc oc1 oi1 p G s Q1 ->
  (forall i, i < n0 -> In i oi1 -> In i oi) ->
  (forall a G' s', cext G G' -> CI' oc1 oi1 G' s' -> Q1 a G' s' -> tc oc oi (k a) G' s' Q) ->
  tc oc oi (pbind p k) G s Q.
Proof.
  unfold tc. rewrite run_bind. intros H Hb Hk. destruct (run p s) as [[a| |] s1]; auto.
  destruct H as (G1 & X1 & K1 & C1 & H1). specialize (Hk a G1 s1 X1 C1 H1). destruct (run (k a) s1) as [[b| |] s2]; auto.
  destruct Hk as (G2 & X2 & K2 & Hk). exists G2. split; [eapply cext_trans; eassumption|]. split; [|exact Hk].
  eapply keep_trans; [|exact K2]. intros i x L N Hi. apply K1; auto.
Qed.
Lemma tc_call {A B} oc oi (p : prog A) (k : A -> prog B) G s Q1 Q : tc oc oi p G s Q1 ->
  (forall a G' s', cext G G' -> CI' oc oi G' s' -> Q1 a G' s' -> tc oc oi (k a) G' s' Q) -> tc oc oi (pbind p k) G s Q.
Proof. intros H Hk. eapply tc_bind; [exact H|auto|exact Hk]. Qed.
Lemma tc_do {A} oc oi o (k : resp o -> prog A) G s G1 Q : cext G G1 -> keep n0 oi s (snd (exec o s)) ->
  tc oc oi (k (fst (exec o s))) G1 (snd (exec o s)) Q -> tc oc oi (pbind (do_ o) k) G s Q.
Proof.
  intros X K H. unfold tc in *. cbn [pbind do_ run]. destruct (exec o s) as [r s1]. cbn [fst snd] in *.
  destruct (run (k r) s1) as [[b| |] s2]; auto. destruct H as (G2 & X2 & K2 & H). exists G2.
  split; [eapply cext_trans; eassumption|]. split; [eapply keep_trans; eassumption|exact H].
Qed.
Lemma tc_conseq {A} oc oi (p : prog A) G s (Q1 Q : A -> zgh -> gstate -> Prop) : tc oc oi p G s Q1 ->
  (forall a G' s', cext G G' -> Q1 a G' s' -> Q a G' s') -> tc oc oi p G s Q.
Proof.
  unfold tc. intros H Hq. destruct (run p s) as [[a| |] s1]; auto. destruct H as (G1 & X1 & K1 & C1 & H1). exists G1; eauto 6.
Qed.

Definition gcell (G : zgh) (r : pref) : zgh := {| hc := hc G ++ [r]; hi := hi G |}.
Definition ginfo (G : zgh) (k : skey) : zgh := {| hc := hc G; hi := hi G ++ [k] |}.
Lemma gcell_ext G r : cext G (gcell G r).
Proof. split; [exists [r]; reflexivity|exists []; symmetry; apply app_nil_r]. Qed.
Lemma ginfo_ext G k : cext G (ginfo G k).
Proof. split; [exists []; symmetry; apply app_nil_r|exists [k]; reflexivity]. Qed.

(** The new codec is the caller's until it is filled. *)
Lemma tc_newCell {A} oc oi r (k : cref -> prog A) G s Q : CI' oc oi G s ->
  (let n := length (g_cells s) in let s1 := g_with_cells s (g_cells s ++ [BNil]) in
   CI' (n :: oc) oi (gcell G r) s1 -> cref_is (gcell G r) (CCell n) r ->
   tc oc oi (k (CCell n)) (gcell G r) s1 Q) -> tc oc oi (pbind newCell k) G s Q.
Proof.
  intros HC H. cbv zeta in H. pose proof (gcell_ext G r) as X.
  assert (C1 : CI' (length (g_cells s) :: oc) oi (gcell G r) (g_with_cells s (g_cells s ++ [BNil]))).
  { pose proof (c_lc _ _ _ _ _ HC) as L. destruct HC as [_ L2 B I C1 C2 C3 C4 C5 C6 C7]. split; cbn [g_with_cells g_cells g_infos g_infoCache g_codecCache g_sliceMap]; auto.
    - cbn. rewrite !app_length. cbn. lia.
    - intros n b p Hn Hp. destruct (Nat.lt_ge_cases n (length (g_cells s))) as [Hl|Hl].
      + rewrite nth_error_app1 in Hn by assumption. destruct (B n b p Hn) as [J|J]; auto.
        * eapply cref_back; [exact X| |exact Hp]. cbn. lia.
        * left. right. exact J.
        * right. eapply body_rel_ext; eassumption.
      + assert (n = length (g_cells s)). { assert (n < length (g_cells s ++ [BNil])) by (apply nth_error_Some; congruence). rewrite app_length in *. cbn in *. lia. }
        left. left. auto.
    - intros i x k0 Hi Hk. destruct (I i x k0 Hi Hk) as [J|[J1 J2]]; [auto|]. right. split; [eapply FL_ext; eassumption|exact J2].
    - intros t c Hc k0 Hk. eapply cref_ext; eauto.
    - intros c d Hc. destruct (C3 c d Hc) as [J1 J2]. split; [eapply cin_ext; eassumption|]. intros p Hp.
      eapply cref_ext; [exact X|]. apply J2. eapply cref_back; eassumption. }
  unfold newCell. eapply (tc_do oc oi NewCell k G s (gcell G r)); cbn [exec snd fst]; [exact X|intros i x _ _ Hi; exact Hi|].
  apply H; [exact C1|].
  cbn. rewrite <- (c_lc _ _ _ _ _ HC). rewrite nth_error_app2 by lia. rewrite Nat.sub_diag. reflexivity.
Qed.
Lemma tc_fill {A} oc oi n b (k : unit -> prog A) G s Q : CI' (n :: oc) oi G s ->
  (forall p, cref_is G (CCell n) p -> body_rel (cref_is G) (iref_is G) b (plook p)) ->
  (let s1 := g_with_cells s (upd (g_cells s) n b) in CI' oc oi G s1 -> tc oc oi (k tt) G s1 Q) ->
  tc oc oi (pbind (fill (CCell n) b) k) G s Q.
Proof.
  intros HC Hb H. cbv zeta in H.
  assert (C1 : CI' oc oi G (g_with_cells s (upd (g_cells s) n b))).
  { destruct HC as [L1 L2 B I C1 C2 C3 C4 C5 C6 C7]. split; cbn [g_with_cells g_cells g_infos g_infoCache g_codecCache g_sliceMap]; auto.
    - rewrite upd_length. assumption.
    - intros m b' p Hm Hp. rewrite nth_upd in Hm. destruct (Nat.eqb_spec n m) as [->|Hne].
      + destruct (m <? length (g_cells s)); [inversion Hm; subst|discriminate]. right. apply Hb; assumption.
      + destruct (B m b' p Hm Hp) as [[J|J]|J]; auto. contradiction. }
  unfold fill. eapply (tc_do oc oi (Fill (CCell n) b) k G s G); cbn [exec snd fst]; [apply cext_refl|intros i x _ _ Hi; exact Hi|]. apply H. exact C1.
Qed.
Lemma tc_newInfo {A} oc oi k0 (k : iref -> prog A) G s Q : vk k0 -> CI' oc oi G s -> (forall i, ~ iref_is G i k0) ->
  (let i := length (g_infos s) in let s1 := g_with_infos s (g_infos s ++ [i_empty]) in
   n0 <= i -> CI' oc (i :: oi) (ginfo G k0) s1 -> iref_is (ginfo G k0) i k0 ->
   tc oc oi (k i) (ginfo G k0) s1 Q) -> tc oc oi (pbind newInfo k) G s Q.
Proof.
  intros Hk0 HC Hnew H. cbv zeta in H. pose proof (ginfo_ext G k0) as X. pose proof (c_n _ _ _ _ _ HC) as Ln.
  assert (Hb : forall i k1, iref_is (ginfo G k0) i k1 -> iref_is G i k1 \/ (i = length (g_infos s) /\ k1 = k0)).
  { intros i k1. unfold iref_is. cbn [ginfo hi]. destruct (Nat.lt_ge_cases i (length (hi G))) as [Hl|Hl]; [rewrite nth_error_app1 by assumption; auto|].
    rewrite nth_error_app2 by assumption. destruct (i - length (hi G)) as [|j] eqn:Ej; cbn; [|destruct j; discriminate].
    intros E; inversion E. right. rewrite <- (c_li _ _ _ _ _ HC). split; [lia|reflexivity]. }
  assert (C1 : CI' oc (length (g_infos s) :: oi) (ginfo G k0) (g_with_infos s (g_infos s ++ [i_empty]))).
  { pose proof (c_li _ _ _ _ _ HC) as L. destruct HC as [L1 _ B I C1 C2 C3 C4 C5 C6 C7]. split; cbn [g_with_infos g_cells g_infos g_infoCache g_codecCache g_sliceMap]; auto.
    - cbn. rewrite !app_length. cbn. lia.
    - intros n b p Hn Hp. destruct (B n b p Hn Hp) as [J|J]; auto. right. eapply body_rel_ext; eassumption.
    - intros i x k1 Hi Hk. destruct (Nat.lt_ge_cases i (length (g_infos s))) as [Hl|Hl].
      + rewrite nth_error_app1 in Hi by assumption. unfold iref_is in Hk. cbn [ginfo hi] in Hk. rewrite nth_error_app1 in Hk by lia.
        destruct (I i x k1 Hi Hk) as [J|[J1 J2]]; [left; right; exact J|]. right. split; [eapply FL_ext; eassumption|exact J2].
      + assert (i = length (g_infos s)). { assert (i < length (g_infos s ++ [i_empty])) by (apply nth_error_Some; congruence). rewrite app_length in *. cbn in *. lia. }
        left. left. auto.
    - intros k1 i Hi. eapply iref_ext; eauto.
    - rewrite app_length. lia.
    - intros i j k1 Hi Hj. apply Hb in Hi, Hj. destruct Hi as [Hi|[Hi1 Hi2]], Hj as [Hj|[Hj1 Hj2]]; [eapply C5; eassumption|subst; exfalso; eapply Hnew; eassumption..|congruence].
    - intros i k1 Hi. apply Hb in Hi. destruct Hi as [Hi|[-> _]]; [|right; left; reflexivity]. destruct (C6 i k1 Hi); auto. right. right. assumption.
    - intros i k1 Hi. apply Hb in Hi. destruct Hi as [Hi|[_ ->]]; [eauto|exact Hk0]. }
  unfold newInfo. eapply (tc_do oc oi NewInfo k G s (ginfo G k0)); cbn [exec snd fst]; [exact X| |].
  { intros i x _ _ Hi. cbn [g_with_infos g_infos]. apply nth_app_some. exact Hi. }
  apply H; [exact Ln|exact C1|].
  unfold iref_is. cbn. rewrite <- (c_li _ _ _ _ _ HC). rewrite nth_error_app2 by lia. rewrite Nat.sub_diag. reflexivity.
Qed.
Lemma tc_publish {A} oc oi k0 i fs (k : unit -> prog A) G s Q : CI' oc (i :: oi) G s -> i < length (g_infos s) -> n0 <= i ->
  iref_is G i k0 -> FL G fs k0 ->
  (forall s1, CI' oc oi G s1 -> tc oc oi (k tt) G s1 Q) ->
  tc oc oi (let* _ := setFields i fs in let* _ := setIndex i fs in let* r := infoStore k0 i in k r) G s Q.
Proof.
  intros HC Hl Hn Hi Hf H.
  assert (Hl' := Hl). apply nth_error_Some in Hl'. destruct (nth_error (g_infos s) i) as [x|] eqn:Ex; [|contradiction]. clear Hl'.
  set (y := {| i_fields := fs; i_index := fs |}).
  set (s1 := g_with_infoCache (g_with_infos s (upd (upd (g_infos s) i {| i_fields := fs; i_index := i_index x |}) i y)) ((k0, i) :: g_infoCache s)).
  assert (Ln : length (g_infos s1) = length (g_infos s)) by (cbn; rewrite !upd_length; reflexivity).
  assert (Nth : forall j, nth_error (g_infos s1) j = if Nat.eqb i j then Some y else nth_error (g_infos s) j).
  { intros j. cbn. rewrite !nth_upd, upd_length. replace (i <? length (g_infos s)) with true by lia. destruct (i =? j); reflexivity. }
  assert (C1 : CI' oc oi G s1).
  { destruct HC as [L1 L2 B I C1 C2 C3 C4 C5 C6 C7]. split; auto.
    - rewrite Ln. assumption.
    - intros j z k1 Hj Hk. rewrite Nth in Hj. destruct (Nat.eqb_spec i j) as [->|Hne].
      + inversion Hj; subst z. assert (k1 = k0) by (unfold iref_is in *; congruence). subst k1. right. split; [exact Hf|reflexivity].
      + destruct (I j z k1 Hj Hk) as [[J|J]|J]; auto. contradiction.
    - intros k1 j [Hj|Hj]; [inversion Hj; subst; assumption|auto].
    - rewrite Ln. assumption.
    - intros j k1 Hj. destruct (C6 j k1 Hj) as [J|[<-|J]]; [left; right; exact J| |right; exact J]. left. left. f_equal. unfold iref_is in *. congruence. }
  specialize (H s1 C1).
  unfold tc in *. unfold setFields, setIndex, infoStore. cbn [pbind do_ run exec]. rewrite Ex.
  assert (Nth2 : nth_error (g_infos (g_with_infos s (upd (g_infos s) i {| i_fields := fs; i_index := i_index x |}))) i = Some {| i_fields := fs; i_index := i_index x |}).
  { cbn. rewrite nth_upd, Nat.eqb_refl. replace (i <? length (g_infos s)) with true by lia. reflexivity. }
  rewrite Nth2. cbn [i_fields i_index].
  change (run (k tt) _) with (run (k tt) s1). destruct (run (k tt) s1) as [[a| |] s2]; auto.
  destruct H as (G' & X & K & H). exists G'. split; [exact X|]. split; [|exact H]. eapply keep_trans; [|exact K].
  intros j z L N Hj. rewrite Nth. destruct (Nat.eqb_spec i j) as [->|]; [lia|exact Hj].
Qed.
Lemma tc_infoLoad {A} oc oi k0 (k : option iref -> prog A) G s Q :
  tc oc oi (k (assoc skey_eq_dec k0 (g_infoCache s))) G s Q -> tc oc oi (pbind (infoLoad k0) k) G s Q.
Proof. intros H. unfold infoLoad. eapply (tc_do oc oi (InfoLoad k0) k G s G); cbn [exec snd fst]; auto using cext_refl, keep_refl. Qed.
Lemma tc_codecLoad {A} oc oi t (k : option cref -> prog A) G s Q :
  tc oc oi (k (assoc gotype_eq_dec t (g_codecCache s))) G s Q -> tc oc oi (pbind (codecLoad t) k) G s Q.
Proof. intros H. unfold codecLoad. eapply (tc_do oc oi (CodecLoad t) k G s G); cbn [exec snd fst]; auto using cext_refl, keep_refl. Qed.
Lemma tc_sliceLoad {A} oc oi c (k : option cref -> prog A) G s Q :
  tc oc oi (k (assoc cref_eq_dec c (g_sliceMap s))) G s Q -> tc oc oi (pbind (sliceLoad c) k) G s Q.
Proof. intros H. unfold sliceLoad. eapply (tc_do oc oi (SliceLoad c) k G s G); cbn [exec snd fst]; auto using cext_refl, keep_refl. Qed.
Lemma tc_codecLoadOrStore {A} oc oi t c k0 (k : cref -> prog A) G s Q : CI' oc oi G s -> struct_ptr t = Some k0 -> cref_is G c (PStruct k0) ->
  (forall d s1, CI' oc oi G s1 -> cref_is G d (PStruct k0) -> tc oc oi (k d) G s1 Q) ->
  tc oc oi (pbind (codecLoadOrStore t c) k) G s Q.
Proof.
  intros HC Ht Hc H. unfold codecLoadOrStore.
  assert (C2 : CI' oc oi G (g_with_codecCache s ((t, c) :: g_codecCache s))).
  { destruct HC as [L1 L2 B I C1 C2 C3 C4 C5 C6 C7]. split; auto. intros t0 c0 [E|E] k1 Hk1; [|eauto]. inversion E; subst. congruence. }
  eapply (tc_do oc oi (CodecLoadOrStore t c) k G s G); [apply cext_refl|..];
    cbn [exec]; destruct (assoc gotype_eq_dec t (g_codecCache s)) as [d|] eqn:Ea; cbn [fst snd]; auto using keep_refl.
  { intros i x _ _ Hi; exact Hi. }
  apply H; [assumption|]. apply assoc_In in Ea. eapply (c_cc _ _ _ _ _ HC); eassumption.
Qed.
Lemma tc_sliceLoadOrStore {A} oc oi c d p (k : cref -> prog A) G s Q : CI' oc oi G s -> cref_is G c p -> cref_is G d (PSlice (ty_of p) p) ->
  (forall d s1, CI' oc oi G s1 -> cref_is G d (PSlice (ty_of p) p) -> tc oc oi (k d) G s1 Q) ->
  tc oc oi (pbind (sliceLoadOrStore c d) k) G s Q.
Proof.
  intros HC Hc Hd H. unfold sliceLoadOrStore.
  assert (C2 : CI' oc oi G (g_with_sliceMap s ((c, d) :: g_sliceMap s))).
  { destruct HC as [L1 L2 B I C1 C2 C3 C4 C5 C6 C7]. split; auto. intros c0 d0 [E|E]; [|eauto]. inversion E; subst. split; [eapply cref_cin; eassumption|].
    intros q Hq. rewrite (cref_fun _ _ _ _ Hq Hc). exact Hd. }
  eapply (tc_do oc oi (SliceLoadOrStore c d) k G s G); [apply cext_refl|..];
    cbn [exec]; destruct (assoc cref_eq_dec c (g_sliceMap s)) as [d0|] eqn:Ea; cbn [fst snd]; auto using keep_refl.
  { intros i x _ _ Hi; exact Hi. }
  apply H; [assumption|]. apply assoc_In in Ea. destruct (c_sm _ _ _ _ _ HC _ _ Ea) as [_ J]. apply J. exact Hc.
Qed.

(** ** The walker *)
Lemma CW_empty G : CW [] G {| w_codecs := []; w_infos := [] |}.
Proof. split; try (intros ? ? []). intros ? []. Qed.
Lemma CW_set oi G w t c : CW oi G w ->
  (forall p, In (t, p) VV -> match t with TSlice _ => exists q, In (t, q) VV /\ cref_is G c q | _ => cref_is G c p end) ->
  (forall k, struct_ptr t = Some k -> cref_is G c (PStruct k)) ->
  match t with TScalar _ | TBytes => False | _ => True end -> CW oi G (w_set w t c).
Proof.
  intros [A B C E F] H1 H2 H3. split; auto.
  - intros t0 c0 [H|H]; [inversion H; subst; exact H1|exact (A _ _ H)].
  - intros t0 c0 [H|H]; [inversion H; subst; auto|eauto].
  - intros t0 c0 [H|H]; [inversion H; subst; exact H3|exact (C _ _ H)].
Qed.
Lemma CW_iset oi G w k i : CW oi G w -> iref_is G i k -> CW (i :: oi) G (w_iset w k i).
Proof.
  intros [A B C E F] H. split; auto.
  - intros k0 i0 [J|J]; [inversion J; subst; auto|eauto].
  - intros j [<-|Hj]; [exists k; split; [exact H|left; reflexivity]|]. destruct (F j Hj) as (k1 & F1 & F2). exists k1. split; [exact F1|right; exact F2].
Qed.

Definition cpost (oi : list nat) (p : pref) : cref * walker -> zgh -> gstate -> Prop := fun '(c, w) G s => cref_is G c p /\ CW oi G w.
Definition cpick (oi : list nat) (p : pref) : cref * walker -> zgh -> gstate -> Prop := fun '(c, w) G s => (exists q, pchoice p q /\ cref_is G c q) /\ CW oi G w.

Lemma slice_tc e c w p oc oi G s : CI' oc oi G s -> CW oi G w -> cref_is G c p -> ty_of p = e ->
  In (TSlice e, PSlice e p) VV -> tc oc oi (sliceCodecOf (TSlice e) c w) G s (cpick oi (PSlice e p)).
Proof.
  intros HC HW Hc He Hv. unfold sliceCodecOf. apply tc_sliceLoad.
  destruct (assoc cref_eq_dec c (g_sliceMap s)) as [d|] eqn:Ea.
  { apply tc_ret; [assumption|]. apply assoc_In in Ea. destruct (c_sm _ _ _ _ _ HC _ _ Ea) as [_ J]. split; [|exact HW].
    eexists. split; [left; reflexivity|]. rewrite <- He at 1. apply J. exact Hc. }
  destruct (w_get w (TSlice e)) as [d|] eqn:Ew.
  { apply tc_ret; [assumption|]. apply assoc_In in Ew. split; [|exact HW]. destruct (cw_vv _ _ _ HW _ _ Ew _ Hv) as (q & Q1 & Q2).
    exists q. split; [right; eauto|exact Q2]. }
  apply tc_newCell with (r := PSlice e p); [assumption|]. cbv zeta. intros C1 N1.
  assert (Hc' : cref_is (gcell G (PSlice e p)) c p) by (eapply cref_ext; [apply gcell_ext|exact Hc]).
  apply tc_fill; [assumption| |].
  { intros q Hq. pose proof (cref_fun _ (CCell _) _ _ Hq N1) as ->. cbn [plook elem_of]. constructor. exact Hc'. }
  cbv zeta. intros C2. apply tc_sliceLoadOrStore with (p := p); [assumption|exact Hc'|rewrite He; exact N1|].
  intros d s3 C3 Hd. apply tc_ret; [assumption|]. rewrite He in Hd. split; [eexists; split; [left; reflexivity|exact Hd]|]. apply CW_set.
  - eapply CW_ext; [apply gcell_ext|exact HW].
  - intros q Hq. exists (PSlice e p). split; [exact Hv|exact N1].
  - discriminate.
  - exact Logic.I.
Qed.

Definition flist (idx : nat) (fs : list gofield) (G : zgh) (l : list hfield) : Prop :=
  forall r, pfields idx fs = Some r -> exists l', Forall2 fchosen r l' /\ Forall2 (field_rel (cref_is G)) l l'.

Lemma walk_tc fuel :
  (forall w t zz rq p oc oi G s, pcodec t zz rq = Some p -> incl (pref_visits t p) VV -> CI' oc oi G s -> CW oi G w ->
     tc oc oi (w_codec D fuel w t zz rq) G s (cpost oi p)) /\
  (forall w t k oc oi G s, struct_ptr t = Some k -> vk k -> CI' oc oi G s -> CW oi G w ->
     tc oc oi (w_structCodec D fuel w t k) G s (cpost oi (PStruct k))) /\
  (forall w k oc oi G s, vk k -> CI' oc oi G s -> CW oi G w ->
     tc oc oi (w_structInfo D fuel w k) G s (fun '(i, w') G' s' => iref_is G' i k /\ CW oi G' w')) /\
  (forall w idx fs oc oi G s, (exists k, vk k /\ incl fs (struct_fields D k)) -> CI' oc oi G s -> CW oi G w ->
     tc oc oi (w_fields D fuel w idx fs) G s (fun '(l, w') G' s' => flist idx fs G' l /\ CW oi G' w')) /\
  (forall w t f oc oi G s p, pfield t f = Some p -> incl (pref_visits (gf_type f) p) VV ->
     match p with PMap _ kt vt key val _ _ => vk (SEntry key val kt vt) | _ => True end -> CI' oc oi G s -> CW oi G w ->
     tc oc oi (w_field D fuel w t f) G s (cpick oi p)) /\
  (forall w key val tag kf vf kt vt kp vp oc oi G s, vk (SEntry key val kt vt) ->
     field_rel (cref_is G) kf (mkfield 0 kt kp) -> field_rel (cref_is G) vf (mkfield 1 vt vp) -> CI' oc oi G s -> CW oi G w ->
     tc oc oi (w_mapCodec D fuel w key val tag kf vf) G s (cpost oi (PMap tag kt vt key val kp vp))).
Proof.
  induction fuel as [|fuel (IHc & IHs & IHi & IHfs & IHf & IHm)].
  { repeat match goal with |- _ /\ _ => split end; intros; exact Logic.I. }
  repeat match goal with |- _ /\ _ => split end.
  - intros w t zz rq p oc oi G s Hp Hv HC HW. cbn [w_codec]. destruct (w_get w t) as [c|] eqn:E.
    { apply tc_ret; [assumption|]. apply assoc_In in E. split; [|exact HW].
      pose proof (cw_ne _ _ _ HW _ _ E) as Hne. destruct (struct_ptr t) as [k|] eqn:Es.
      - rewrite (struct_ptr_pcodec t k zz rq Es) in Hp. inversion Hp; subst p. eapply (cw_st _ _ _ HW); eassumption.
      - assert (Hin : In (t, p) VV).
        { apply Hv. destruct t as [k| |k|e|k e|e|m|]; try discriminate; try contradiction.
          cbn [pcodec] in Hp. destruct e; try discriminate; try (inversion Hp; subst p; left; reflexivity);
            match type of Hp with option_map _ ?x = _ => destruct x; [|discriminate]; inversion Hp; subst p; left; reflexivity end. }
        pose proof (cw_vv _ _ _ HW _ _ E _ Hin) as V. destruct t; try exact V. discriminate. }
    destruct (struct_ptr t) as [k|] eqn:Es.
    { pose proof (struct_ptr_pcodec t k zz rq Es) as Ep. rewrite Ep in Hp. inversion Hp; subst p.
      assert (Hk : vk k) by (destruct t as [| | | | |[]| |]; try discriminate; inversion Es; auto).
      destruct t as [| | | | |e|m|]; try discriminate; apply IHs; auto. }
    destruct t as [k| |k|e|k e|e|m|]; try discriminate.
    + inversion Hp; subst p. apply tc_ret; [assumption|]. split; [reflexivity|exact HW].
    + inversion Hp; subst p. apply tc_ret; [assumption|]. split; [reflexivity|exact HW].
    + assert (Hq : exists q, pcodec e zz rq = Some q /\ p = PPtr e q).
      { cbn [pcodec] in Hp. destruct e; try discriminate; try (inversion Hp; subst p; eexists; split; reflexivity);
          match type of Hp with option_map _ ?x = _ => destruct x eqn:Ex; [|discriminate]; inversion Hp; subst p; eexists; split; [first [exact Ex|reflexivity]|reflexivity] end. }
      destruct Hq as (q & Hq & ->). cbn [pref_visits] in Hv.
      assert (Hin : In (TPtr e, PPtr e q) VV) by (apply Hv; left; reflexivity).
      assert (Hv' : incl (pref_visits e q) VV) by (intros z Hz; apply Hv; right; exact Hz).
      apply tc_newCell with (r := PPtr e q); [assumption|]. cbv zeta. intros C1 N1. cbn [elem_of].
      eapply tc_bind; [apply IHc; [exact Hq|exact Hv'|exact C1|apply CW_set]|auto|].
      * eapply CW_ext; [apply gcell_ext|exact HW].
      * intros q' Hq'. rewrite (Hfun _ _ _ Hq' Hin); [exact N1|discriminate].
      * congruence.
      * exact Logic.I.
      * intros [c w'] G2 s2 X C2 [Hc2 W2]. assert (N2 := cref_ext _ _ (CCell _) _ X N1).
        apply tc_fill; [assumption| |].
        { intros p' Hp'. rewrite (cref_fun _ _ _ _ Hp' N2). cbn [plook]. constructor. exact Hc2. }
        cbv zeta. intros C3. apply tc_ret; [assumption|]. split; [exact N2|exact W2].
  - intros w t k oc oi G s Ht Hk HC HW. cbn [w_structCodec]. apply tc_codecLoad.
    destruct (assoc gotype_eq_dec t (g_codecCache s)) as [c|] eqn:E.
    { apply tc_ret; [assumption|]. apply assoc_In in E. split; [eapply (c_cc _ _ _ _ _ HC); eassumption|exact HW]. }
    destruct (w_get w t) as [c|] eqn:Ew.
    { apply tc_ret; [assumption|]. apply assoc_In in Ew. split; [eapply (cw_st _ _ _ HW); eassumption|exact HW]. }
    apply tc_newCell with (r := PStruct k); [assumption|]. cbv zeta. intros C1 N1.
    eapply tc_bind; [apply IHi; [exact Hk|exact C1|apply CW_set]|auto|].
    + eapply CW_ext; [apply gcell_ext|exact HW].
    + intros q Hq. apply HVV in Hq. congruence.
    + intros k' Hk'. replace k' with k by congruence. exact N1.
    + destruct t; try discriminate; exact Logic.I.
    + intros [i w'] G2 s2 X C2 [Hi2 W2]. assert (N2 := cref_ext _ _ (CCell _) _ X N1).
      apply tc_fill; [assumption| |].
      { intros p' Hp'. rewrite (cref_fun _ _ _ _ Hp' N2). cbn [plook]. constructor. exact Hi2. }
      cbv zeta. intros C3. eapply tc_codecLoadOrStore; [exact C3|exact Ht|exact N2|].
      intros d s4 C4 Hd. apply tc_ret; [assumption|]. split; [exact Hd|exact W2].
  - intros w k oc oi G s Hk HC HW. cbn [w_structInfo]. apply tc_infoLoad.
    destruct (assoc skey_eq_dec k (g_infoCache s)) as [i|] eqn:E.
    { apply tc_ret; [assumption|]. apply assoc_In in E. split; [eapply (c_ic _ _ _ _ _ HC); eassumption|exact HW]. }
    destruct (w_iget w k) as [i|] eqn:Ew.
    { apply tc_ret; [assumption|]. apply assoc_In in Ew. split; [eapply (cw_in _ _ _ HW); eassumption|exact HW]. }
    apply tc_newInfo with (k0 := k); [exact Hk|assumption| |].
    { intros i Hi. destruct (c_src _ _ _ _ _ HC i k Hi) as [J|J]; [exact (assoc_none _ _ _ E _ J)|].
      destruct (cw_oi _ _ _ HW i J) as (k' & J1 & J2). assert (k' = k) by (unfold iref_is in *; congruence). subst k'. exact (assoc_none _ _ _ Ew _ J2). }
    cbv zeta. intros Ln C1 N1.
    eapply tc_bind; [apply IHfs; [exists k; split; [exact Hk|apply incl_refl]|exact C1|]| |].
    + apply CW_iset; [|exact N1]. eapply CW_ext; [apply ginfo_ext|exact HW].
    + intros i Li [<-|J]; [lia|exact J].
    + intros [fs w'] G2 s2 X C2 [F2 W2]. assert (N2 := iref_ext _ _ _ _ X N1).
      apply (tc_publish oc oi k (length (g_infos s)) fs (fun _ => Ret (length (g_infos s), w'))); [assumption| |assumption|assumption| |].
      * rewrite <- (c_li _ _ _ _ _ C2). apply nth_error_Some. unfold iref_is in N2. congruence.
      * pose proof (Hvl k Hk) as Hl. unfold FL, piget, pinfo. destruct (pfields 0 (struct_fields D k)) as [l|] eqn:El; [|contradiction]. cbn. apply F2. exact El.
      * intros s3 C3. apply tc_ret; [assumption|]. split; [exact N2|]. eapply CW_less. exact W2.
  - intros w idx fs oc oi G s (k & Hk & Hin) HC HW. cbn [w_fields]. destruct fs as [|f fs].
    { apply tc_ret; [assumption|]. split; [|exact HW]. intros r Hr. inversion Hr. exists []. split; constructor. }
    assert (Hin' : incl fs (struct_fields D k)) by (intros z Hz; apply Hin; right; exact Hz).
    eapply tc_call with
      (Q1 := fun '(o, w') G' s' => match gf_exported f, gf_tag f with
        | true, Some tag => exists x t p q, o = Some x /\ parseStructTag tag = (t, None) /\ pfield t f = Some p /\ pchoice p q /\ field_rel (cref_is G') x (mkfield idx (tag_wiretag t) q)
        | _, _ => o = None end /\ CW oi G' w').
    { destruct (gf_exported f) eqn:Ee; [|apply tc_ret; [assumption|auto]].
      destruct (gf_tag f) as [tag|] eqn:Et; [|apply tc_ret; [assumption|auto]].
      destruct (Hvk k f tag Hk (Hin f (or_introl eq_refl)) Ee Et) as (t & p & Ep & Hp & Hv & Hm). rewrite Ep.
      eapply tc_call; [apply IHf; eassumption|].
      intros [c w'] G1 s1 X C1 [(q & Hq & Hc1) W1]. apply tc_ret; [assumption|]. split; [|exact W1].
      exists (mkfield idx (tag_wiretag t) c), t, p, q. split; [reflexivity|]. split; [reflexivity|]. split; [exact Hp|]. split; [exact Hq|].
      split; [reflexivity|]. split; [reflexivity|exact Hc1]. }
    intros [o w'] G1 s1 X1 C1 (Ho & W1).
    eapply tc_call; [apply IHfs; [exists k; auto|exact C1|exact W1]|].
    intros [l w''] G2 s2 X2 C2 (F2 & W2). apply tc_ret; [assumption|]. split; [|exact W2]. intros r Hr. cbn [pfields] in Hr.
    destruct (pfields (S idx) fs) as [r'|] eqn:Er; [|discriminate]. specialize (F2 r' Er).
    destruct (gf_exported f); [|subst o; inversion Hr; subst; exact F2]. destruct (gf_tag f) as [tag|]; [|subst o; inversion Hr; subst; exact F2].
    destruct Ho as (x & t & p & q & -> & Ep & Hp & Hq & Hx). rewrite Ep, Hp in Hr. inversion Hr; subst r. destruct F2 as (l' & F21 & F22).
    exists (mkfield idx (tag_wiretag t) q :: l'). split; constructor; auto; [|eapply field_rel_ext; eassumption]. split; [reflexivity|]. split; [reflexivity|exact Hq].
  - intros w t f oc oi G s p Hp Hv Hm HC HW. cbn [w_field]. unfold pfield in Hp.
    assert (Hpost : forall q (m : prog (cref * walker)), tc oc oi m G s (cpost oi q) -> tc oc oi m G s (cpick oi q)).
    { intros q m H. eapply tc_conseq; [exact H|]. intros [c w'] G' s' _ [A B]. split; [|exact B]. exists q. split; [left; reflexivity|exact A]. }
    destruct (static_choice t (gf_type f)) as [sc|].
    { inversion Hp; subst p. apply Hpost. apply tc_ret; [assumption|]. split; [reflexivity|exact HW]. }
    assert (Hpl : pcodec (gf_type f) (t_zz t) false = Some p -> tc oc oi (w_codec D fuel w (gf_type f) (t_zz t) false) G s (cpick oi p)) by (intros; apply Hpost; apply IHc; assumption).
    destruct (gf_type f) as [ks| |ko|e|key e|e|m|] eqn:Ety; cbn [baseTypeOf elem_of] in *; auto.
    + inversion Hp; subst p. apply Hpost. apply tc_ret; [assumption|]. split; [reflexivity|exact HW].
    + destruct (pcodec e (t_zz t) true) as [q|] eqn:Eq; [|discriminate]. inversion Hp; subst p. cbn [pref_visits] in Hv.
      eapply tc_call; [apply IHc; [exact Eq| |exact HC|exact HW]|].
      { intros z Hz. apply Hv. right. exact Hz. }
      intros [c w'] G1 s1 X1 C1 [Hc1 W1]. apply slice_tc; auto; [eapply pcodec_ty; exact Eq|apply Hv; left; reflexivity].
    + destruct (parseStructTag (gf_key f)) as [kt ke]. destruct (parseStructTag (gf_val f)) as [vt ve]. cbn [fst] in Hp.
      destruct (pcodec (TScalar key) (t_zz kt) true) as [kp|] eqn:Ek; [|discriminate]. destruct (pcodec e (t_zz vt) true) as [vp|] eqn:Ev; [|discriminate].
      inversion Hp; subst p. cbn [pref_visits] in Hv. apply Hpost.
      eapply tc_call; [apply IHc; [exact Ek| |exact HC|exact HW]|].
      { inversion Ek. intros z []. }
      intros [kc w1] G1 s1 X1 C1 [Hk1 W1].
      eapply tc_call; [apply IHc; [exact Ev|exact Hv|exact C1|exact W1]|].
      intros [vc w2] G2 s2 X2 C2 [Hv2 W2].
      apply IHm; [exact Hm| | |exact C2|exact W2].
      * split; [reflexivity|]. split; [reflexivity|]. cbn [mkfield f_codec]. eapply cref_ext; [exact X2|exact Hk1].
      * split; [reflexivity|]. split; [reflexivity|]. exact Hv2.
    + destruct (baseTypeOf e) eqn:Eb; try discriminate; auto.
  - intros w key val tag kf vf kt vt kp vp oc oi G s Hk Hkf Hvf HC HW. cbn [w_mapCodec].
    assert (Ekt : wiretag (f_meta kf) = kt) by (destruct Hkf as (_ & -> & _); reflexivity).
    assert (Evt : wiretag (f_meta vf) = vt) by (destruct Hvf as (_ & -> & _); reflexivity).
    rewrite Ekt, Evt.
    apply tc_newCell with (r := PMap tag kt vt key val kp vp); [assumption|]. cbv zeta. intros C1 N1.
    eapply tc_bind; [apply IHi; [exact Hk|exact C1|apply CW_set]|auto|].
    + eapply CW_ext; [apply gcell_ext|exact HW].
    + intros q Hq. exfalso. exact (HVm key val q Hq).
    + discriminate.
    + exact Logic.I.
    + intros [i w'] G2 s2 X C2 [Hi2 W2]. assert (N2 := cref_ext _ _ (CCell _) _ X N1).
      assert (X' : cext G G2) by (eapply cext_trans; [apply gcell_ext|exact X]).
      apply tc_fill; [assumption| |].
      { intros p' Hp'. rewrite (cref_fun _ _ _ _ Hp' N2). cbn [plook]. constructor; [eapply field_rel_ext; eassumption..|exact Hi2]. }
      cbv zeta. intros C3. apply tc_ret; [assumption|]. split; [exact N2|exact W2].
Qed.

Lemma cached_tc k G s : vk k -> CI' [] [] G s ->
  tc [] [] (cachedStructInfoOf D (walk_fuel D) k) G s (fun i G' s' => iref_is G' i k).
Proof.
  intros Hk HC. unfold cachedStructInfoOf. apply tc_infoLoad.
  destruct (assoc skey_eq_dec k (g_infoCache s)) as [i|] eqn:E.
  { apply tc_ret; [assumption|]. apply assoc_In in E. eapply (c_ic _ _ _ _ _ HC); eassumption. }
  destruct (walk_tc (walk_fuel D)) as (_ & _ & Wi & _).
  eapply tc_call; [apply Wi; [exact Hk|exact HC|apply CW_empty]|].
  intros [i w'] G1 s1 X1 C1 [H1 _]. unfold infoLoadOrStore.
  assert (C2 : CI' [] [] G1 (g_with_infoCache s1 ((k, i) :: g_infoCache s1))).
  { destruct C1 as [L1 L2 B I C1 C2 C3 C4 C5 C6 C7]. split; auto.
    - intros k0 i0 [J|J]; [inversion J; subst; assumption|eauto].
    - intros j k1 Hj. destruct (C6 j k1 Hj); [left; right; assumption|right; assumption]. }
  unfold tc. cbn [do_ run exec]. destruct (assoc skey_eq_dec k (g_infoCache s1)) as [j|] eqn:Ea.
  - exists G1. split; [apply cext_refl|]. split; [apply keep_refl|]. split; [exact C1|]. apply assoc_In in Ea. eapply (c_ic _ _ _ _ _ C1); eassumption.
  - exists G1. split; [apply cext_refl|]. split; [intros j x _ _ Hj; exact Hj|]. split; [exact C2|exact H1].
Qed.
End Zig.
