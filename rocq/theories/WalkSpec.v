(** What each function of the walker returns (Walker.v), for declarations that
    are [supported]: the codec of the pure resolution, under any interference. *)
From Coq Require Import ZifyBool ZifyNat ZifyN String.
From Verif Require Import Base Wire GoType Leaf Codec Tag Walker Resolve Typing SpecWire WireFacts DecodeFacts
  GenFacts TypingFacts CodecSim WalkInv.

Ltac post := split; [reflexivity|split; [assumption|split; [try assumption|split; [try assumption|split; [try assumption; try (solve [auto])|]]]]].

Section Spec.
Variable D : decls.
Hypothesis HD : supported D = true.
Variable ac : mode.

Notation Inv := (Inv D ac).
Notation good := (good D).
Notation goodi := (goodi D).
Notation rely := (rely D ac).
Notation keeps := (keeps D).
Notation wp := (wp D ac).
Notation FM := (FM D).
Notation flat t := (okh D ac (lv ac) t = true).
Notation flatk k := (okk D ac (lv ac) k = true).

(** ** The declarations *)
Lemma HD_fit : decls_fit D = true.
Proof. unfold supported in HD. btrue. assumption. Qed.
Lemma visits_fun t p q : In (t, p) (visits D) -> In (t, q) (visits D) -> p = q.
Proof.
  unfold supported in HD. apply andb_prop in HD. destruct HD as [_ F]. unfold functional in F.
  rewrite forallb_forall in F. intros H1 H2. apply F in H1. rewrite forallb_forall in H1. apply H1 in H2.
  cbn [fst snd] in H2. assert (E : gotype_eqb t t = true) by (apply gotype_eqb_eq; reflexivity). rewrite E in H2. cbn [negb orb] in H2.
  destruct (pref_eq_dec p q); [assumption|discriminate].
Qed.

Definition fpre (t : gotype) (p : pref) : Prop :=
  codec_fits D p t = true /\ incl (pref_visits t p) (visits D) /\ incl (entry_visits p) (visits D).
Definition gpre (g : gofield) : Prop :=
  forall tag t p, gf_exported g = true -> gf_tag g = Some tag -> parseStructTag tag = (t, None) ->
    pfield t g = Some p -> fpre (gf_type g) p.
Definition kpre (k : skey) : Prop :=
  exists l, pfields 0 (struct_fields D k) = Some l /\ Forall gpre (struct_fields D k).

Lemma pfields_in fs : forall idx l j g tag, pfields idx fs = Some l -> nth_error fs j = Some g ->
  gf_exported g = true -> gf_tag g = Some tag ->
  exists t p, parseStructTag tag = (t, None) /\ pfield t g = Some p /\ In (mkfield (idx + j) (tag_wiretag t) p) l.
Proof.
  induction fs as [|f fs IH]; intros idx l j g tag H Hj He Ht; [destruct j; discriminate|].
  cbn [pfields] in H. destruct (pfields (S idx) fs) as [r|] eqn:Er; [|discriminate].
  destruct j as [|j]; cbn in Hj.
  - inversion Hj; subst f. rewrite He, Ht in H. destruct (parseStructTag tag) as [t [e|]]; [discriminate|].
    destruct (pfield t g) as [p|] eqn:Ep; [|discriminate]. inversion H; subst l.
    exists t, p. rewrite Nat.add_0_r. repeat split; auto. left. reflexivity.
  - destruct (IH _ _ j g tag Er Hj He Ht) as (t & p & A & B & C). exists t, p. repeat split; auto.
    replace (idx + S j) with (S idx + j) by lia.
    destruct (gf_exported f), (gf_tag f) as [tg|]; try (inversion H; subst; assumption).
    destruct (parseStructTag tg) as [t' [e|]]; [discriminate|]. destruct (pfield t' f); [|discriminate].
    inversion H; subst. right. assumption.
Qed.

Lemma flat_codec_fits p t : flat_fits D p t = true -> codec_fits D p t = true.
Proof. destruct p; auto; destruct t; discriminate || auto. Qed.
Lemma flat_entry_visits p t : flat_fits D p t = true -> entry_visits p = [].
Proof. destruct p; auto; destruct t; discriminate. Qed.

Lemma struct_gpre fs l : pfields 0 fs = Some l -> forallb (field_fits D fs) l = true ->
  incl (struct_visits fs) (visits D) -> Forall gpre fs.
Proof.
  intros Hl Hf Hv. apply Forall_forall. intros g Hg. destruct (In_nth_error _ _ Hg) as (j & Hj).
  intros tag t p He Ht Hp Hpf. destruct (pfields_in _ _ _ _ _ _ Hl Hj He Ht) as (t' & p' & A & B & C).
  rewrite Hp in A; inversion A; subst t'. rewrite Hpf in B; inversion B; subst p'.
  rewrite forallb_forall in Hf. pose proof (Hf _ C) as F. unfold field_fits in F. cbn [mkfield f_idx f_codec Nat.add] in F.
  rewrite Hj in F. unfold struct_visits in Hv. rewrite Hl in Hv. split; [exact F|]. split.
  - intros x Hx. apply Hv. apply in_or_app. left. unfold fields_visits. apply in_flat_map.
    eexists. split; [exact C|]. cbn [mkfield f_idx f_codec Nat.add]. rewrite Hj. exact Hx.
  - intros x Hx. apply Hv. apply in_or_app. right. apply in_flat_map. eexists. split; [exact C|exact Hx].
Qed.

Lemma kpre_named sid : sid < length D -> kpre (SNamed sid).
Proof.
  intros H. unfold kpre. cbn [struct_fields]. apply nth_error_Some in H.
  destruct (nth_error D sid) as [fs|] eqn:E; [|contradiction].
  pose proof HD_fit as F. unfold decls_fit in F. rewrite forallb_forall in F.
  pose proof (F fs (nth_error_In _ _ E)) as F1. unfold struct_fits in F1.
  destruct (pfields 0 fs) as [l|] eqn:El; [|discriminate]. exists l. split; [reflexivity|].
  eapply struct_gpre; [exact El|exact F1|]. intros x Hx. unfold visits. apply in_flat_map.
  exists fs. split; [eapply nth_error_In; eassumption|exact Hx].
Qed.
Lemma kpre_opt k : kpre (SOpt k).
Proof.
  exists []. split; [reflexivity|]. cbn [struct_fields].
  apply Forall_cons; [intros tag t p He; discriminate|]. apply Forall_cons; [intros tag t p He; discriminate|]. apply Forall_nil.
Qed.
Lemma kpre_entry key val kt vt : entry_fits D key val kt vt = true ->
  (forall l, pfields 0 (entry_fields key val kt vt) = Some l ->
     incl (fields_visits (entry_fields key val kt vt) l) (visits D)) ->
  kpre (SEntry key val kt vt).
Proof.
  intros Hf Hv. unfold kpre. cbn [struct_fields]. unfold entry_fits in Hf.
  destruct (pfields 0 (entry_fields key val kt vt)) as [l|] eqn:El; [|discriminate].
  destruct (entry_pfields _ _ _ _ _ El) as (fk & fv & -> & I0 & I1). btrue.
  exists [fk; fv]. split; [reflexivity|]. eapply struct_gpre; [exact El| |].
  - cbn [forallb]. unfold field_fits. rewrite I0, I1. cbn [nth_error entry_fields gf_type].
    rewrite !flat_codec_fits by assumption. reflexivity.
  - unfold struct_visits. rewrite El. intros x Hx. apply in_app_or in Hx. destruct Hx as [Hx|Hx]; [apply (Hv _ eq_refl); assumption|].
    cbn [flat_map] in Hx. erewrite !flat_entry_visits in Hx by eassumption. destruct Hx.
Qed.

(** ** What the walker remembers *)
Definition went (G : gh) (t : gotype) (c : cref) : Prop :=
  match t with
  | TMsg _ | TPtr (TOption _) => exists k, struct_ptr t = Some k /\ refp G c (PStruct k)
  | TPtr _ | TSlice _ => exists p, refp G c p /\ In (t, p) (visits D)
  | TMap _ _ => True
  | _ => False
  end.
Definition WInv (n : nat) (w : walker) (G : gh) (s : gstate) : Prop :=
  (forall t c, In (t, c) (w_codecs w) -> went G t c /\ (okh D ac n t = true -> good G s c)) /\
  (forall k i, In (k, i) (w_infos w) -> refi G i k /\ (okk D ac n k = true -> goodi G s i)).
Definition WExt (w w' : walker) (G : gh) (s : gstate) : Prop :=
  (forall t c, In (t, c) (w_codecs w') -> In (t, c) (w_codecs w) \/ (went G t c /\ (flat t -> good G s c))) /\
  (forall k i, In (k, i) (w_infos w') -> In (k, i) (w_infos w) \/ (refi G i k /\ (flatk k -> goodi G s i))).

Lemma went_ext G G' t c : gext G G' -> went G t c -> went G' t c.
Proof.
  intros E. destruct t as [| | | | |[]| |]; cbn; auto; intros (p & H).
  all: try (destruct H as [H1 H2]; exists p; split; [try eapply refp_ext; eassumption|try eapply refp_ext; eassumption]).
Qed.
Lemma WInv_keeps n w G s G' s' : keeps G s G' s' -> WInv n w G s -> WInv n w G' s'.
Proof.
  intros K [A B]. pose proof (k_ext _ _ _ _ _ K) as E. split.
  - intros t c H. apply A in H. destruct H as [H1 H2]. split; [eapply went_ext; eassumption|].
    intros Y. eapply good_keeps; [exact K|auto].
  - intros k i H. apply B in H. destruct H as [H1 H2]. split; [eapply refi_ext; eassumption|].
    intros Y. eapply goodi_keeps; [exact K|auto].
Qed.
Lemma WInv_le n m w G s : m <= n -> WInv n w G s -> WInv m w G s.
Proof.
  intros L [A B]. split.
  - intros t c H. apply A in H. destruct H as [H1 H2]. split; auto. intros Y. apply H2; auto. eapply okh_le; eassumption.
  - intros t c H. apply B in H. destruct H as [H1 H2]. split; auto. intros Y. apply H2; auto. eapply okk_le; eassumption.
Qed.
Lemma WInv_ext n w w' G s : n <= lv ac -> WInv n w G s -> WExt w w' G s -> WInv n w' G s.
Proof.
  intros L [A B] [C E]. split.
  - intros t c H. apply C in H. destruct H as [H|[H1 H2]]; [apply A; assumption|]. split; auto.
    intros Y. apply H2. eapply okh_le; eassumption.
  - intros t c H. apply E in H. destruct H as [H|[H1 H2]]; [apply B; assumption|]. split; auto.
    intros Y. apply H2. eapply okk_le; eassumption.
Qed.
Lemma WExt_refl w G s : WExt w w G s.
Proof. split; auto. Qed.
Lemma WExt_keeps w w' G s G' s' : keeps G s G' s' -> WExt w w' G s -> WExt w w' G' s'.
Proof.
  intros K [A B]. pose proof (k_ext _ _ _ _ _ K) as E. split.
  - intros t c H. apply A in H. destruct H as [H|[H1 H2]]; auto. right. split; [eapply went_ext; eassumption|].
    intros X. eapply good_keeps; [exact K|auto].
  - intros k i H. apply B in H. destruct H as [H|[H1 H2]]; auto. right. split; [eapply refi_ext; eassumption|].
    intros X. eapply goodi_keeps; [exact K|auto].
Qed.
Lemma WExt_trans w1 w2 w3 G s G' s' : WExt w1 w2 G s -> keeps G s G' s' -> WExt w2 w3 G' s' -> WExt w1 w3 G' s'.
Proof.
  intros A K B. apply (WExt_keeps _ _ _ _ _ _ K) in A. destruct A as [A1 A2], B as [B1 B2]. split.
  - intros t c H. apply B1 in H. destruct H as [H|H]; auto.
  - intros t c H. apply B2 in H. destruct H as [H|H]; auto.
Qed.
Lemma WInv_set n w G s t c : WInv n w G s -> went G t c -> okh D ac n t = false -> WInv n (w_set w t c) G s.
Proof.
  intros [A B] H1 H2. split; [|exact B]. intros t' c' [H|H]; [inversion H; subst|apply A; exact H].
  split; auto. intros Y. rewrite H2 in Y. discriminate.
Qed.
Lemma WInv_iset n w G s k i : WInv n w G s -> refi G i k -> okk D ac n k = false -> WInv n (w_iset w k i) G s.
Proof.
  intros [A B] H1 H2. split; [exact A|]. intros t' c' [H|H]; [inversion H; subst|apply B; exact H].
  split; auto. intros Y. rewrite H2 in Y. discriminate.
Qed.
Lemma WExt_unset w w' G s t c : WExt (w_set w t c) w' G s -> went G t c -> (flat t -> good G s c) -> WExt w w' G s.
Proof.
  intros [A B] H1 H2. split; [|exact B]. intros t' c' H. apply A in H. destruct H as [[H|H]|H]; auto.
  inversion H; subst. right. split; auto.
Qed.
Lemma WExt_uniset w w' G s k i : WExt (w_iset w k i) w' G s -> refi G i k -> (flatk k -> goodi G s i) -> WExt w w' G s.
Proof.
  intros [A B] H1 H2. split; [exact A|]. intros t' c' H. apply B in H. destruct H as [[H|H]|H]; auto.
  inversion H; subst. right. split; auto.
Qed.

(** How far the walk is from the bound: a type of which something is claimed
    nests less than [n] deep; at the bound itself nothing is asked for. *)
Definition near (n : nat) (t : gotype) : Prop := n <= lv ac /\ (okh D ac n t = true \/ n = lv ac).
Definition neark (n : nat) (k : skey) : Prop := n <= lv ac /\ (okk D ac n k = true \/ n = lv ac).
Lemma near_flat n t : near n t -> flat t -> okh D ac n t = true.
Proof. intros [_ [H| ->]]; auto. Qed.
Lemma neark_flat n k : neark n k -> flatk k -> okk D ac n k = true.
Proof. intros [_ [H| ->]]; auto. Qed.

Lemma level_t n t : near n t ->
  exists m, m <= n /\ m <= lv ac /\ okh D ac m t = false /\ (okh D ac (S m) t = true \/ m = lv ac).
Proof.
  intros [L H]. destruct (okh D ac n t) eqn:E.
  - destruct (min_level (fun n => okh D ac n t) n) as (m & A & B & C); [reflexivity|assumption|].
    exists m. split; [lia|]. split; [lia|]. auto.
  - destruct H as [H|H]; [discriminate|]. exists n. auto.
Qed.
Lemma level_k n k : neark n k ->
  exists m, m <= n /\ m <= lv ac /\ okk D ac m k = false /\ (okk D ac (S m) k = true \/ m = lv ac).
Proof.
  intros [L H]. destruct (okk D ac n k) eqn:E.
  - destruct (min_level (fun n => okk D ac n k) n) as (m & A & B & C); [reflexivity|assumption|].
    exists m. split; [lia|]. split; [lia|]. auto.
  - destruct H as [H|H]; [discriminate|]. exists n. auto.
Qed.
Lemma struct_okk m t k : struct_ptr t = Some k -> okh D ac (S m) t = true -> okk D ac m k = true.
Proof.
  intros Ht X. destruct t as [| | | | |t'|sid|]; try discriminate.
  - destruct t'; try discriminate. inversion Ht; subst k. cbn [okh] in X. destruct m; [discriminate|]. apply orb_true_r.
  - inversion Ht; subst k. cbn [okh] in X. destruct m; [discriminate|]. exact X.
Qed.
Lemma map_okk m key val kt vt : okh D ac (S m) (TMap key val) = true -> okk D ac m (SEntry key val kt vt) = true.
Proof.
  intros X. cbn [okh] in X. destruct m as [|m']; [discriminate|].
  cbn [okk key_types forallb]. rewrite X. destruct m'; [discriminate|]. apply orb_true_r.
Qed.
Lemma flat_struct t k : struct_ptr t = Some k -> flat t -> flatk k.
Proof.
  intros Ht X. destruct (lv ac) as [|n]; [discriminate|]. apply (okk_le D ac n); [lia|]. eapply struct_okk; eassumption.
Qed.
Lemma flat_entry key val kt vt : flat (TMap key val) -> flatk (SEntry key val kt vt).
Proof. intros X. destruct (lv ac) as [|n]; [discriminate|]. apply (okk_le D ac n); [lia|]. apply map_okk. assumption. Qed.
Lemma down_ptr n e : okh D ac n (TPtr e) = true -> okh D ac n e = true.
Proof. destruct n; [discriminate|]. intros X. apply okh_S. exact X. Qed.
Lemma down_slice n e : okh D ac n (TSlice e) = true -> okh D ac n e = true.
Proof. destruct n; [discriminate|]. intros X. apply okh_S. exact X. Qed.
Lemma down_key n key val : okh D ac n (TMap key val) = true -> okh D ac n (TScalar key) = true.
Proof. destruct n; [discriminate|]. intros X. reflexivity. Qed.
Lemma down_val n key val : okh D ac n (TMap key val) = true -> okh D ac n val = true.
Proof. destruct n as [|[|n]]; try discriminate. intros X. apply okh_S, okh_S. exact X. Qed.
Lemma near_imp n t t' : (okh D ac n t = true -> okh D ac n t' = true) -> near n t -> near n t'.
Proof. intros H [A [B|B]]; split; auto. Qed.

(** ** Specifications *)
Definition CPost (o : own) (G : gh) (s : gstate) (w : walker) (X : Prop) (p : pref) : cref * walker -> own -> gh -> gstate -> Prop :=
  fun '(c, w') o' G' s' => o' = o /\ own_ok o s' /\ rely o G s G' s' /\ refp G' c p /\ (X -> good G' s' c) /\
    WExt w w' G' s'.
Definition IPost (o : own) (G : gh) (s : gstate) (w : walker) (k : skey) : iref * walker -> own -> gh -> gstate -> Prop :=
  fun '(i, w') o' G' s' => o' = o /\ own_ok o s' /\ rely o G s G' s' /\ refi G' i k /\ (flatk k -> goodi G' s' i) /\
    WExt w w' G' s'.
Definition fflat (fs : list gofield) : Prop := Forall (fun g => gf_exported g = true -> flat (gf_type g)) fs.
Definition FPost (o : own) (G : gh) (s : gstate) (w : walker) (X : Prop) (l : list (sfield pref)) :
  list hfield * walker -> own -> gh -> gstate -> Prop :=
  fun '(fs, w') o' G' s' => o' = o /\ own_ok o s' /\ rely o G s G' s' /\
    Forall2 (field_rel (fun c p => refp G' c p /\ (X -> good G' s' c))) fs l /\ WExt w w' G' s'.

Definition spec_codec fuel := forall n w t zz rq p o G s,
  Inv G s -> own_ok o s -> WInv n w G s -> pcodec t zz rq = Some p -> incl (pref_visits t p) (visits D) ->
  flat_fits D p t = true -> near n t ->
  wp (w_codec D fuel w t zz rq) (CPost o G s w (flat t) p) o G s.
Definition spec_structCodec fuel := forall n w t k o G s,
  Inv G s -> own_ok o s -> WInv n w G s -> struct_ptr t = Some k -> kpre k -> near n t ->
  wp (w_structCodec D fuel w t k) (CPost o G s w (flat t) (PStruct k)) o G s.
Definition spec_structInfo fuel := forall n w k o G s,
  Inv G s -> own_ok o s -> WInv n w G s -> kpre k -> neark n k ->
  wp (w_structInfo D fuel w k) (IPost o G s w k) o G s.
Definition spec_fields fuel := forall n w idx fs l o G s,
  Inv G s -> own_ok o s -> WInv n w G s -> pfields idx fs = Some l -> Forall gpre fs ->
  n <= lv ac -> Forall (fun g => gf_exported g = true -> near n (gf_type g)) fs ->
  wp (w_fields D fuel w idx fs) (FPost o G s w (fflat fs) l) o G s.
Definition spec_field fuel := forall n w t g p o G s,
  Inv G s -> own_ok o s -> WInv n w G s -> pfield t g = Some p -> fpre (gf_type g) p ->
  near n (gf_type g) ->
  wp (w_field D fuel w t g) (CPost o G s w (flat (gf_type g)) p) o G s.
Definition spec_mapCodec fuel := forall n w key val tag kt vt kf vf kp vp o G s,
  Inv G s -> own_ok o s -> WInv n w G s -> kpre (SEntry key val kt vt) ->
  field_rel (fun c p => refp G c p /\ (flat (TMap key val) -> good G s c)) kf (mkfield 0 kt kp) ->
  field_rel (fun c p => refp G c p /\ (flat (TMap key val) -> good G s c)) vf (mkfield 1 vt vp) ->
  near n (TMap key val) ->
  wp (w_mapCodec D fuel w key val tag kf vf) (CPost o G s w (flat (TMap key val)) (PMap tag kt vt key val kp vp)) o G s.

Lemma key_okh n k : wk ac k = false -> okk D ac (S n) k = true -> forall g, In g (struct_fields D k) -> gf_exported g = true ->
  okh D ac n (gf_type g) = true.
Proof.
  unfold okk. intros ->. cbn [orb]. rewrite forallb_forall. intros H g Hg He. apply H.
  destruct k as [sid|key val kt vt|q]; cbn [struct_fields key_types] in *.
  - unfold field_types. destruct (nth_error D sid); [|destruct Hg]. apply in_map. assumption.
  - cbn in Hg. destruct Hg as [<-|[<-|[]]]; cbn; auto.
  - cbn in Hg. destruct Hg as [<-|[<-|[]]]; discriminate.
Qed.

Lemma flat_fields k : wk ac k = false -> flatk k -> fflat (struct_fields D k).
Proof.
  intros Hw X. apply Forall_forall. intros g Hg He. destruct (lv ac) as [|n] eqn:E; [discriminate|].
  apply okh_S. eapply key_okh; eassumption.
Qed.

Lemma slice_spec n w e c q o G s :
  Inv G s -> own_ok o s -> WInv n w G s -> refp G c q -> (flat e -> good G s c) -> flat_fits D q e = true ->
  In (TSlice e, PSlice e q) (visits D) -> near n (TSlice e) ->
  wp (sliceCodecOf (TSlice e) c w) (CPost o G s w (flat (TSlice e)) (PSlice e q)) o G s.
Proof.
  intros HI HO HW Hc Hg Hf Hv Hl. unfold sliceCodecOf. apply wp_sliceLoad; [assumption|assumption|].
  intros G1 s1 r R1 O1 Hr. pose proof (r_keeps _ _ _ _ _ _ _ R1) as K1. pose proof (k_ext _ _ _ _ _ K1) as X1.
  pose proof (r_inv _ _ _ _ _ _ _ R1) as I1.
  pose proof (WInv_keeps _ _ _ _ _ _ K1 HW) as W1.
  assert (Hc1 : refp G1 c q) by (eapply refp_ext; eassumption).
  destruct r as [x|].
  { destruct Hr as (e' & p' & A & B & C & E). assert (p' = q) by (eapply refp_fun; eassumption). subst p'.
    assert (e' = e) by (eapply flat_fits_fun; eassumption). subst e'.
    cbn [WalkInv.wp CPost]. post; apply WExt_refl. }
  destruct (w_get w (TSlice e)) as [x|] eqn:Ew.
  { unfold w_get in Ew. apply assoc_in in Ew. apply W1 in Ew. destruct Ew as [(p' & A & B) E].
    assert (p' = PSlice e q) by (eapply visits_fun; eassumption). subst p'.
    cbn [WalkInv.wp CPost]. post; [intros Y; apply E; eapply near_flat; eassumption|apply WExt_refl]. }
  apply wp_newCell with (p := PSlice e q); [assumption|assumption|].
  intros G2 s2 m R2 O2 Hm Hb Hp. pose proof (r_keeps _ _ _ _ _ _ _ R2) as K2. pose proof (k_ext _ _ _ _ _ K2) as X2.
  pose proof (r_inv _ _ _ _ _ _ _ R2) as I2.
  assert (Hc2 : refp G2 c q) by (eapply refp_ext; eassumption).
  cbn [elem_of]. apply wp_fill with (p := PSlice e q); try assumption.
  { constructor. assumption. }
  intros G3 s3 R3 O3 Hb3 Hp3. pose proof (r_keeps _ _ _ _ _ _ _ R3) as K3. pose proof (k_ext _ _ _ _ _ K3) as X3.
  pose proof (r_inv _ _ _ _ _ _ _ R3) as I3.
  assert (Hc3 : refp G3 c q) by (eapply refp_ext; eassumption).
  assert (Hg3 : flat (TSlice e) -> good G3 s3 (CCell m)).
  { intros X. apply good_intro. exists (BSlice e c), (PSlice e q). split; [assumption|]. split; [assumption|].
    constructor. split; [assumption|]. eapply good_keeps; [eapply keeps_trans; [exact K1|eapply keeps_trans; [exact K2|exact K3]]|auto using down_slice]. }
  apply wp_sliceLoadOrStore with (e := e) (p := q); try assumption.
  intros G4 s4 j R4 O4 Hj Hgj. cbn [WalkInv.wp CPost]. pose proof (r_keeps _ _ _ _ _ _ _ R4) as K4. pose proof (k_ext _ _ _ _ _ K4) as X4.
  split; [reflexivity|]. split; [assumption|]. split; [|split; [assumption|split; [assumption|]]].
  - eapply rely_trans; [exact R1|eapply rely_trans; [exact R2|eapply rely_trans; [exact R3|exact R4]]].
  - eapply (WExt_unset _ _ _ _ (TSlice e) (CCell m)); [apply WExt_refl| |].
    + exists (PSlice e q). split; [|assumption]. eapply refp_ext; [exact X4|exact Hp3].
    + intros X. eapply good_keeps; [exact K4|auto].
Qed.

Lemma pcodec_visit_ptr e zz rq p : (forall k, e <> TOption k) -> pcodec (TPtr e) zz rq = Some p ->
  exists q, p = PPtr e q /\ pcodec e zz rq = Some q.
Proof.
  intros Hn H. cbn [pcodec] in H. destruct e; try (destruct (pcodec _ zz rq) as [q|] eqn:E; [|discriminate]; inversion H; subst; eauto; fail).
  exfalso. eapply Hn. reflexivity.
Qed.

Lemma specs fuel : spec_codec fuel /\ spec_structCodec fuel /\ spec_structInfo fuel /\ spec_fields fuel /\
  spec_field fuel /\ spec_mapCodec fuel.
Proof.
  induction fuel as [|fuel (IHc & IHs & IHi & IHfs & IHf & IHm)].
  { repeat split; intro; intros; exact Logic.I. }
  split; [|split; [|split; [|split; [|split]]]].
  - (* w_codec *)
    intros n w t zz rq p o G s HI HO HW Hp Hv Hf Hl. cbn [w_codec].
    destruct (w_get w t) as [c|] eqn:Ew.
    { unfold w_get in Ew. apply assoc_in in Ew. apply HW in Ew. destruct Ew as [We Wg].
      cbn [WalkInv.wp CPost]. split; [reflexivity|]. split; [assumption|]. split; [apply rely_refl; assumption|].
      split; [|split; [intros Y; apply Wg; eapply near_flat; eassumption|apply WExt_refl]].
      destruct t as [k| |k|e|k e|e|sid|]; try contradiction; try discriminate.
      - destruct e; try (destruct We as (p' & A & B); cbn [pcodec] in Hp;
          match type of Hp with option_map _ ?x = _ => destruct x; [|discriminate] end;
          inversion Hp; subst p; cbn [pref_visits] in Hv;
          replace p' with (PPtr e p0) in A; [exact A|]).
        all: try (destruct We as (p' & A & B); pose proof Hp as Hp'; apply pcodec_visit_ptr in Hp'; [|congruence];
          destruct Hp' as (q & -> & _); replace (PPtr _ q) with p'; [exact A|];
          eapply visits_fun; [exact B|apply Hv; left; reflexivity]).
        destruct We as (k' & A & B). cbn in A. inversion A; subst k'. cbn [pcodec] in Hp. inversion Hp; subst. exact B.
      - destruct We as (k' & A & B). cbn in A. inversion A; subst k'. cbn [pcodec] in Hp. inversion Hp; subst. exact B. }
    assert (Hstat : forall x, p = PStatic x -> wp (Ret (CStatic x, w)) (CPost o G s w (flat t) p) o G s).
    { intros x ->. cbn [WalkInv.wp CPost]. post; [apply rely_refl; assumption|reflexivity|intros _; apply good_static|apply WExt_refl]. }
    assert (Hstr : forall k, struct_ptr t = Some k -> wp (w_structCodec D fuel w t k) (CPost o G s w (flat t) p) o G s).
    { intros k Hk. assert (p = PStruct k /\ kpre k) as [-> Hkp].
      { destruct t as [| | | | |[]| |]; try discriminate; cbn in Hk, Hp; inversion Hk; inversion Hp; subst; split; auto using kpre_opt.
        cbn [flat_fits] in Hf. btrue. apply kpre_named. assumption. }
      eapply IHs; eassumption. }
    destruct t as [k| |k|e|k e|e|sid|]; try discriminate.
    + apply Hstat. cbn in Hp. congruence.
    + apply Hstat. cbn in Hp. congruence.
    + destruct (struct_ptr (TPtr e)) as [k|] eqn:Ek; [apply Hstr; reflexivity|].
      apply pcodec_visit_ptr in Hp; [|intros k ->; discriminate]. destruct Hp as (q & -> & Hq).
      cbn [flat_fits] in Hf. btrue.
      cbn [pref_visits] in Hv. destruct (level_t _ _ Hl) as (m & Lm & Ln & Hm0 & Hm1).
      apply wp_newCell with (p := PPtr e q); [assumption|assumption|].
      intros G1 s1 c R1 O1 Hc Hb1 Hp1. pose proof (r_keeps _ _ _ _ _ _ _ R1) as K1. pose proof (k_ext _ _ _ _ _ K1) as X1.
      pose proof (r_inv _ _ _ _ _ _ _ R1) as I1.
      assert (Went1 : went G1 (TPtr e) (CCell c)).
      { assert (exists p', refp G1 (CCell c) p' /\ In (TPtr e, p') (visits D)) as Z.
        { exists (PPtr e q). split; [exact Hp1|apply Hv; left; reflexivity]. }
        destruct e; try discriminate; exact Z. }
      assert (W1 : WInv m (w_set w (TPtr e) (CCell c)) G1 s1).
      { apply WInv_set; [eapply WInv_keeps; [exact K1|eapply WInv_le; [exact Lm|eassumption]]|exact Went1|exact Hm0]. }
      apply wp_bind. eapply wp_conseq; [|apply (IHc m) with (p := q); try eassumption].
      2:{ intros x Hx. apply Hv. right. exact Hx. }
      2:{ split; [exact Ln|]. destruct Hm1 as [X|X]; [left; exact X|right; exact X]. }
      intros [c' w'] o' G2 s2 (-> & O2 & R2 & Hr2 & Hg2 & We2). pose proof (r_keeps _ _ _ _ _ _ _ R2) as K2.
      pose proof (k_ext _ _ _ _ _ K2) as X2. pose proof (r_inv _ _ _ _ _ _ _ R2) as I2.
      assert (Hp2 : refp G2 (CCell c) (PPtr e q)) by (eapply refp_ext; eassumption).
      apply wp_fill with (p := PPtr e q); try assumption.
      { rewrite (r_cells _ _ _ _ _ _ _ R2) by (left; reflexivity). assumption. }
      { constructor. assumption. }
      intros G3 s3 R3 O3 Hb3 Hp3. cbn [WalkInv.wp CPost]. pose proof (r_keeps _ _ _ _ _ _ _ R3) as K3.
      assert (Hg3 : flat (TPtr e) -> good G3 s3 (CCell c)).
      { intros X. apply down_ptr in X. apply good_intro. exists (BPtr e c'), (PPtr e q). split; [assumption|]. split; [assumption|].
        constructor. split; [eapply refp_ext; [apply K3|assumption]|]. eapply good_keeps; [exact K3|auto]. }
      split; [reflexivity|]. split; [assumption|]. split; [|split; [exact Hp3|split; [assumption|]]].
      * eapply rely_trans; [exact R1|]. eapply rely_trans; [eapply rely_weaken; [apply sub_add_c|exact R2]|exact R3].
      * eapply WExt_unset; [eapply WExt_keeps; [exact K3|exact We2]| |exact Hg3].
        eapply went_ext; [eapply gext_trans; [exact X2|apply K3]|exact Went1].
    + apply Hstr. reflexivity.
  - (* w_structCodec *)
    intros n w t k o G s HI HO HW Ht Hk Hl. cbn [w_structCodec]. apply wp_codecLoad; [assumption|assumption|].
    intros G1 s1 r R1 O1 Hr. pose proof (r_keeps _ _ _ _ _ _ _ R1) as K1. pose proof (k_ext _ _ _ _ _ K1) as X1.
    pose proof (r_inv _ _ _ _ _ _ _ R1) as I1. pose proof (WInv_keeps _ _ _ _ _ _ K1 HW) as W1.
    destruct r as [c|].
    { destruct Hr as (k' & A & B & C). rewrite Ht in A; inversion A; subst k'.
      cbn [WalkInv.wp CPost]. repeat (split; [first [reflexivity|assumption]|]). apply WExt_refl. }
    destruct (w_get w t) as [c|] eqn:Ew.
    { unfold w_get in Ew. apply assoc_in in Ew. apply W1 in Ew. destruct Ew as [We Wg].
      cbn [WalkInv.wp CPost]. repeat (split; [first [reflexivity|assumption]|]). split; [|split; [intros Y; apply Wg; eapply near_flat; eassumption|apply WExt_refl]].
      assert (exists k, struct_ptr t = Some k /\ refp G1 c (PStruct k)) as (k' & A & B).
      { destruct t as [| | | | |[]| |]; try discriminate; exact We. }
      rewrite Ht in A; inversion A; subst k'. exact B. }
    destruct (level_t _ _ Hl) as (m & Lm & Ln & Hm0 & Hm1).
    apply wp_newCell with (p := PStruct k); [assumption|assumption|].
    intros G2 s2 c R2 O2 Hc Hb2 Hp2. pose proof (r_keeps _ _ _ _ _ _ _ R2) as K2. pose proof (k_ext _ _ _ _ _ K2) as X2.
    pose proof (r_inv _ _ _ _ _ _ _ R2) as I2.
    assert (Went2 : went G2 t (CCell c)).
    { assert (exists k, struct_ptr t = Some k /\ refp G2 (CCell c) (PStruct k)) as Z by (exists k; split; [exact Ht|exact Hp2]).
      destruct t as [| | | | |[]| |]; try discriminate; exact Z. }
    assert (W2 : WInv m (w_set w t (CCell c)) G2 s2).
    { apply WInv_set; [eapply WInv_keeps; [exact K2|eapply WInv_le; [exact Lm|eassumption]]|exact Went2|exact Hm0]. }
    apply wp_bind. eapply wp_conseq; [|apply (IHi m) with (k := k); try eassumption].
    2:{ split; [exact Ln|]. destruct Hm1 as [X|X]; [left; eapply struct_okk; eassumption|right; exact X]. }
    intros [i w'] o' G3 s3 (-> & O3 & R3 & Hr3 & Hg3 & We3). pose proof (r_keeps _ _ _ _ _ _ _ R3) as K3.
    pose proof (k_ext _ _ _ _ _ K3) as X3. pose proof (r_inv _ _ _ _ _ _ _ R3) as I3.
    assert (Hp3 : refp G3 (CCell c) (PStruct k)) by (eapply refp_ext; eassumption).
    apply wp_fill with (p := PStruct k); try assumption.
    { rewrite (r_cells _ _ _ _ _ _ _ R3) by (left; reflexivity). assumption. }
    { constructor. assumption. }
    intros G4 s4 R4 O4 Hb4 Hp4. pose proof (r_keeps _ _ _ _ _ _ _ R4) as K4. pose proof (r_inv _ _ _ _ _ _ _ R4) as I4.
    assert (Hg4 : flat t -> good G4 s4 (CCell c)).
    { intros X. apply (flat_struct _ _ Ht) in X. apply good_intro. exists (BStruct k i), (PStruct k). split; [assumption|]. split; [assumption|].
      constructor. split; [eapply refi_ext; [apply K4|assumption]|]. eapply goodi_keeps; [exact K4|auto]. }
    apply wp_codecLoadOrStore with (k := k); try assumption.
    intros G5 s5 j R5 O5 Hj Hgj. cbn [WalkInv.wp CPost]. pose proof (r_keeps _ _ _ _ _ _ _ R5) as K5.
    split; [reflexivity|]. split; [assumption|]. split; [|split; [assumption|split; [assumption|]]].
    + eapply rely_trans; [exact R1|]. eapply rely_trans; [exact R2|].
      eapply rely_trans; [eapply rely_weaken; [apply sub_add_c|exact R3]|]. eapply rely_trans; [exact R4|exact R5].
    + eapply WExt_keeps; [exact K5|]. eapply WExt_unset; [eapply WExt_keeps; [exact K4|exact We3]| |exact Hg4].
      eapply went_ext; [eapply gext_trans; [exact X3|apply K4]|exact Went2].
  - (* w_structInfo *)
    intros n w k o G s HI HO HW Hk Hl. cbn [w_structInfo]. apply wp_infoLoad; [assumption|assumption|].
    intros G1 s1 r R1 O1 Hr. pose proof (r_keeps _ _ _ _ _ _ _ R1) as K1. pose proof (k_ext _ _ _ _ _ K1) as X1.
    pose proof (r_inv _ _ _ _ _ _ _ R1) as I1. pose proof (WInv_keeps _ _ _ _ _ _ K1 HW) as W1.
    destruct r as [i|].
    { destruct Hr as (A & B). cbn [WalkInv.wp IPost]. repeat (split; [first [reflexivity|assumption]|]). apply WExt_refl. }
    destruct (w_iget w k) as [i|] eqn:Ew.
    { unfold w_iget in Ew. apply assoc_in in Ew. apply W1 in Ew. destruct Ew as [We Wg].
      cbn [WalkInv.wp IPost]. repeat (split; [first [reflexivity|assumption]|]). split; [intros Y; apply Wg; eapply neark_flat; eassumption|apply WExt_refl]. }
    destruct (level_k _ _ Hl) as (m & Lm & Ln & Hm0 & Hm1). destruct Hk as (l & Hpf & Hgp).
    apply wp_newInfo with (k := k); [assumption|assumption|].
    intros G2 s2 i R2 O2 Hi Hb2 Hp2. pose proof (r_keeps _ _ _ _ _ _ _ R2) as K2. pose proof (k_ext _ _ _ _ _ K2) as X2.
    pose proof (r_inv _ _ _ _ _ _ _ R2) as I2.
    assert (W2 : WInv m (w_iset w k i) G2 s2).
    { apply WInv_iset; [eapply WInv_keeps; [exact K2|eapply WInv_le; [exact Lm|eassumption]]|exact Hp2|exact Hm0]. }
    apply wp_bind. eapply wp_conseq; [|apply (IHfs m) with (l := l); try eassumption].
    2:{ apply Forall_forall. intros g Hg He. split; [exact Ln|]. destruct Hm1 as [X|X]; [left; eapply key_okh; eassumption|right; exact X]. }
    intros [fs w'] o' G3 s3 (-> & O3 & R3 & Hr3 & We3). pose proof (r_keeps _ _ _ _ _ _ _ R3) as K3.
    pose proof (k_ext _ _ _ _ _ K3) as X3. pose proof (r_inv _ _ _ _ _ _ _ R3) as I3.
    assert (Epi : i_fields (piget D k) = l) by (unfold piget, pinfo; rewrite Hpf; reflexivity).
    assert (FM3 : FM G3 fs k).
    { unfold WalkInv.FM. rewrite Epi. eapply Forall2_mono; [|exact Hr3]. intros a b. apply field_rel_mono. intros c p [Y _]. exact Y. }
    apply wp_setFields with (k := k); try assumption.
    { rewrite (r_infos _ _ _ _ _ _ _ R3) by (left; reflexivity). assumption. }
    { eapply refi_ext; eassumption. }
    intros G4 s4 R4 O4 Hb4 Hp4. pose proof (r_keeps _ _ _ _ _ _ _ R4) as K4. pose proof (r_inv _ _ _ _ _ _ _ R4) as I4.
    pose proof (k_ext _ _ _ _ _ K4) as X4.
    apply wp_setIndex with (k := k); try assumption.
    { eapply FM_ext; eassumption. }
    intros G5 s5 R5 O5 Hb5 Hp5. pose proof (r_keeps _ _ _ _ _ _ _ R5) as K5. pose proof (r_inv _ _ _ _ _ _ _ R5) as I5.
    pose proof (k_ext _ _ _ _ _ K5) as X5.
    pose proof (keeps_trans _ _ _ _ _ _ _ K4 K5) as K45.
    assert (Hg5 : flatk k -> goodi G5 s5 i).
    { intros X. apply (flat_fields _ Hr) in X. apply goodi_intro. do 2 eexists. split; [exact Hb5|]. split; [exact Hp5|]. cbn [i_fields i_index]. rewrite Epi.
      assert (Z : Forall2 (field_rel (fun c p => refp G5 c p /\ good G5 s5 c)) fs l).
      { eapply Forall2_mono; [|exact Hr3]. intros a b. apply field_rel_mono. intros c p [Y1 Y2].
        split; [eapply refp_ext; [apply K45|exact Y1]|eapply good_keeps; [exact K45|auto]]. }
      split; exact Z. }
    apply wp_infoStore; try assumption.
    intros G6 s6 R6 O6. pose proof (r_keeps _ _ _ _ _ _ _ R6) as K6. cbn [WalkInv.wp IPost].
    split; [reflexivity|]. split; [assumption|]. split; [|split; [eapply refi_ext; [apply K6|exact Hp5]|split]].
    + eapply rely_trans; [exact R1|]. eapply rely_trans; [exact R2|].
      eapply rely_trans; [eapply rely_weaken; [apply sub_add_i|exact R3]|].
      eapply rely_trans; [exact R4|]. eapply rely_trans; [exact R5|exact R6].
    + intros X. eapply goodi_keeps; [exact K6|auto].
    + eapply WExt_keeps; [exact K6|]. eapply WExt_uniset; [eapply WExt_keeps; [exact K45|exact We3]|exact Hp5|exact Hg5].
  - (* w_fields *)
    intros n w idx fs l o G s HI HO HW Hp Hg Hn Hl. cbn [w_fields]. destruct fs as [|f fs].
    { cbn in Hp. inversion Hp; subst l. cbn [WalkInv.wp FPost]. split; [reflexivity|]. split; [assumption|].
      split; [apply rely_refl; assumption|]. split; [constructor|apply WExt_refl]. }
    cbn [pfields] in Hp. destruct (pfields (S idx) fs) as [r|] eqn:Er; [|discriminate].
    inversion Hg as [|? ? Hgf Hgs]; subst.
    assert (Hlf : gf_exported f = true -> near n (gf_type f)) by (inversion Hl; assumption).
    assert (Hls : Forall (fun g => gf_exported g = true -> near n (gf_type g)) fs) by (inversion Hl; assumption).
    assert (Hff : fflat (f :: fs) -> fflat fs) by (intros Y; inversion Y; assumption).
    apply wp_bind.
    apply wp_conseq with (Q1 := fun '(x, w') o' G' s' => o' = o /\ own_ok o s' /\ rely o G s G' s' /\ WExt w w' G' s' /\
       match x with
       | None => l = r
       | Some h => exists y, l = y :: r /\ field_rel (fun c p => refp G' c p /\ (fflat (f :: fs) -> good G' s' c)) h y
       end).
    { intros [x w'] o' G1 s1 (-> & O1 & R1 & We1 & Hx). pose proof (r_keeps _ _ _ _ _ _ _ R1) as K1.
      pose proof (r_inv _ _ _ _ _ _ _ R1) as I1.
      apply wp_bind. eapply wp_conseq; [|apply (IHfs n) with (l := r); try eassumption].
      2:{ eapply WInv_ext; [assumption|eapply WInv_keeps; eassumption|assumption]. }
      intros [rs w''] o' G2 s2 (-> & O2 & R2 & Hr2 & We2). pose proof (r_keeps _ _ _ _ _ _ _ R2) as K2.
      cbn [WalkInv.wp FPost]. split; [reflexivity|]. split; [assumption|].
      split; [eapply rely_trans; eassumption|]. split; [|eapply WExt_trans; [exact We1|exact K2|exact We2]].
      assert (Hr2' : Forall2 (field_rel (fun c p => refp G2 c p /\ (fflat (f :: fs) -> good G2 s2 c))) rs r).
      { eapply Forall2_mono; [|exact Hr2]. intros a b. apply field_rel_mono. intros c p [A B]. split; auto. }
      destruct x as [h|]; [|subst l; exact Hr2']. destruct Hx as (y & -> & Hy). constructor; [|exact Hr2'].
      eapply field_rel_mono; [|exact Hy]. intros c p [A B]. split; [eapply refp_ext; [apply K2|exact A]|].
      intros X. eapply good_keeps; [exact K2|auto]. }
    assert (Hskip : l = r -> wp (Ret (@None hfield, w)) (fun '(x, w') o' G' s' => o' = o /\ own_ok o s' /\ rely o G s G' s' /\ WExt w w' G' s' /\
       match x with
       | None => l = r
       | Some h => exists y, l = y :: r /\ field_rel (fun c p => refp G' c p /\ (fflat (f :: fs) -> good G' s' c)) h y
       end) o G s).
    { intros ->. cbn [WalkInv.wp]. split; [reflexivity|]. split; [assumption|]. split; [apply rely_refl; assumption|]. split; [apply WExt_refl|reflexivity]. }
    destruct (gf_exported f) eqn:Ee; [|apply Hskip; congruence].
    destruct (gf_tag f) as [tag|] eqn:Et; [|apply Hskip; congruence].
    destruct (parseStructTag tag) as [t [e|]] eqn:Epar; [discriminate|].
    destruct (pfield t f) as [p|] eqn:Epf; [|discriminate]. inversion Hp; subst l.
    apply wp_bind. eapply wp_conseq; [|apply (IHf n) with (p := p); try eassumption].
    2:{ eapply Hgf; eassumption. }
    2:{ auto. }
    intros [c w'] o' G1 s1 (-> & O1 & R1 & Hr1 & Hg1 & We1). cbn [WalkInv.wp].
    split; [reflexivity|]. split; [assumption|]. split; [assumption|]. split; [assumption|].
    eexists. split; [reflexivity|]. repeat split; auto. intros Y. apply Hg1. inversion Y; auto.
  - (* w_field *)
    intros n w t g p o G s HI HO HW Hp (Hf & Hv & He) Hl. cbn [w_field]. unfold pfield in Hp.
    assert (Hstat : forall x, p = PStatic x -> wp (Ret (CStatic x, w)) (CPost o G s w (flat (gf_type g)) p) o G s).
    { intros x ->. cbn [WalkInv.wp CPost]. post; [apply rely_refl; assumption|reflexivity|intros _; apply good_static|apply WExt_refl]. }
    destruct (static_choice t (gf_type g)) as [x|]; [apply Hstat; congruence|].
    assert (Hplain : pcodec (gf_type g) (t_zz t) false = Some p -> wp (w_codec D fuel w (gf_type g) (t_zz t) false) (CPost o G s w (flat (gf_type g)) p) o G s).
    { intros H. eapply IHc; try eassumption. destruct p; try (destruct (gf_type g); exact Hf).
      - destruct (gf_type g) as [| | | | |[]| |]; cbn in H; try discriminate; try (destruct (pcodec _ _ _); discriminate).
      - destruct (gf_type g) as [| | | | |[]| |]; cbn in H; try discriminate; try (destruct (pcodec _ _ _); discriminate). }
    destruct (gf_type g) as [k| |k|e|key val|e|sid|] eqn:Eg; cbn [baseTypeOf].
    + apply Hplain. exact Hp.
    + apply Hstat. congruence.
    + apply Hplain. exact Hp.
    + cbn [elem_of]. destruct (pcodec e (t_zz t) true) as [q|] eqn:Eq; [|discriminate]. inversion Hp; subst p.
      cbn [codec_fits] in Hf. btrue. cbn [pref_visits] in Hv.
      apply wp_bind. eapply wp_conseq; [|apply (IHc n) with (p := q); try eassumption].
      2:{ intros x Hx. apply Hv. right. exact Hx. }
      2:{ eapply near_imp; [apply down_slice|exact Hl]. }
      intros [c w'] o' G1 s1 (-> & O1 & R1 & Hr1 & Hg1 & We1). pose proof (r_keeps _ _ _ _ _ _ _ R1) as K1.
      pose proof (r_inv _ _ _ _ _ _ _ R1) as I1.
      eapply wp_conseq; [|apply slice_spec with (n := n); try eassumption].
      2:{ eapply WInv_ext; [exact (proj1 Hl)|eapply WInv_keeps; eassumption|assumption]. }
      2:{ apply Hv. left. reflexivity. }
      intros [c2 w2] o' G2 s2 (-> & O2 & R2 & Hr2 & Hg2 & We2). pose proof (r_keeps _ _ _ _ _ _ _ R2) as K2.
      cbn [CPost]. repeat (split; [first [reflexivity|assumption|eapply rely_trans; eassumption]|]).
      eapply WExt_trans; [exact We1|exact K2|exact We2].
    + (* map *)
      destruct (parseStructTag (gf_key g)) as [kt ke] eqn:Ekt. destruct (parseStructTag (gf_val g)) as [vt ve] eqn:Evt.
      cbn [fst] in Hp. destruct (pcodec (TScalar key) (t_zz kt) true) as [kp|] eqn:Ekp; [|discriminate].
      destruct (pcodec val (t_zz vt) true) as [vp|] eqn:Evp; [|discriminate]. inversion Hp; subst p.
      cbn [codec_fits] in Hf. btrue. cbn [pref_visits] in Hv. cbn [entry_visits] in He.
      assert (Hvis : incl (pref_visits (TScalar key) kp) (visits D)).
      { cbn in Ekp. inversion Ekp; subst kp. intros x []. }
      assert (Hlk : near n (TScalar key)) by (eapply near_imp; [apply down_key|exact Hl]).
      assert (Hlv : near n val) by (eapply near_imp; [apply down_val|exact Hl]).
      pose proof (proj1 Hl) as Hn.
      apply wp_bind. eapply wp_conseq; [|apply (IHc n) with (p := kp); try eassumption].
      intros [kc w1] o' G1 s1 (-> & O1 & R1 & Hr1 & Hg1 & We1). pose proof (r_keeps _ _ _ _ _ _ _ R1) as K1.
      pose proof (r_inv _ _ _ _ _ _ _ R1) as I1.
      pose proof (WInv_ext _ _ _ _ _ Hn (WInv_keeps _ _ _ _ _ _ K1 HW) We1) as W1.
      apply wp_bind. eapply wp_conseq; [|apply (IHc n) with (p := vp); try eassumption].
      intros [vc w2] o' G2 s2 (-> & O2 & R2 & Hr2 & Hg2 & We2). pose proof (r_keeps _ _ _ _ _ _ _ R2) as K2.
      pose proof (r_inv _ _ _ _ _ _ _ R2) as I2.
      pose proof (WInv_ext _ _ _ _ _ Hn (WInv_keeps _ _ _ _ _ _ K2 W1) We2) as W2.
      eapply wp_conseq; [|apply (IHm n) with (kt := tag_wiretag kt) (vt := tag_wiretag vt) (kp := kp) (vp := vp); try eassumption].
      * intros [c3 w3] o' G3 s3 (-> & O3 & R3 & Hr3 & Hg3 & We3). pose proof (r_keeps _ _ _ _ _ _ _ R3) as K3.
        cbn [CPost]. repeat (split; [first [reflexivity|assumption|eapply rely_trans; [exact R1|eapply rely_trans; eassumption]]|]).
        eapply WExt_trans; [eapply WExt_trans; [exact We1|exact K2|exact We2]|exact K3|exact We3].
      * apply kpre_entry; [assumption|]. intros l El. rewrite El in He. exact He.
      * repeat split; auto; [eapply refp_ext; [apply K2|assumption]|]. intros X. apply down_key in X. eapply good_keeps; [exact K2|auto].
      * repeat split; auto. intros X. apply down_val in X. auto.
    + cbn [baseTypeOf] in Hp. destruct (baseTypeOf e); try discriminate Hp; apply Hplain; exact Hp.
    + apply Hplain. exact Hp.
    + apply Hplain. exact Hp.
  - (* w_mapCodec *)
    intros n w key val tag kt vt kf vf kp vp o G s HI HO HW Hk Hkf Hvf Hl. cbn [w_mapCodec].
    destruct (level_t _ _ Hl) as (m & Lm & Ln & Hm0 & Hm1).
    apply wp_newCell with (p := PMap tag kt vt key val kp vp); [assumption|assumption|].
    intros G1 s1 c R1 O1 Hc Hb1 Hp1. pose proof (r_keeps _ _ _ _ _ _ _ R1) as K1. pose proof (k_ext _ _ _ _ _ K1) as X1.
    pose proof (r_inv _ _ _ _ _ _ _ R1) as I1.
    assert (W1 : WInv m (w_set w (TMap key val) (CCell c)) G1 s1).
    { apply WInv_set; [eapply WInv_keeps; [exact K1|eapply WInv_le; [exact Lm|eassumption]]|exact Logic.I|exact Hm0]. }
    assert (Ek : wiretag (f_meta kf) = kt) by (destruct Hkf as (_ & E & _); rewrite E; reflexivity).
    assert (Ev : wiretag (f_meta vf) = vt) by (destruct Hvf as (_ & E & _); rewrite E; reflexivity).
    rewrite Ek, Ev.
    apply wp_bind. eapply wp_conseq; [|apply (IHi m) with (k := SEntry key val kt vt); try eassumption].
    2:{ split; [exact Ln|]. destruct Hm1 as [X|X]; [left; apply map_okk; exact X|right; exact X]. }
    intros [i w'] o' G2 s2 (-> & O2 & R2 & Hr2 & Hg2 & We2). pose proof (r_keeps _ _ _ _ _ _ _ R2) as K2.
    pose proof (k_ext _ _ _ _ _ K2) as X2. pose proof (r_inv _ _ _ _ _ _ _ R2) as I2.
    assert (Hp2 : refp G2 (CCell c) (PMap tag kt vt key val kp vp)) by (eapply refp_ext; eassumption).
    pose proof (gext_trans _ _ _ X1 X2) as X12. pose proof (keeps_trans _ _ _ _ _ _ _ K1 K2) as K12.
    apply wp_fill with (p := PMap tag kt vt key val kp vp); try assumption.
    { rewrite (r_cells _ _ _ _ _ _ _ R2) by (left; reflexivity). assumption. }
    { constructor; [| |assumption]; (eapply field_rel_mono; [|eassumption]); intros a b [Y _]; eapply refp_ext; eassumption. }
    intros G3 s3 R3 O3 Hb3 Hp3. cbn [WalkInv.wp CPost]. pose proof (r_keeps _ _ _ _ _ _ _ R3) as K3.
    pose proof (keeps_trans _ _ _ _ _ _ _ K12 K3) as K13.
    assert (Hg3 : flat (TMap key val) -> good G3 s3 (CCell c)).
    { intros X. pose proof (flat_entry _ _ kt vt X) as X'. apply good_intro. do 2 eexists. split; [exact Hb3|]. split; [exact Hp3|].
      constructor.
      - eapply field_rel_mono; [|exact Hkf]. intros a b [Y Z]. split; [eapply refp_ext; [apply K13|exact Y]|eapply good_keeps; [exact K13|auto]].
      - eapply field_rel_mono; [|exact Hvf]. intros a b [Y Z]. split; [eapply refp_ext; [apply K13|exact Y]|eapply good_keeps; [exact K13|auto]].
      - split; [eapply refi_ext; [apply K3|assumption]|]. eapply goodi_keeps; [exact K3|auto]. }
    split; [reflexivity|]. split; [assumption|]. split; [|split; [exact Hp3|split; [assumption|]]].
    + eapply rely_trans; [exact R1|]. eapply rely_trans; [eapply rely_weaken; [apply sub_add_c|exact R2]|exact R3].
    + eapply WExt_unset; [eapply WExt_keeps; [exact K3|exact We2]|exact Logic.I|exact Hg3].
Qed.

(** proto.go:111-125 *)
Definition TPost (o : own) (G : gh) (s : gstate) (k : skey) : iref -> own -> gh -> gstate -> Prop :=
  fun i o' G' s' => o' = o /\ own_ok o s' /\ rely o G s G' s' /\ refi G' i k /\ (flatk k -> goodi G' s' i).

Lemma cached_spec fuel n k o G s : Inv G s -> own_ok o s -> kpre k -> neark n k ->
  wp (cachedStructInfoOf D fuel k) (TPost o G s k) o G s.
Proof.
  intros HI HO Hk Hl. unfold cachedStructInfoOf. apply wp_infoLoad; [assumption|assumption|].
  intros G1 s1 r R1 O1 Hr. pose proof (r_inv _ _ _ _ _ _ _ R1) as I1. destruct r as [i|].
  { destruct Hr as (A & B). cbn [WalkInv.wp TPost]. repeat (split; [first [reflexivity|assumption]|]). exact B. }
  apply wp_bind. eapply wp_conseq; [|eapply (proj1 (proj2 (proj2 (specs fuel)))) with (n := n); try eassumption].
  2:{ split; intros ? ? []. }
  intros [i w] o' G2 s2 (-> & O2 & R2 & Hr2 & Hg2 & _). pose proof (r_inv _ _ _ _ _ _ _ R2) as I2.
  change (infoLoadOrStore k i) with (do_ (InfoLoadOrStore k i)).
  assert (E : forall (p : prog iref) Q, wp (pbind p (fun r => Ret r)) Q o G2 s2 -> wp p Q o G2 s2).
  { intros p Q. generalize o G2 s2. induction p as [a| | |op c IH]; cbn [WalkInv.wp pbind]; auto.
    intros o0 G0 s0 H Ga sa Ra. destruct (H Ga sa Ra) as (oz & Gz & Z1 & Z2 & Z3). exists oz, Gz. split; [assumption|]. split; [assumption|].
    apply IH. assumption. }
  apply E. apply wp_infoLoadOrStore; try assumption.
  intros G3 s3 j R3 O3 Hj Hgj. cbn [WalkInv.wp TPost]. repeat (split; [first [reflexivity|assumption]|]).
  split; [eapply rely_trans; [exact R1|eapply rely_trans; [exact R2|exact R3]]|]. split; assumption.
Qed.

Lemma kpre_user k : user_key D k = true -> kpre k.
Proof.
  destruct k; cbn [user_key]; [intros H; btrue; apply kpre_named; assumption|discriminate|intros _; apply kpre_opt].
Qed.
End Spec.
