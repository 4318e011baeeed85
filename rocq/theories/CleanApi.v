(** Size, Marshal and Unmarshal of types that are not broken, in states where
    other types may have been rejected. *)
From Coq Require Import ZifyBool ZifyNat ZifyN String.
From Verif Require Import Base Wire GoType Leaf Codec Tag Walker Api Resolve Typing SpecReject SpecClean
  TypingFacts CodecSim WalkFuel WalkSeq AnyWalk RejectFacts CleanWalk.
Local Close Scope string_scope.

Lemma pfields_in fs : forall idx l x, pfields idx fs = Some l -> In x l -> exists j f tag t,
  nth_error fs j = Some f /\ f_idx x = (idx + j)%nat /\ gf_exported f = true /\ gf_tag f = Some tag /\
  parseStructTag tag = (t, None) /\ pfield t f = Some (f_codec x).
Proof.
  induction fs as [|f fs IH]; intros idx l x; cbn [pfields]; [intros H; inversion H; intros []|].
  destruct (pfields (S idx) fs) as [r|] eqn:Er; [|discriminate].
  assert (R : In x r -> exists j f0 tag t, nth_error (f :: fs) j = Some f0 /\ f_idx x = (idx + j)%nat /\ gf_exported f0 = true /\ gf_tag f0 = Some tag /\
    parseStructTag tag = (t, None) /\ pfield t f0 = Some (f_codec x)).
  { intros Hx. destruct (IH _ _ _ Er Hx) as (j & f0 & tag & t & A & B & C). exists (S j), f0, tag, t. split; [exact A|]. split; [lia|exact C]. }
  destruct (gf_exported f) eqn:Ee; [|intros H; inversion H; subst; exact R].
  destruct (gf_tag f) as [tag|] eqn:Et; [|intros H; inversion H; subst; exact R].
  destruct (parseStructTag tag) as [t [e|]] eqn:Ep; [discriminate|]. destruct (pfield t f) as [p|] eqn:Ef; [|discriminate].
  intros H; inversion H; subst l. intros [<-|Hx]; [|exact (R Hx)]. exists 0%nat, f, tag, t. cbn. repeat split; auto; lia.
Qed.
Lemma pfields_all fs : forall idx l j f tag, pfields idx fs = Some l -> nth_error fs j = Some f -> gf_exported f = true -> gf_tag f = Some tag ->
  exists t x, parseStructTag tag = (t, None) /\ pfield t f = Some (f_codec x) /\ In x l /\ f_idx x = (idx + j)%nat.
Proof.
  induction fs as [|g fs IH]; intros idx l j f tag; cbn [pfields]; [destruct j; discriminate|].
  destruct (pfields (S idx) fs) as [r|] eqn:Er; [|discriminate]. intros H Hj He Ht.
  destruct j as [|j]; cbn in Hj.
  - inversion Hj; subst g. rewrite He, Ht in H. destruct (parseStructTag tag) as [t [e|]]; [discriminate|]. destruct (pfield t f) as [p|] eqn:Ef; [|discriminate].
    inversion H; subst l. exists t. eexists. split; [reflexivity|]. split; [|split; [left; reflexivity|cbn; lia]]. exact Ef.
  - destruct (IH _ _ _ _ _ Er Hj He Ht) as (t & x & A & B & C & E). exists t, x. split; [exact A|]. split; [exact B|]. split; [|lia].
    destruct (gf_exported g); [|inversion H; subst; exact C]. destruct (gf_tag g) as [tag'|]; [|inversion H; subst; exact C].
    destruct (parseStructTag tag') as [t' [e|]]; [discriminate|]. destruct (pfield t' g); [|discriminate]. inversion H; subst. right. exact C.
Qed.
Lemma pfields_some fs : forall idx, (forall f tag, In f fs -> gf_exported f = true -> gf_tag f = Some tag ->
    exists t p, parseStructTag tag = (t, None) /\ pfield t f = Some p) -> exists l, pfields idx fs = Some l.
Proof.
  induction fs as [|f fs IH]; intros idx H; cbn [pfields]; [eauto|]. destruct (IH (S idx)) as [r ->]; [intros; apply H; auto; right; assumption|].
  destruct (gf_exported f) eqn:Ee; [|eauto]. destruct (gf_tag f) as [tag|] eqn:Et; [|eauto].
  destruct (H f tag (or_introl eq_refl) Ee Et) as (t & p & -> & ->). eauto.
Qed.

(** What a flat type visits. *)
Lemma pcodec_visits t zz rq p : pcodec t zz rq = Some p -> forall u q, In (u, q) (pref_visits t p) ->
  hopeless u = false /\ struct_ptr u = None /\ forall key val, u <> TMap key val.
Proof.
  revert p. induction t as [k| |k|e IH|k e IH|e IH|m|]; intros p Hp u q; try discriminate; try (cbn [pcodec] in Hp; inversion Hp; subst p; intros []).
  assert (Hh : hopeless (TPtr e) = false).
  { destruct (hopeless (TPtr e)) eqn:E; [|reflexivity]. rewrite (pcodec_hopeless _ zz rq E) in Hp. discriminate. }
  destruct (struct_ptr (TPtr e)) as [k|] eqn:Es.
  { rewrite (struct_ptr_pcodec _ _ zz rq Es) in Hp. inversion Hp; subst p. intros []. }
  assert (Hq : exists q0, pcodec e zz rq = Some q0 /\ p = PPtr e q0).
  { clear - Hp Es. destruct e; try discriminate; cbn [pcodec] in Hp |- *; try (inversion Hp; subst p; eexists; split; reflexivity);
      match type of Hp with option_map _ ?x = _ => destruct x eqn:Ex; [|discriminate]; inversion Hp; subst p; eexists; split; [first [exact Ex|reflexivity]|reflexivity] end. }
  destruct Hq as (q0 & Hq & ->). cbn [pref_visits]. intros [J|J].
  - inversion J; subst. split; [exact Hh|]. split; [exact Es|]. discriminate.
  - eapply IH; eassumption.
Qed.
Lemma pfield_visits t f p : pfield t f = Some p -> forall u q, In (u, q) (pref_visits (gf_type f) p) ->
  hopeless u = false /\ struct_ptr u = None /\ forall key val, u <> TMap key val.
Proof.
  unfold pfield. destruct (static_choice t (gf_type f)) as [sc|]; [intros H; inversion H; subst; intros u q []|].
  assert (Hpl : pcodec (gf_type f) (t_zz t) false = Some p -> forall u q, In (u, q) (pref_visits (gf_type f) p) ->
    hopeless u = false /\ struct_ptr u = None /\ forall key val, u <> TMap key val) by (intros H; eapply pcodec_visits; exact H).
  destruct (gf_type f) as [ks| |ko|e|key e|e|m|]; cbn [baseTypeOf]; auto.
  - destruct (pcodec e (t_zz t) true) as [q0|] eqn:Eq; [|discriminate]. intros H; inversion H; subst p. intros u q [J|J].
    + inversion J; subst. split; [reflexivity|]. split; [reflexivity|discriminate].
    + eapply pcodec_visits; eassumption.
  - destruct (pcodec (TScalar key) _ true) as [kp|]; [|discriminate]. destruct (pcodec e _ true) as [vp|] eqn:Ev; [|discriminate].
    intros H; inversion H; subst p. intros u q J. cbn [pref_visits] in J. eapply pcodec_visits; eassumption.
  - destruct (baseTypeOf e); try discriminate; auto.
Qed.
Lemma flat_pfield t f zz rq q : pcodec (gf_type f) zz rq = Some q -> forall p, pfield t f = Some p ->
  match p with PMap _ _ _ _ _ _ _ => False | _ => True end /\ (p = PStatic SCBytes \/ (exists s, p = PStatic s) \/ pcodec (gf_type f) (t_zz t) false = Some p).
Proof.
  intros Hq p. unfold pfield. destruct (static_choice t (gf_type f)) as [sc|]; [intros H; inversion H; subst; eauto|].
  assert (Hpl : pcodec (gf_type f) (t_zz t) false = Some p ->
    match p with PMap _ _ _ _ _ _ _ => False | _ => True end /\ (p = PStatic SCBytes \/ (exists s, p = PStatic s) \/ pcodec (gf_type f) (t_zz t) false = Some p)).
  { intros H. split; [|auto]. pose proof (pcodec_ty _ _ _ _ H) as Ht. destruct p; auto. cbn in Ht. rewrite <- Ht in Hq. discriminate. }
  destruct (gf_type f) as [ks| |ko|e|key e|e|m|]; cbn [baseTypeOf]; auto; try discriminate.
  - destruct (baseTypeOf e); try discriminate; auto.
Qed.
Lemma functional_In l t p q : functional l = true -> In (t, p) l -> In (t, q) l -> p = q.
Proof.
  unfold functional. intros F Hp Hq. rewrite forallb_forall in F. apply F in Hp. rewrite forallb_forall in Hp. apply Hp in Hq. cbn [fst snd] in Hq.
  unfold gotype_eqb in Hq. destruct (gotype_eq_dec t t); [|contradiction]. cbn in Hq. destruct (pref_eq_dec p q); [assumption|discriminate].
Qed.

Section CleanApi.
Variable D : decls.
Hypothesis HT : tame D = true.
Hypothesis HF : coherent D = true.

Definition usable (k : skey) : Prop :=
  match k with
  | SNamed m => ~ broken D m
  | SOpt _ => True
  | SEntry key val kt vt => (forall m, mentions val m = true -> ~ broken D m) /\
      (exists zz rq q, pcodec val zz rq = Some q) /\ pfields 0 (entry_fields key val kt vt) <> None
  end.
Definition asks : list (gotype * pref) := flat_map (flat_map field_asks) D.
Definition met (k : skey) : Prop :=
  match k with
  | SEntry key val kt vt => exists fs f tag t tg kp vp, In fs D /\ In f fs /\ gf_exported f = true /\ gf_tag f = Some tag /\
      parseStructTag tag = (t, None) /\ pfield t f = Some (PMap tg kt vt key val kp vp) /\ pfields 0 (entry_fields key val kt vt) <> None
  | _ => True
  end.

Lemma pcodec_good t zz rq p : pcodec t zz rq = Some p -> (forall m, mentions t m = true -> ~ broken D m) -> goodp usable p.
Proof.
  revert p. induction t as [k| |k|e IH|k e IH|e IH|m|]; intros p Hp Hm; try discriminate; try (cbn [pcodec] in Hp; inversion Hp; subst p; exact Logic.I).
  - destruct (struct_ptr (TPtr e)) as [k|] eqn:Es.
    { rewrite (struct_ptr_pcodec _ _ zz rq Es) in Hp. inversion Hp; subst p. destruct e; try discriminate. inversion Es. exact Logic.I. }
    assert (Hq : exists q0, pcodec e zz rq = Some q0 /\ p = PPtr e q0).
    { clear - Hp Es. destruct e; try discriminate; cbn [pcodec] in Hp |- *; try (inversion Hp; subst p; eexists; split; reflexivity);
        match type of Hp with option_map _ ?x = _ => destruct x eqn:Ex; [|discriminate]; inversion Hp; subst p; eexists; split; [first [exact Ex|reflexivity]|reflexivity] end. }
    destruct Hq as (q0 & Hq & ->). cbn [goodp]. apply IH; [exact Hq|exact Hm].
  - cbn in Hp. inversion Hp; subst p. cbn [goodp usable]. apply Hm. cbn. apply Nat.eqb_refl.
Qed.
Lemma pfield_good t f p : pfield t f = Some p -> (forall m, mentions (gf_type f) m = true -> ~ broken D m) ->
  match p with PMap _ kt vt key val _ _ => pfields 0 (entry_fields key val kt vt) <> None | _ => True end -> goodp usable p.
Proof.
  unfold pfield. destruct (static_choice t (gf_type f)) as [sc|]; [intros H _; inversion H; subst; intros; exact Logic.I|]. intros H Hm.
  assert (Hpl : pcodec (gf_type f) (t_zz t) false = Some p -> goodp usable p) by (intros J; eapply pcodec_good; eassumption).
  destruct (gf_type f) as [ks| |ko|e|key e|e|m|]; cbn [baseTypeOf] in H; auto.
  - destruct (pcodec e (t_zz t) true) as [q0|] eqn:Eq; [|discriminate]. inversion H; subst p. intros _. cbn [goodp]. eapply pcodec_good; eassumption.
  - destruct (pcodec (TScalar key) _ true) as [kp|] eqn:Ek; [|discriminate]. destruct (pcodec e _ true) as [vp|] eqn:Ev; [|discriminate].
    inversion H; subst p. intros He. cbn [goodp]. split; [inversion Ek; exact Logic.I|]. split; [eapply pcodec_good; eassumption|].
    cbn [usable]. split; [exact Hm|]. split; [eauto|exact He].
  - intros _. destruct (baseTypeOf e); try discriminate; auto.
Qed.
Lemma tame_field fs f tag : In fs D -> In f fs -> gf_exported f = true -> gf_tag f = Some tag -> hopeless_field f = true \/
  exists t p, parseStructTag tag = (t, None) /\ pfield t f = Some p /\
    match p with PMap _ kt vt key val _ _ => pfields 0 (entry_fields key val kt vt) <> None | _ => True end.
Proof.
  intros Hfs Hf He Ht. pose proof HT as T. unfold tame in T. rewrite forallb_forall in T. apply T in Hfs. rewrite forallb_forall in Hfs. apply Hfs in Hf.
  unfold field_tame in Hf. rewrite He, Ht in Hf. apply Bool.orb_prop in Hf. destruct Hf as [Hf|Hf]; [left; exact Hf|right].
  destruct (parseStructTag tag) as [t [e|]]; [discriminate|]. destruct (pfield t f) as [p|] eqn:Ep; [|discriminate]. exists t, p.
  split; [reflexivity|]. split; [exact Ep|]. destruct p; auto. destruct (pfields 0 (entry_fields key val ktag vtag)); [discriminate|discriminate].
Qed.

Lemma usable_good k : usable k -> exists l, pfields 0 (struct_fields D k) = Some l /\ Forall (fun f => goodp usable (f_codec f)) l.
Proof.
  destruct k as [m|key val kt vt|ko]; cbn [usable struct_fields].
  - intros Hb. destruct (nth_error D m) as [fs|] eqn:Em; [|exists []; split; [reflexivity|constructor]].
    assert (Hin : In fs D) by (eapply nth_error_In; exact Em).
    assert (R : forall f tag, In f fs -> gf_exported f = true -> gf_tag f = Some tag -> exists t p, parseStructTag tag = (t, None) /\ pfield t f = Some p /\ goodp usable p).
    { intros f tag Hf He Ht. destruct (tame_field fs f tag Hin Hf He Ht) as [Hh|(t & p & A & B & C)].
      - exfalso. apply Hb. eapply broken_field; eassumption.
      - exists t, p. split; [exact A|]. split; [exact B|]. eapply pfield_good; [exact B| |exact C].
        intros m' Hm' Hb'. apply Hb. eapply broken_ref; [exact Em|exact Hf| |exact Hm'|exact Hb']. unfold tagged. rewrite He, Ht. reflexivity. }
    destruct (pfields_some fs 0) as [l El]. { intros f tag Hf He Ht. destruct (R f tag Hf He Ht) as (t & p & A & B & _). eauto. }
    exists l. split; [exact El|]. apply Forall_forall. intros x Hx. destruct (pfields_in _ _ _ _ El Hx) as (j & f & tag & t & A & _ & B & C & E & F).
    destruct (R f tag (nth_error_In _ _ A) B C) as (t' & p & E' & F' & G). assert (t' = t) by congruence. subst t'. replace (f_codec x) with p by congruence. exact G.
  - intros (Hm & (zz & rq & q & Hq) & Hn). destruct (pfields 0 (entry_fields key val kt vt)) as [l|] eqn:El; [|contradiction]. exists l. split; [reflexivity|].
    apply Forall_forall. intros x Hx. destruct (pfields_in _ _ _ _ El Hx) as (j & f & tag & t & A & _ & B & C & E & F).
    destruct j as [|[|j]]; cbn in A; [inversion A; subst f; clear A..|destruct j; discriminate].
    + eapply pfield_good; [exact F|cbn; discriminate|].
      match type of F with pfield _ ?f = _ => destruct (flat_pfield t f false false (PStatic (SC (kind_wk key false) Normal)) eq_refl _ F) as [K _] end. destruct (f_codec x); auto; contradiction.
    + eapply pfield_good; [exact F|exact Hm|]. match type of F with pfield _ ?f = _ => destruct (flat_pfield t f zz rq q Hq _ F) as [K _] end. destruct (f_codec x); auto; contradiction.
  - intros _. exists []. split; [reflexivity|constructor].
Qed.
Lemma asks_in fs f tag t p : In fs D -> In f fs -> gf_exported f = true -> gf_tag f = Some tag -> parseStructTag tag = (t, None) ->
  pfield t f = Some p -> incl (pref_visits (gf_type f) p ++ entry_visits p) asks.
Proof.
  intros Hfs Hf He Ht Hp Hq z Hz. unfold asks. apply in_flat_map. exists fs. split; [exact Hfs|]. apply in_flat_map. exists f. split; [exact Hf|].
  unfold field_asks. rewrite He, Ht, Hp, Hq. exact Hz.
Qed.
Lemma met_step k f t : met k -> In f (struct_fields D k) -> gf_exported f = true ->
  forall tag, gf_tag f = Some tag -> parseStructTag tag = (t, None) -> hopeless_field f = true \/
  exists p, pfield t f = Some p /\ incl (pref_visits (gf_type f) p) asks /\
    match p with PMap _ kt vt key val _ _ => met (SEntry key val kt vt) | _ => True end.
Proof.
  destruct k as [m|key val kt vt|ko]; cbn [met struct_fields].
  - intros _ Hf He tag Ht Hp. destruct (nth_error D m) as [fs|] eqn:Em; [|destruct Hf]. apply nth_error_In in Em.
    destruct (tame_field fs f tag Em Hf He Ht) as [Hh|(t' & p & A & B & C)]; [left; exact Hh|right]. assert (t' = t) by congruence. subst t'.
    exists p. split; [exact B|]. split; [intros z Hz; eapply asks_in; eauto; apply in_or_app; left; exact Hz|].
    destruct p; auto. exists fs, f, tag, t. repeat eexists; eassumption.
  - intros (fs & g & tag0 & t0 & tg & kp & vp & Hfs & Hg & He0 & Ht0 & Hp0 & Hq0 & Hn) Hf He tag Ht Hp. right.
    destruct (pfields 0 (entry_fields key val kt vt)) as [l|] eqn:El; [|contradiction].
    destruct (In_nth_error _ _ Hf) as [j Hj]. destruct (pfields_all _ _ _ _ _ _ El Hj He Ht) as (t' & x & A & B & C & E).
    assert (t' = t) by congruence. subst t'. exists (f_codec x). split; [exact B|].
    assert (Fl : exists zz rq q, pcodec (gf_type f) zz rq = Some q).
    { destruct j as [|[|j]]; cbn in Hj; [inversion Hj; subst f..|destruct j; discriminate]; cbn [gf_type].
      - exists false, false. eexists. reflexivity.
      - unfold pfield in Hq0. destruct (static_choice t0 (gf_type g)); [discriminate|]. destruct (gf_type g) as [ks| |ko|e|key' e|e|m|]; cbn [baseTypeOf] in Hq0.
        + destruct (pcodec (TScalar ks) _ _) eqn:Ec; inversion Hq0; subst. cbn in Ec. discriminate.
        + discriminate.
        + discriminate.
        + destruct (pcodec e _ _); discriminate.
        + destruct (pcodec (TScalar key') _ true); [|discriminate]. destruct (pcodec e (t_zz (fst (parseStructTag (gf_val g)))) true) as [w|] eqn:Ee; [|discriminate]. inversion Hq0; subst. eauto.
        + assert (Hq1 : pcodec (TPtr e) (t_zz t0) false = Some (PMap tg kt vt key val kp vp)) by (destruct (baseTypeOf e); try discriminate; exact Hq0).
          pose proof (pcodec_ty _ _ _ _ Hq1). discriminate.
        + discriminate.
        + discriminate. }
    destruct Fl as (zz & rq & q & Hq). destruct (flat_pfield t f zz rq q Hq _ B) as [K _]. split; [|destruct (f_codec x); auto; contradiction].
    intros z Hz. eapply asks_in; [exact Hfs|exact Hg|exact He0|exact Ht0|exact Hp0|exact Hq0|]. apply in_or_app. right. cbn [entry_visits]. rewrite El.
    unfold fields_visits. apply in_flat_map. exists x. split; [exact C|]. rewrite E. cbn [Nat.add]. rewrite Hj. exact Hz.
  - intros _ [<-|[<-|[]]]; discriminate.
Qed.
Lemma asks_shape t p : In (t, p) asks -> hopeless t = false /\ struct_ptr t = None /\ forall key val, t <> TMap key val.
Proof.
  intros H. unfold asks in H. apply in_flat_map in H. destruct H as (fs & Hfs & H). apply in_flat_map in H. destruct H as (f & Hf & H). unfold field_asks in H.
  destruct (gf_exported f); [|destruct H]. destruct (gf_tag f) as [tag|]; [|destruct H]. destruct (parseStructTag tag) as [t0 [e|]]; [destruct H|].
  destruct (pfield t0 f) as [q|] eqn:Eq; [|destruct H]. apply in_app_or in H. destruct H as [H|H]; [eapply pfield_visits; eassumption|].
  destruct q as [| | | |tg kt vt key val kp vp]; try destruct H. cbn [entry_visits] in H. destruct (pfields 0 (entry_fields key val kt vt)) as [l|] eqn:El; [|destruct H].
  unfold fields_visits in H. apply in_flat_map in H. destruct H as (x & Hx & H). destruct (nth_error (entry_fields key val kt vt) (f_idx x)) as [g|] eqn:Eg; [|destruct H].
  destruct (pfields_in _ _ _ _ El Hx) as (j & g' & tag' & t' & A & B & _ & _ & _ & F). cbn in B. subst j. replace g' with g in F by congruence. eapply pfield_visits; eassumption.
Qed.

Definition CS (s : gstate) : Prop := exists G, CI D usable [] [] G s.
Lemma CS_empty : CS g_empty.
Proof. exists {| hc := []; hi := [] |}. split; cbn; auto; try (intros [|n]; discriminate); intros ? ? []. Qed.

Lemma cached_tc k G s : is_entry k = false -> CI D usable [] [] G s ->
  tc D usable [] [] (cachedStructInfoOf D (walk_fuel D) k) (~ usable k) G s (fun i G' s' => iref_is G' i k).
Proof.
  intros Hk HC. unfold cachedStructInfoOf. apply tc_infoLoad; [assumption|].
  destruct (assoc skey_eq_dec k (g_infoCache s)) as [i|] eqn:E.
  { apply tc_ret; [assumption|]. apply assoc_In in E. eapply (c_ic _ _ _ _ _ _ HC); eassumption. }
  destruct (walk_tc D usable usable_good asks (fun t p q => functional_In _ t p q HF) met met_step (fun _ => Logic.I) (fun _ => Logic.I)
    (fun t p H => let (a, b) := asks_shape t p H in let (b, _) := b in conj a b)
    (fun key val p H => let (_, b) := asks_shape _ p H in let (_, c) := b in c key val eq_refl) (walk_fuel D)) as (_ & _ & Wi & _).
  eapply tc_call; [apply Wi; [destruct k; try discriminate; exact Logic.I|exact HC|apply CW_empty]|auto|].
  intros [i w'] G1 s1 X1 C1 [H1 _]. unfold infoLoadOrStore.
  assert (C2 : CI D usable [] [] G1 (g_with_infoCache s1 ((k, i) :: g_infoCache s1))).
  { destruct C1 as [L1 L2 B I C1 C2 C3]. split; auto. intros k0 i0 [J|J]; [inversion J; subst; assumption|eauto]. }
  unfold tc. cbn [do_ run exec]. destruct (assoc skey_eq_dec k (g_infoCache s1)) as [j|] eqn:Ea.
  - exists G1. split; [apply cext_refl|]. split; [exact C1|]. apply assoc_In in Ea. eapply (c_ic _ _ _ _ _ _ C1); eassumption.
  - exists G1. split; [apply cext_refl|]. split; [exact C2|exact H1].
Qed.

Lemma info_clean k s : CS s -> is_entry k = false -> usable k ->
  exists i s', run (cachedStructInfoOf D (walk_fuel D) k) s = (Done i, s') /\ CS s' /\
    (forall x, struct_size (hlook s') (higet s') i x = struct_size plook (piget D) k x) /\
    (forall b x, struct_encode (hlook s') (higet s') i b x = struct_encode plook (piget D) k b x) /\
    (forall f b off x, decs (hlook s') (higet s') D f i b off x = decs plook (piget D) D f k b off x).
Proof.
  intros [G HC] Hk Hu. pose proof (cached_tc k G s Hk HC) as T. unfold tc in T.
  assert (NF : fst (run (cachedStructInfoOf D (walk_fuel D) k) s) <> OutOfFuel).
  { eapply nof_run. apply cached_nof. destruct k; try discriminate; reflexivity. }
  destruct (run (cachedStructInfoOf D (walk_fuel D) k) s) as [[i| |] s']; cbn [fst] in NF; try contradiction.
  2:{ destruct T as (_ & _ & _ & T). contradiction. }
  destruct T as (G' & _ & C' & Hi). exists i, s'. split; [reflexivity|]. split; [exists G'; exact C'|].
  set (RR := fun c p => cref_is G' c p /\ goodp usable p). set (RI := fun i k => iref_is G' i k /\ usable k).
  assert (Hf : forall l l', Forall2 (field_rel (cref_is G')) l l' -> Forall (fun f => goodp usable (f_codec f)) l' -> Forall2 (field_rel RR) l l').
  { induction 1 as [|a b l l' (A1 & A2 & A3) _ IH]; intros F; inversion F; subst; constructor; auto. split; [exact A1|]. split; [exact A2|]. split; assumption. }
  assert (I : forall i k, RI i k -> info_rel RR (higet s' i) (piget D k)).
  { intros j k0 [Hj Hk0]. assert (L : j < length (hi G')) by (apply nth_error_Some; unfold iref_is in Hj; congruence).
    rewrite (c_li _ _ _ _ _ _ C') in L. apply nth_error_Some in L. destruct (nth_error (g_infos s') j) as [x|] eqn:Ex; [|contradiction].
    destruct (c_infos _ _ _ _ _ _ C' _ _ _ Ex Hj Hk0) as [[]|[F1 F2]]. destruct (usable_good k0 Hk0) as (l & El & Gl).
    unfold FL in *. unfold higet. rewrite Ex. unfold piget, pinfo in *. rewrite El in *. cbn [i_fields i_index] in *. split; apply Hf; assumption. }
  assert (L : forall c p, RR c p -> body_sim RR RI (hlook s' c) (plook p)).
  { intros c p [Hc Hp]. apply bs_rel. destruct c as [x|n]; cbn [hlook]; [cbn in Hc; subst p; constructor|].
    assert (L : n < length (hc G')) by (apply nth_error_Some; cbn in Hc; congruence). rewrite (c_lc _ _ _ _ _ _ C') in L.
    apply nth_error_Some in L. destruct (nth_error (g_cells s') n) as [b|] eqn:E; [|contradiction].
    destruct (c_cells _ _ _ _ _ _ C' _ _ _ E Hc Hp) as [[]|B]. clear - B Hp.
    destruct p; cbn [plook goodp] in *; inversion B; subst; constructor; try (split; assumption).
    + match goal with H : field_rel _ _ {| f_idx := 0 |} |- _ => idtac | _ => idtac end.
      match goal with H : field_rel _ kf1 _ |- field_rel _ kf1 _ => destruct H as (A1 & A2 & A3) end. split; [exact A1|]. split; [exact A2|]. split; [exact A3|apply Hp].
    + match goal with H : field_rel _ vf1 _ |- field_rel _ vf1 _ => destruct H as (A1 & A2 & A3) end. split; [exact A1|]. split; [exact A2|]. split; [exact A3|apply Hp].
    + split; [assumption|apply Hp]. }
  split; [|split]; intros.
  - eapply (struct_size_rel _ _ _ _ RR RI L I). split; assumption.
  - eapply (struct_encode_rel _ _ _ _ RR RI L I). split; assumption.
  - eapply (proj2 (dec_rel _ _ _ _ D RR RI L I f)). split; assumption.
Qed.

Lemma with_info_CS {A} k s (f : iref -> gstate -> api A) : CS s -> is_entry k = false -> CS (snd (with_info D k s f)).
Proof.
  intros [G HC] Hk. unfold with_info. pose proof (cached_tc k G s Hk HC) as T. unfold tc in T.
  assert (NF : fst (run (cachedStructInfoOf D (walk_fuel D) k) s) <> OutOfFuel).
  { eapply nof_run. apply cached_nof. destruct k; try discriminate; reflexivity. }
  destruct (run (cachedStructInfoOf D (walk_fuel D) k) s) as [[i| |] s']; cbn [fst] in NF; try contradiction;
    destruct T as (G' & _ & C' & _); exists G'; exact C'.
Qed.
Lemma user_not_entry k : user_key D k = true -> is_entry k = false.
Proof. destruct k; try discriminate; reflexivity. Qed.
Lemma reachable_CS s : reachable D s -> CS s.
Proof.
  induction 1 as [|s v _ IH Hv|s v _ IH Hv|s b v _ IH Hv]; [apply CS_empty|..].
  - destruct v; cbn [Size snd]; auto. apply with_info_CS; [assumption|]. apply user_not_entry. exact Hv.
  - destruct v; cbn [Marshal snd]; auto. apply with_info_CS; [assumption|]. apply user_not_entry. exact Hv.
  - unfold Unmarshal. destruct (zlen b =? 0)%Z; [exact IH|]. destruct v as [| | |k [x|]]; cbn [snd]; auto. apply with_info_CS; [assumption|]. apply user_not_entry. exact Hv.
Qed.

(** The result of the pure resolution. *)
Lemma size_clean s k p : CS s -> user_key D k = true -> usable k -> fst (Size D (IPtr k p) s) =
  api_res match p with None => OK 0%Z | Some x => struct_size plook (piget D) k x end.
Proof.
  intros H Hk Hu. destruct (info_clean k s H (user_not_entry k Hk) Hu) as (i & s' & E & _ & A & _).
  cbn [Size]. unfold with_info. rewrite E. cbn [fst]. unfold info_size. destruct p; [rewrite A|]; reflexivity.
Qed.
Lemma marshal_clean s k p : CS s -> user_key D k = true -> usable k -> fst (Marshal D (IPtr k p) s) =
  api_res match p with
    | None => OK (Some [], None)
    | Some x => _ <- struct_size plook (piget D) k x ;; b <- struct_encode plook (piget D) k [] x ;; OK (Some b, None)
    end.
Proof.
  intros H Hk Hu. destruct (info_clean k s H (user_not_entry k Hk) Hu) as (i & s' & E & _ & A & B & _).
  cbn [Marshal]. unfold with_info. rewrite E. cbn [fst]. unfold info_size, info_encode. destruct p; [rewrite A, B|]; reflexivity.
Qed.
Lemma unmarshal_clean s k b p : CS s -> user_key D k = true -> usable k ->
  fst (Unmarshal D b (IPtr k p) s) = fst (Unmarshal D b (IPtr k p) g_empty).
Proof.
  intros H Hk Hu. unfold Unmarshal. destruct (zlen b =? 0)%Z; [reflexivity|]. destruct p as [x|]; [|reflexivity].
  destruct (info_clean k s H (user_not_entry k Hk) Hu) as (i & s' & E & _ & _ & _ & A).
  destruct (info_clean k g_empty CS_empty (user_not_entry k Hk) Hu) as (i0 & s0 & E0 & _ & _ & _ & A0).
  unfold with_info. rewrite E, E0. cbn [fst]. rewrite A, A0. reflexivity.
Qed.
Lemma isolated_proof s k p : reachable D s -> user_key D k = true -> usable k ->
  fst (Size D (IPtr k p) s) = fst (Size D (IPtr k p) g_empty) /\
  fst (Marshal D (IPtr k p) s) = fst (Marshal D (IPtr k p) g_empty) /\
  forall b, fst (Unmarshal D b (IPtr k p) s) = fst (Unmarshal D b (IPtr k p) g_empty).
Proof.
  intros Hs Hk Hu. apply reachable_CS in Hs. split; [|split].
  - rewrite !size_clean by (assumption || apply CS_empty). reflexivity.
  - rewrite !marshal_clean by (assumption || apply CS_empty). reflexivity.
  - intros b. apply unmarshal_clean; assumption.
Qed.
End CleanApi.
