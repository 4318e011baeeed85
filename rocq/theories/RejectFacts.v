(** A struct type with a hopeless field is rejected in every state the caches can
    reach, whatever happened before. *)
From Coq Require Import ZifyBool ZifyNat ZifyN String.
From Verif Require Import Base Wire GoType Leaf Codec Tag Walker Api SpecReject Typing TypingFacts WalkInv WalkFuel WalkSeq.
Local Close Scope string_scope.

Section Reject.
Variable D : decls.
Variable K : skey.

(** [p] does not put [K] in structInfoCache, and what it returns satisfies [Q],
    as long as [K] is not found there. *)
Definition resp_ok (o : op) : resp o -> Prop :=
  match o return resp o -> Prop with InfoLoad k => fun r => k = K -> r = None | _ => fun _ => True end.
Definition op_ok (o : op) : Prop :=
  match o with InfoStore k _ | InfoLoadOrStore k _ => k <> K | _ => True end.
Fixpoint ens {A} (p : prog A) (Q : A -> Prop) : Prop :=
  match p with
  | Ret a => Q a
  | Do o k => op_ok o /\ forall r, resp_ok o r -> ens (k r) Q
  | _ => True
  end.
Lemma ens_conseq {A} (p : prog A) (Q1 Q2 : A -> Prop) : (forall a, Q1 a -> Q2 a) -> ens p Q1 -> ens p Q2.
Proof. intros H. induction p as [a| | |o k IH]; cbn; auto. intros [A1 A2]. auto. Qed.
Lemma ens_bind {A B} (p : prog A) (k : A -> prog B) Q : ens p (fun a => ens (k a) Q) -> ens (pbind p k) Q.
Proof. induction p as [a| | |o c IH]; cbn; auto. intros [A1 A2]. auto. Qed.
Lemma ens_false {A B} (p : prog A) (k : A -> prog B) Q : ens p (fun _ => False) -> ens (pbind p k) Q.
Proof. intros H. apply ens_bind. eapply ens_conseq; [|exact H]. contradiction. Qed.
Lemma ens_do (o : op) {B} (k : resp o -> prog B) Q : op_ok o -> (forall r, resp_ok o r -> ens (k r) Q) -> ens (pbind (do_ o) k) Q.
Proof. intros H1 H2. split; assumption. Qed.

Definition kfree (s : gstate) : Prop := assoc skey_eq_dec K (g_infoCache s) = None.
Lemma exec_ok o s : kfree s -> op_ok o -> resp_ok o (fst (exec o s)) /\ kfree (snd (exec o s)).
Proof.
  unfold kfree. intros H Ho. destruct o; cbn [exec resp_ok op_ok fst snd] in *; auto.
  - split; [intros ->; exact H|exact H].
  - cbn [g_with_infoCache g_infoCache assoc]. destruct (skey_eq_dec K k); [subst; contradiction|auto].
  - destruct (assoc skey_eq_dec k (g_infoCache s)); cbn [fst snd]; [auto|].
    cbn [g_with_infoCache g_infoCache assoc]. destruct (skey_eq_dec K k); [subst; contradiction|auto].
  - destruct (assoc gotype_eq_dec t (g_codecCache s)); auto.
  - destruct (assoc cref_eq_dec c (g_sliceMap s)); auto.
  - destruct c; auto.
  - destruct (nth_error (g_infos s) i); auto.
  - destruct (nth_error (g_infos s) i); auto.
Qed.
Lemma ens_run {A} (p : prog A) Q : forall s, ens p Q -> kfree s ->
  kfree (snd (run p s)) /\ match fst (run p s) with Done a => Q a | _ => True end.
Proof.
  induction p as [a| | |o k IH]; intros s H Hs; cbn [ens run] in *; auto. destruct H as [H1 H2].
  destruct (exec_ok o s Hs H1) as [R S]. destruct (exec o s) as [r s']. apply IH; auto.
Qed.

(** What the walker remembers is never hopeless. *)
Fixpoint free (w : walker) (t : gotype) : Prop :=
  w_get w t = None /\ match t with TPtr e => free w e | _ => True end.
Definition wok (w : walker) : Prop := forall t, hopeless t = true -> w_get w t = None.
Lemma hopeless_peel e : hopeless (TPtr e) = true -> hopeless e = true /\ forall k, e <> TOption k.
Proof. destruct e; cbn; try discriminate; auto; split; auto; discriminate. Qed.
Lemma wok_free w t : wok w -> hopeless t = true -> free w t.
Proof.
  intros Hw. induction t; cbn [free]; intros H; split; auto. apply IHt. apply hopeless_peel. assumption.
Qed.
Fixpoint tsize (t : gotype) : nat := match t with TPtr e => S (tsize e) | _ => 0 end.
Lemma free_set w t c e : free w e -> tsize e < tsize t -> free (w_set w t c) e.
Proof.
  revert t. induction e; intros t' [H1 H2] L; cbn [free tsize] in *;
    (split; [unfold w_get, w_set; cbn [w_codecs assoc]; match goal with |- context[gotype_eq_dec ?a ?b] => destruct (gotype_eq_dec a b) as [E|E] end;
     [subst t'; cbn in L; lia|exact H1]|]); auto.
  apply IHe; [assumption|lia].
Qed.
Lemma wok_set w t c : wok w -> hopeless t = false -> wok (w_set w t c).
Proof.
  intros H Ht u Hu. unfold w_get, w_set. cbn [w_codecs assoc]. destruct (gotype_eq_dec u t); [congruence|]. apply H. assumption.
Qed.
Lemma wok_iset w k i : wok w -> wok (w_iset w k i).
Proof. intros H t Ht. apply H. assumption. Qed.

Lemma codec_hopeless fuel : forall w t z r, hopeless t = true -> free w t -> ens (w_codec D fuel w t z r) (fun _ => False).
Proof.
  induction fuel as [|fuel IH]; intros w t z r Ht Hf; [exact Logic.I|]. cbn [w_codec].
  destruct t; try discriminate; cbn [free] in Hf; destruct Hf as [-> Hf]; try exact Logic.I.
  apply hopeless_peel in Ht. destruct Ht as [Ht Hn].
  assert (E : struct_ptr (TPtr t) = None) by (destruct t; try reflexivity; exfalso; eapply Hn; reflexivity).
  rewrite E. apply ens_do; [exact Logic.I|]. intros p _. apply ens_false. cbn [elem_of]. apply IH; [assumption|].
  apply free_set; [assumption|cbn; lia].
Qed.

Hypothesis HK : forallb (fun f => negb (hopeless_field f)) (struct_fields D K) = false.

Notation wok2 := (fun x => wok (snd x)).
Lemma slice_ens t c w : hopeless t = false -> wok w -> ens (sliceCodecOf t c w) wok2.
Proof.
  intros Ht Hw. unfold sliceCodecOf. apply ens_do; [exact Logic.I|]. intros [s|] _; [exact Hw|].
  destruct (w_get w t); [exact Hw|]. apply ens_do; [exact Logic.I|]. intros s _. apply ens_do; [exact Logic.I|]. intros _ _.
  apply ens_do; [exact Logic.I|]. intros a _. apply wok_set; assumption.
Qed.

Lemma walker_ens fuel :
  (forall w t z r, wok w -> ens (w_codec D fuel w t z r) wok2) /\
  (forall w t k, struct_ptr t = Some k -> wok w -> ens (w_structCodec D fuel w t k) wok2) /\
  (forall w k, wok w -> ens (w_structInfo D fuel w k) wok2) /\
  (forall w idx fs, wok w -> ens (w_fields D fuel w idx fs)
     (fun x => wok (snd x) /\ forallb (fun f => negb (hopeless_field f)) fs = true)) /\
  (forall w t f, wok w -> ens (w_field D fuel w t f)
     (fun x => wok (snd x) /\ (static_choice t (gf_type f) = None -> hopeless_type (gf_type f) = false))) /\
  (forall w key val tag kf vf, wok w -> ens (w_mapCodec D fuel w key val tag kf vf) wok2).
Proof.
  induction fuel as [|fuel (IHc & IHs & IHi & IHfs & IHf & IHm)]; [repeat split; intros; exact Logic.I|].
  split; [|split; [|split; [|split; [|split]]]].
  - intros w t z r Hw. destruct (hopeless t) eqn:Ht.
    { eapply ens_conseq; [|apply codec_hopeless; [exact Ht|apply wok_free; assumption]]. contradiction. }
    cbn [w_codec]. destruct (w_get w t); [exact Hw|].
    destruct t; try exact Logic.I; try exact Hw.
    + destruct (struct_ptr (TPtr t)) as [k|] eqn:E; [apply IHs; assumption|].
      apply ens_do; [exact Logic.I|]. intros p _. apply ens_bind. cbn [elem_of].
      eapply ens_conseq; [|apply IHc; apply wok_set; assumption]. intros [c w'] Hw'. cbn [snd] in Hw'.
      apply ens_do; [exact Logic.I|]. intros _ _. exact Hw'.
    + cbn [struct_ptr]. apply IHs; [reflexivity|assumption].
  - intros w t k Ht Hw. cbn [w_structCodec]. apply ens_do; [exact Logic.I|]. intros [c|] _; [exact Hw|].
    destruct (w_get w t); [exact Hw|]. apply ens_do; [exact Logic.I|]. intros c _. apply ens_bind.
    assert (Hh : hopeless t = false) by (destruct t as [| | | | |[]| |]; cbn in Ht |- *; try discriminate; reflexivity).
    eapply ens_conseq; [|apply IHi; apply wok_set; assumption]. intros [i w'] Hw'. cbn [snd] in Hw'.
    apply ens_do; [exact Logic.I|]. intros _ _. apply ens_do; [exact Logic.I|]. intros a _. exact Hw'.
  - intros w k Hw. cbn [w_structInfo]. apply ens_do; [exact Logic.I|]. intros [i|] _; [exact Hw|].
    destruct (w_iget w k); [exact Hw|]. apply ens_do; [exact Logic.I|]. intros i _. apply ens_bind.
    eapply ens_conseq; [|apply IHfs; apply wok_iset; assumption]. intros [fs w'] [Hw' Hh]. cbn [snd] in Hw'.
    apply ens_do; [exact Logic.I|]. intros _ _. apply ens_do; [exact Logic.I|]. intros _ _.
    apply ens_do; [intros ->; congruence|]. intros _ _. exact Hw'.
  - intros w idx fs Hw. cbn [w_fields]. destruct fs as [|f fs]; [split; [exact Hw|reflexivity]|].
    apply ens_bind.
    assert (H1 : ens (match gf_exported f, gf_tag f with
        | true, Some tag =>
          let '(t, e) := parseStructTag tag in
          match e with
          | Some _ => Panic
          | None =>
            let* (c, w) := w_field D fuel w t f in
            Ret (Some (mkfield idx (tag_wiretag t) c), w)
          end
        | _, _ => Ret (None, w)
        end) (fun x => wok (snd x) /\ hopeless_field f = false)).
    { unfold hopeless_field. destruct (gf_exported f); [|split; [exact Hw|reflexivity]].
      destruct (gf_tag f) as [tag|]; [|split; [exact Hw|reflexivity]].
      destruct (parseStructTag tag) as [t [e|]]; [exact Logic.I|]. apply ens_bind.
      eapply ens_conseq; [|apply IHf; exact Hw]. intros [c w'] [Hw' Hh]. split; [exact Hw'|].
      destruct (static_choice t (gf_type f)); [reflexivity|]. apply Hh. reflexivity. }
    eapply ens_conseq; [|exact H1]. intros [o w'] [Hw' Hh]. apply ens_bind.
    eapply ens_conseq; [|apply IHfs; exact Hw']. intros [r w2] [Hw2 Hh2]. split; [exact Hw2|].
    cbn [forallb]. rewrite Hh, Hh2. reflexivity.
  - intros w t f Hw. cbn [w_field]. cbv zeta. destruct (static_choice t (gf_type f)); [split; [exact Hw|discriminate]|].
    set (ty := gf_type f).
    assert (Hc : forall fuel, ens (w_codec D fuel w ty (t_zz t) false) wok2 -> 
        ens (w_codec D fuel w ty (t_zz t) false) (fun x => wok (snd x) /\ (None = None :> option scid -> hopeless ty = false))).
    { intros fuel' H. destruct (hopeless ty) eqn:E.
      - eapply ens_conseq; [|apply codec_hopeless; [exact E|apply wok_free; assumption]]. contradiction.
      - eapply ens_conseq; [|exact H]. auto. }
    assert (He : forall e z, hopeless_type ty = hopeless e \/ hopeless_type ty = false -> ens (w_codec D fuel w e z true) wok2 ->
        ens (w_codec D fuel w e z true) (fun x => wok (snd x) /\ hopeless_type ty = false)).
    { intros e z [E|E] H; [|eapply ens_conseq; [|exact H]; auto]. destruct (hopeless e) eqn:E2.
      - eapply ens_conseq; [|apply codec_hopeless; [exact E2|apply wok_free; assumption]]. contradiction.
      - eapply ens_conseq; [|exact H]. rewrite E. auto. }
    assert (Hb : forall b, baseTypeOf ty = b -> match b with TPtr _ => False | _ => True end).
    { intros b <-. clear. induction ty; cbn; auto. }
    assert (Hs : (exists e, ty = TSlice e) \/ (exists e b, ty = TPtr e /\ baseTypeOf ty = b /\ match b with TSlice _ | TBytes => True | _ => False end) ->
      ens (let* (c, w) := w_codec D fuel w (elem_of ty) (t_zz t) true in sliceCodecOf ty c w)
        (fun x => wok (snd x) /\ (None = None :> option scid -> hopeless_type ty = false))).
    { intros Hty.
      assert (Hd : hopeless_type ty = hopeless (elem_of ty) \/ hopeless_type ty = false).
      { destruct Hty as [(e & ->)|(e & b & -> & E & Hbb)]; [left; reflexivity|right]. cbn [hopeless_type]. rewrite E. destruct b; try contradiction; reflexivity. }
      assert (Hn : hopeless ty = false).
      { destruct Hty as [(e & ->)|(e & b & -> & E & Hbb)]; [reflexivity|]. cbn [baseTypeOf] in E. clear - E Hbb.
        induction e; cbn in *; subst; try contradiction; try reflexivity. destruct e; auto. }
      apply ens_bind. eapply ens_conseq; [|apply He; [exact Hd|apply IHc; exact Hw]].
      intros [c w'] [Hw' Hh]. eapply ens_conseq; [|apply slice_ens; [exact Hn|exact Hw']]. auto. }
    destruct ty as [k| |k|e|key v|e|sid|] eqn:Ety; cbn [baseTypeOf].
    + apply Hc. apply IHc. exact Hw.
    + split; [exact Hw|reflexivity].
    + apply Hc. apply IHc. exact Hw.
    + apply Hs. left. eauto.
    + destruct (parseStructTag (gf_key f)) as [kt ?]. apply ens_bind. eapply ens_conseq; [|apply IHc; exact Hw].
      intros [kc w1] Hw1. cbn [snd] in Hw1. destruct (parseStructTag (gf_val f)) as [vt ?]. apply ens_bind.
      destruct (hopeless v) eqn:Ev.
      { eapply ens_conseq; [|apply codec_hopeless; [exact Ev|apply wok_free; [exact Hw1|exact Ev]]]. contradiction. }
      eapply ens_conseq; [|apply IHc; exact Hw1]. intros [vc w2] Hw2. cbn [snd] in Hw2.
      eapply ens_conseq; [|apply IHm; exact Hw2]. auto.
    + specialize (Hb _ eq_refl). cbn [baseTypeOf] in Hb.
      assert (Ht : hopeless_type (TPtr e) = match baseTypeOf e with TMap _ _ => true | TSlice _ | TBytes => false | _ => hopeless (TPtr e) end)
        by reflexivity.
      destruct (baseTypeOf e) eqn:Eb; try contradiction; try (rewrite Ht; apply Hc; apply IHc; exact Hw).
      * apply Hs. right. exists e, TBytes. auto.
      * apply Hs. right. eexists e, _. split; [reflexivity|]. split; [exact Eb|exact Logic.I].
      * exact Logic.I.
    + apply Hc. apply IHc. exact Hw.
    + apply Hc. apply IHc. exact Hw.
  - intros w key v tag kf vf Hw. cbn [w_mapCodec]. apply ens_do; [exact Logic.I|]. intros m _. apply ens_bind.
    eapply ens_conseq; [|apply IHi; apply wok_set; [exact Hw|reflexivity]]. intros [i w'] Hw'. cbn [snd] in Hw'.
    apply ens_do; [exact Logic.I|]. intros _ _. exact Hw'.
Qed.

Lemma cached_ens : ens (cachedStructInfoOf D (walk_fuel D) K) (fun _ => False).
Proof.
  unfold cachedStructInfoOf. apply ens_do; [exact Logic.I|]. intros r Hr. rewrite (Hr eq_refl).
  apply ens_false. destruct (walk_fuel D) as [|fuel]; [exact Logic.I|]. cbn [w_structInfo].
  apply ens_do; [exact Logic.I|]. intros r2 Hr2. rewrite (Hr2 eq_refl). cbn [w_iget assoc w_infos].
  apply ens_do; [exact Logic.I|]. intros i _. apply ens_false.
  eapply ens_conseq; [|apply walker_ens]. { intros [fs w'] [_ Hh]. congruence. }
  intros t _. reflexivity.
Qed.
Lemma cached_ens_other k : k <> K -> ens (cachedStructInfoOf D (walk_fuel D) k) (fun _ => True).
Proof.
  intros Hk. unfold cachedStructInfoOf. apply ens_do; [exact Logic.I|]. intros [i|] _; [exact Logic.I|].
  apply ens_bind. eapply ens_conseq; [|apply walker_ens]; [|intros t _; reflexivity].
  intros [i w] _. split; [exact Hk|]. intros; exact Logic.I.
Qed.
Lemma cached_kfree k s : kfree s -> kfree (snd (run (cachedStructInfoOf D (walk_fuel D) k) s)).
Proof.
  intros H. destruct (skey_eq_dec k K) as [->|Hk].
  - eapply ens_run; [apply cached_ens|exact H].
  - eapply ens_run; [apply cached_ens_other; exact Hk|exact H].
Qed.
Lemma with_info_kfree {A} k s (f : iref -> gstate -> api A) : kfree s -> kfree (snd (with_info D k s f)).
Proof.
  intros H. unfold with_info. pose proof (cached_kfree k s H) as R.
  destruct (run _ s) as [[i| |] s']; exact R.
Qed.
Lemma reachable_kfree s : reachable D s -> kfree s.
Proof.
  induction 1 as [|s v _ IH _|s v _ IH _|s b v _ IH _]; [reflexivity| | |].
  - destruct v; cbn [Size snd]; auto. apply with_info_kfree; assumption.
  - destruct v; cbn [Marshal snd]; auto. apply with_info_kfree; assumption.
  - unfold Unmarshal. destruct (zlen b =? 0)%Z; [exact IH|]. destruct v as [| | |k [x|]]; cbn [snd]; auto. apply with_info_kfree; assumption.
Qed.
Lemma with_info_rejected {A} s (f : iref -> gstate -> api A) : is_entry K = false -> kfree s -> fst (with_info D K s f) = Panics Unsupported.
Proof.
  intros HE H. unfold with_info. pose proof (ens_run _ _ s cached_ens H) as [_ R].
  assert (NF : fst (run (cachedStructInfoOf D (walk_fuel D) K) s) <> OutOfFuel) by (eapply nof_run; apply cached_nof; exact HE).
  destruct (run _ s) as [[i| |] s']; cbn [fst] in *; [contradiction|reflexivity|congruence].
Qed.
End Reject.

Lemma hopeless_proof : forall D sid f fs, nth_error D sid = Some fs -> In f fs -> hopeless_field f = true ->
  forall s, reachable D s -> forall p b x, b <> [] ->
  fst (Size D (IPtr (SNamed sid) p) s) = Panics Unsupported /\
  fst (Marshal D (IPtr (SNamed sid) p) s) = Panics Unsupported /\
  fst (Unmarshal D b (IPtr (SNamed sid) (Some x)) s) = Panics Unsupported.
Proof.
  intros D sid f fs E Hin Hf s Hs p b x Hb.
  assert (HK : forallb (fun f => negb (hopeless_field f)) (struct_fields D (SNamed sid)) = false).
  { cbn [struct_fields]. unfold struct_fields. rewrite E. destruct (forallb _ fs) eqn:F; [|reflexivity].
    rewrite forallb_forall in F. apply F in Hin. rewrite Hf in Hin. discriminate. }
  pose proof (reachable_kfree D (SNamed sid) HK s Hs) as H.
  split; [|split].
  - apply with_info_rejected; auto.
  - apply with_info_rejected; auto.
  - unfold Unmarshal. destruct (zlen b =? 0)%Z eqn:Ez.
    + destruct b; [contradiction|]. unfold zlen in Ez. cbn [length] in Ez. lia.
    + apply with_info_rejected; auto.
Qed.
