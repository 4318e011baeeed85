(** Goroutines that build codecs at the same time: each pays at most once for
    every type. *)
From Coq Require Import ZifyBool ZifyNat ZifyN.
From Verif Require Import Base Wire GoType Leaf Codec Tag Walker Api Conc SpecConc Typing WalkSeq AnyWalk ConcFacts SpecAny SpecFirst First FirstFacts.
Local Open Scope nat_scope.

Section Threads.
Variable f : op -> gstate -> nat.
Variable D : decls.
Hypothesis f1 : forall o s, f o s <= 1.
Variables fl ls : nat.
Hypothesis f2 : forall k s, f (InfoLoad k) s = fl.
Hypothesis f3 : forall k i s, cached s k -> f (InfoLoadOrStore k i) s <= ls.
Hypothesis f4 : forall o s, is_run o = true -> f o s = 0.
Notation acc s := (account D s no_walk).
Notation each := (2 * fl + ls).
Notation rest b := (fun _ m s' => acc s' + b <= m).

Lemma acc_mono s s' : mono s s' -> acc s' <= acc s.
Proof. intros H. apply (account_mono every D (fun _ _ => le_n 1) 1 (fun _ _ => eq_refl)); [exact H|apply wmono_refl]. Qed.
Lemma sp_reads {A} (p : prog A) : reads p -> forall s b x, acc s + x <= b -> sp f p s b (rest x).
Proof.
  induction p as [a| | |o c IH]; cbn [reads]; intros H s b x L; try contradiction.
  - apply sp_ret. exact L.
  - destruct H as [Ho H]. apply sp_do; [rewrite f4 by exact Ho; lia|]. intros s1 M. rewrite f4 by exact Ho. rewrite is_run_exec in M by exact Ho.
    apply IH; [apply H|]. pose proof (acc_mono s s1 M). lia.
Qed.
Lemma sp_more {A} (p : prog A) s b b2 (Q : A -> nat -> gstate -> Prop) : sp f p s b Q -> b <= b2 ->
  (forall a m s', Q a m s' -> Q a (m + (b2 - b)) s') -> sp f p s b2 Q.
Proof. intros H L K. eapply sp_conseq; [exact H|exact L|]. auto. Qed.
Lemma info_sp {A} k (g : iref -> prog A) s x b : user_key D k = true -> (forall i, reads (g i)) -> acc s + each + x <= b ->
  sp f (pbind (p_info D k) g) s b (rest x).
Proof.
  intros Hk Hg L. apply sp_bind.
  eapply (sp_conseq f) with (b := acc s + each) (Q := fun i m s' => acc s' <= m /\ mono s s' /\ cached s' k); [|lia|].
  - replace (acc s + each) with (acc s + 2 * fl + ls) by lia. apply (cached_sp f D f1 fl f2); [exact Hk|]. intros i s0. apply f3.
  - intros i m s' _ (H & _) Hm. apply sp_reads; [apply Hg|]. lia.
Qed.
Lemma call_sp c s x b : match arg_type c with Some k => user_key D k = true | None => True end -> acc s + each + x <= b ->
  sp f (p_call D c) s b (rest x).
Proof.
  intros Hc L.
  assert (R : forall A B (p : prog A) (g : A -> B), sp f p s b (rest x) -> sp f (pbind p (fun r => Ret (g r))) s b (rest x)).
  { intros A B p g H. apply sp_bind. intros n r s' X. destruct (H n r s' X) as (H1 & H2 & H3). split; [exact H1|]. split; [exact H2|].
    destruct r as [[a| |]|]; auto. apply sp_ret. exact H3. }
  assert (Z : forall A (a : A), sp f (Ret a) s b (rest x)) by (intros; apply sp_ret; lia).
  destruct c as [v|v|d v]; cbn [p_call]; apply R; cbn [arg_type] in Hc.
  - destruct v as [| | |k p]; try apply Z. cbn [p_Size]. apply info_sp; auto. intros i.
    apply reads_bind; [destruct p; [apply reads_struct_size|exact Logic.I]|]. intros; exact Logic.I.
  - destruct v as [| | |k p]; try apply Z. cbn [p_Marshal]. apply info_sp; auto. intros i. apply reads_bind; [|intros; exact Logic.I].
    apply reads_rbindp; [destruct p; [apply reads_struct_size|exact Logic.I]|]. intros n.
    apply reads_rbindp; [destruct p; [apply reads_struct_encode|exact Logic.I]|]. intros; exact Logic.I.
  - unfold p_Unmarshal. destruct (zlen d =? 0)%Z; [apply Z|]. destruct v as [| | |k [y|]]; try apply Z.
    apply info_sp; auto. intros i. apply reads_bind; [apply (reads_dec D)|]. intros; exact Logic.I.
Qed.
Lemma calls_sp cs : Forall (fun c => match arg_type c with Some k => user_key D k = true | None => True end) cs ->
  forall s b, acc s + each * length cs <= b -> sp f (p_calls D cs) s b (rest 0).
Proof.
  induction 1 as [|c cs Hc _ IH]; intros s b L; cbn [p_calls length] in *.
  - apply sp_ret. lia.
  - apply sp_bind. pose proof (call_sp c s (each * length cs) b Hc) as X.
    assert (L' : acc s + each + each * length cs <= b) by lia. specialize (X L'). clear L L'.
    intros n r s' Y. destruct (X n r s' Y) as (X1 & X2 & X3). split; [exact X1|]. split; [exact X2|].
    destruct r as [[a| |]|]; auto. apply sp_bind.
    intros n2 r2 s2 Y2. destruct (IH s' (b - n) X3 n2 r2 s2 Y2) as (Z1 & Z2 & Z3). split; [exact Z1|]. split; [exact Z2|].
    destruct r2 as [[a2| |]|]; auto. apply sp_ret. exact Z3.
Qed.

(** What the goroutines may still spend. *)
Definition funded (s : gstate) (t : prog (list answer)) (b : nat) : Prop := forall s', mono s s' -> sp f t s' b (rest 0).
Lemma spent_funded c n c' : spent f c n c' -> forall bs, Forall2 (funded (snd c)) (fst c) bs ->
  mono (snd c) (snd c') /\ exists bs', Forall2 (funded (snd c')) (fst c') bs' /\ n + list_sum bs' = list_sum bs.
Proof.
  induction 1 as [c|pre o k post s n c _ IH]; intros bs F.
  - split; [apply mono_refl|]. exists bs. split; [exact F|reflexivity].
  - cbn [fst snd] in *. apply Forall2_app_inv_l in F. destruct F as (b1 & b2 & F1 & F2 & ->). inversion F2 as [|? b ? b3 H F3]; subst.
    assert (M : mono s (snd (exec o s))) by apply mono_exec.
    assert (W : forall t x, funded s t x -> funded (snd (exec o s)) t x).
    { intros t x K s' Ms. apply K. eapply mono_trans; eassumption. }
    assert (W2 : forall l l', Forall2 (funded s) l l' -> Forall2 (funded (snd (exec o s))) l l').
    { intros l l' K. induction K; constructor; auto. }
    pose proof (H s (mono_refl s)) as H0.
    assert (L : f o s <= b).
    { destruct (H0 (f o s + 0) None (snd (exec o s))) as (L & _); [eapply amid_do; [apply mono_refl|constructor]|]. lia. }
    assert (N : funded (snd (exec o s)) (k (fst (exec o s))) (b - f o s)).
    { intros s' Ms m r s2 X. destruct (H0 (f o s + m) r s2) as (N1 & N2 & N3); [eapply amid_do; eassumption|].
      split; [lia|]. split.
      - clear - X. induction X; try apply mono_refl. eapply mono_trans; [apply mono_exec|]. eapply mono_trans; eassumption.
      - destruct r as [[a| |]|]; auto. replace (b - f o s - m) with (b - (f o s + m)) by lia. exact N3. }
    destruct (IH (b1 ++ (b - f o s) :: b3)) as (I1 & bs' & I2 & I3).
    { apply Forall2_app; [apply W2, F1|]. constructor; [exact N|apply W2, F3]. }
    split; [eapply mono_trans; eassumption|]. exists bs'. split; [exact I2|].
    rewrite !list_sum_app in *. change (list_sum (b :: b3)) with (b + list_sum b3). change (list_sum (b - f o s :: b3)) with (b - f o s + list_sum b3) in I3. lia.
Qed.
Lemma start_funded css s : declared_args D css ->
  Forall2 (funded s) (map (p_calls D) css) (map (fun cs => acc s + each * length cs) css).
Proof.
  induction 1 as [|cs css H _ IH]; constructor; [|exact IH]. intros s' M. apply calls_sp; [exact H|]. pose proof (acc_mono s s' M). lia.
Qed.
Lemma start_sum css s : list_sum (map (fun cs : list call => acc s + each * length cs) css) = length css * acc s + each * list_sum (map (@length call) css).
Proof.
  induction css as [|cs css IH]; [cbn; lia|]. cbn [map length].
  change (list_sum ((acc s + each * length cs) :: map (fun cs : list call => acc s + each * length cs) css)) with
    (acc s + each * length cs + list_sum (map (fun cs : list call => acc s + each * length cs) css)).
  change (list_sum (length cs :: map (@length call) css)) with (length cs + list_sum (map (@length call) css)). rewrite IH. lia.
Qed.
Lemma spent_bound css s n c : declared_args D css -> spent f (map (p_calls D) css, s) n c ->
  n <= length css * acc s + each * list_sum (map (@length call) css) /\ mono s (snd c).
Proof.
  intros H X. destruct (spent_funded _ _ _ X _ (start_funded css s H)) as (M & bs & _ & E). rewrite start_sum in E. split; [lia|exact M].
Qed.
Lemma spent_end css s n ans s' : declared_args D css -> spent f (map (p_calls D) css, s) n (map Ret ans, s') ->
  n + length css * acc s' <= length css * acc s + each * list_sum (map (@length call) css).
Proof.
  intros H X. destruct (spent_funded _ _ _ X _ (start_funded css s H)) as (M & bs & F & E). rewrite start_sum in E.
  assert (L : length ans = length css).
  { assert (G : forall c n c', spent f c n c' -> length (fst c) = length (fst c')).
    { induction 1 as [|pre o k post s0 m c _ IH]; [reflexivity|]. cbn [fst] in *. rewrite <- IH, !app_length. reflexivity. }
    apply G in X. cbn [fst] in X. rewrite !map_length in X. auto. }
  cbn [fst snd] in F. assert (K : length ans * acc s' <= list_sum bs).
  { clear - F. revert bs F. induction ans as [|a ans IH]; intros bs F; inversion F as [|? b ? bs' H F']; subst; [cbn; lia|].
    specialize (IH _ F'). change (list_sum (b :: bs')) with (b + list_sum bs'). cbn [length].
    destruct (H s' (mono_refl _) 0 (Some (Done a)) s' (amid_ret _ _ _)) as (_ & _ & Q). lia. }
  rewrite L in K. lia.
Qed.
Lemma csteps_spent c c' : csteps c c' -> exists n, spent f c n c'.
Proof.
  induction 1 as [|c1 c2 c3 S _ (n & IH)]; [exists 0; constructor|]. destruct S as [pre o k post s]. exists (f o s + n). constructor. exact IH.
Qed.
End Threads.

Lemma spent_memory c n c' : spent growing c n c' -> memory (snd c') = memory (snd c) + n.
Proof.
  induction 1 as [|pre o k post s n c _ IH]; [lia|]. cbn [snd] in *. rewrite IH, growing_exec. lia.
Qed.
Lemma growing_run o s : is_run o = true -> growing o s = 0.
Proof. intros H. unfold growing. rewrite is_run_exec by exact H. lia. Qed.
Lemma growing_again k i s : cached s k -> growing (InfoLoadOrStore k i) s <= 0.
Proof.
  intros Hc. apply cached_assoc in Hc. unfold growing. cbn [exec]. destruct (assoc skey_eq_dec k (g_infoCache s)); [|contradiction]. cbn. lia.
Qed.
Section Shared.
Variable D : decls.
Notation acc s := (account D s no_walk).
Lemma phase_memory css s ts s' : declared_args D css -> csteps (map (p_calls D) css, s) (ts, s') ->
  memory s' <= memory s + length css * acc s.
Proof.
  intros H X. destruct (csteps_spent growing _ _ X) as (n & Y). pose proof (spent_memory _ _ _ Y) as E. cbn [snd] in E.
  destruct (spent_bound growing D growing_1 0 0 (fun k s => Nat.sub_diag (memory s)) growing_again growing_run css s n _ H Y) as (B & _). lia.
Qed.
Lemma shared_account G s : shared D G s -> memory s + G * acc s <= G * price D.
Proof.
  induction 1 as [|s css ans s' _ IH L H X].
  - change (memory g_empty) with 0. pose proof (account_le D g_empty no_walk). nia.
  - destruct (csteps_spent growing _ _ X) as (n & Y). pose proof (spent_memory _ _ _ Y) as E. cbn [snd] in E.
    pose proof (spent_end growing D growing_1 0 0 (fun k s => Nat.sub_diag (memory s)) growing_again growing_run css s n ans s' H Y) as B.
    destruct (spent_bound growing D growing_1 0 0 (fun k s => Nat.sub_diag (memory s)) growing_again growing_run css s n _ H Y) as (_ & M).
    cbn [snd] in M. pose proof (acc_mono D s s' M). 
    assert (G * acc s' + length css * acc s <= G * acc s + length css * acc s') by nia. lia.
Qed.
Lemma shared_proof G s css ts s' : shared D G s -> length css <= G -> declared_args D css ->
  csteps (map (p_calls D) css, s) (ts, s') -> memory s' <= G * (18 * declared D + 4 * length D + 32).
Proof.
  intros HS L H X. apply shared_account in HS. pose proof (phase_memory css s ts s' H X). unfold price in HS. nia.
Qed.
Lemma building_proof css s n c : declared_args D css -> spent building (map (p_calls D) css, s) n c ->
  n <= length css * (18 * declared D + 4 * length D + 32) + 3 * list_sum (map (@length call) css).
Proof.
  intros H X. assert (B1 : forall o s, building o s <= 1) by (intros [] ?; cbn; lia).
  destruct (spent_bound building D B1 1 1 (fun k s => eq_refl) (fun k i s _ => le_n 1)
    (fun o s (E : is_run o = true) => ltac:(destruct o; try discriminate E; reflexivity)) css s n c H X) as (B & _).
  pose proof (account_le D s no_walk) as A. unfold price in A. nia.
Qed.
End Shared.
Lemma spent_csteps_proof f c c' : csteps c c' <-> exists n, spent f c n c'.
Proof.
  split; [apply csteps_spent|]. intros (n & X). induction X as [|pre o k post s n c _ IH]; [constructor|]. econstructor; [constructor|exact IH].
Qed.
