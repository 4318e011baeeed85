(** Building codecs takes operations in proportion to the declarations. The
    argument is an account: a struct type that has not been entered yet and is in
    no cache has paid for its fields in advance. *)
From Coq Require Import ZifyBool ZifyNat ZifyN String.
From Verif Require Import Base Wire GoType Leaf Codec Tag Walker Api Typing WalkInv WalkFuel WalkSeq AnyWalk SpecAny SpecFirst First.
Local Open Scope nat_scope.

Definition mono (s s' : gstate) : Prop := forall q, cached s q -> cached s' q.
Lemma mono_refl s : mono s s. Proof. intros q H. exact H. Qed.
Lemma mono_trans a b c : mono a b -> mono b c -> mono a c. Proof. intros H K q X. auto. Qed.
Lemma cached_assoc s k : cached s k <-> assoc skey_eq_dec k (g_infoCache s) <> None.
Proof.
  unfold cached. split.
  - intros (i & H). induction (g_infoCache s) as [|[k' v] l IH]; [destruct H|]. cbn. destruct (skey_eq_dec k k'); [discriminate|].
    destruct H as [H|H]; [inversion H; congruence|auto].
  - intros H. destruct (assoc skey_eq_dec k (g_infoCache s)) as [i|] eqn:E; [|contradiction]. exists i. eapply assoc_In, E.
Qed.
Lemma mono_exec o s : mono s (snd (exec o s)).
Proof.
  intros q (i & H). exists i. destruct o; cbn; auto; try (destruct (assoc _ _ _); cbn; auto);
    try (destruct c; cbn; auto); try (destruct (nth_error (g_infos s) _); cbn; auto).
Qed.

Section Spend.
Variable f : op -> gstate -> nat.

(** [p] spends at most [b]; [Q] speaks of what is left. *)
Definition sp {A} (p : prog A) (s : gstate) (b : nat) (Q : A -> nat -> gstate -> Prop) : Prop :=
  forall n r s', amid f p s n r s' -> n <= b /\ mono s s' /\ match r with Some (Done a) => Q a (b - n) s' | _ => True end.
Lemma sp_ret {A} (a : A) s b (Q : A -> nat -> gstate -> Prop) : Q a b s -> sp (Ret a) s b Q.
Proof.
  intros H n r s' X. inversion X; subst; (split; [lia|split; [apply mono_refl|]]); auto. rewrite Nat.sub_0_r. exact H.
Qed.
Lemma sp_panic {A} s b (Q : A -> nat -> gstate -> Prop) : sp Panic s b Q.
Proof. intros n r s' X. inversion X; subst; (split; [lia|split; [apply mono_refl|]]); auto. Qed.
Lemma sp_nofuel {A} s b (Q : A -> nat -> gstate -> Prop) : sp NoFuel s b Q.
Proof. intros n r s' X. inversion X; subst; (split; [lia|split; [apply mono_refl|]]); auto. Qed.
Lemma amid_inv {A} (p : prog A) s n r s' : amid f p s n r s' ->
  match p with
  | Do o k => (n = 0 /\ r = None /\ s' = s) \/
    (exists s1 m, mono (snd (exec o s)) s1 /\ amid f (k (fst (exec o s))) s1 m r s' /\ n = f o s + m)
  | _ => n = 0 /\ s' = s /\ (r = None \/ r = Some match p with Ret a => Done a | Panic => Panicked | _ => OutOfFuel end)
  end.
Proof.
  intros [p0 s0|a s0|s0|s0|o k s0 s1 m r0 s2 H1 H2]; [destruct p0; auto| | | |]; auto. right. exists s1, m. auto.
Qed.
Lemma sp_do {A} o (k : resp o -> prog A) s b Q : f o s <= b ->
  (forall s1, mono (snd (exec o s)) s1 -> sp (k (fst (exec o s))) s1 (b - f o s) Q) -> sp (Do o k) s b Q.
Proof.
  intros H K n r s' X. apply amid_inv in X. destruct X as [(-> & -> & ->)|(s1 & m & M & X & ->)].
  - split; [lia|]. split; [apply mono_refl|exact Logic.I].
  - destruct (K s1 M m r s' X) as (K1 & K2 & K3). split; [lia|]. split.
    + eapply mono_trans; [apply mono_exec|]. eapply mono_trans; eassumption.
    + destruct r as [[a| |]|]; auto. replace (b - (f o s + m)) with (b - f o s - m) by lia. exact K3.
Qed.
Lemma sp_bind {A B} (p : prog A) (k : A -> prog B) : forall s b Q,
  sp p s b (fun a b' s' => sp (k a) s' b' Q) -> sp (pbind p k) s b Q.
Proof.
  induction p as [a| | |o c IH]; intros s b Q H.
  - destruct (H 0 (Some (Done a)) s (amid_ret _ _ _)) as (_ & _ & K). rewrite Nat.sub_0_r in K. exact K.
  - apply sp_panic.
  - apply sp_nofuel.
  - cbn [pbind].
    intros n r s' X. apply amid_inv in X. destruct X as [(-> & -> & ->)|(s1 & m & M & X & ->)].
    { split; [lia|]. split; [apply mono_refl|exact Logic.I]. }
    assert (Y : forall n r s', amid f (c (fst (exec o s))) s1 n r s' ->
      f o s + n <= b /\ mono s s' /\ match r with Some (Done a) => sp (k a) s' (b - (f o s + n)) Q | _ => True end).
    { intros n r0 s0 Y. apply (H (f o s + n) r0 s0). eapply amid_do; eassumption. }
    assert (L : f o s <= b) by (destruct (Y 0 None s1 (amid_running _ _ _)); lia).
    assert (Z : sp (pbind (c (fst (exec o s))) k) s1 (b - f o s) Q).
    { apply IH. intros n r0 s0 Y0. pose proof Y0 as Y1. apply Y in Y0. destruct Y0 as (Y2 & Y3 & Y4). split; [lia|]. split.
      - clear -Y1. induction Y1; try apply mono_refl. eapply mono_trans; [apply mono_exec|]. eapply mono_trans; eassumption.
      - destruct r0 as [[a| |]|]; auto. replace (b - f o s - n) with (b - (f o s + n)) by lia. exact Y4. }
    destruct (Z m r s' X) as (Z1 & Z2 & Z3). split; [lia|]. split.
    + eapply mono_trans; [apply mono_exec|]. eapply mono_trans; eassumption.
    + destruct r as [[a| |]|]; auto. replace (b - (f o s + m)) with (b - f o s - m) by lia. exact Z3.
Qed.
(** More money than needed. *)
Lemma sp_conseq {A} (p : prog A) s b b2 (Q Q2 : A -> nat -> gstate -> Prop) : sp p s b Q -> b <= b2 ->
  (forall a m s', mono s s' -> Q a m s' -> m <= b -> Q2 a (m + (b2 - b)) s') -> sp p s b2 Q2.
Proof.
  intros H L K n r s' X. destruct (H n r s' X) as (H1 & H2 & H3). split; [lia|]. split; [exact H2|].
  destruct r as [[a| |]|]; auto. replace (b2 - n) with (b - n + (b2 - b)) by lia. apply K; auto. lia.
Qed.
Lemma sp_opx {A} o (k : resp o -> prog A) s b Q : f o s <= b ->
  (forall s1, mono s s1 -> mono (snd (exec o s)) s1 -> sp (k (fst (exec o s))) s1 (b - f o s) Q) -> sp (pbind (do_ o) k) s b Q.
Proof.
  intros H K. apply sp_do; [exact H|]. intros s1 M. apply K; [|exact M]. eapply mono_trans; [apply mono_exec|exact M].
Qed.

(** ** The account *)
Section Account.
Variable D : decls.
Hypothesis f1 : forall o s, f o s <= 1.
Variable fl : nat.
Lemma sp_op {A} o (k : resp o -> prog A) s b Q : 1 <= b ->
  (forall s1 x, x <= 1 -> mono s s1 -> mono (snd (exec o s)) s1 -> sp (k (fst (exec o s))) s1 (b - x) Q) -> sp (pbind (do_ o) k) s b Q.
Proof. intros H K. pose proof (f1 o s). apply sp_opx; [lia|]. intros s1 M1 M2. apply K; auto. Qed.
Hypothesis f2 : forall k s, f (InfoLoad k) s = fl.

(** What a call of the walker costs apart from entering struct types. *)
Fixpoint ccost (t : gotype) : nat := match t with TMsg _ => 9 | TPtr e => 9 + ccost e | _ => 0 end.
Fixpoint fcost (t : gotype) : nat :=
  match t with
  | TMap _ v => 7 + ccost v + fcost v
  | TSlice e => 4 + ccost e
  | TPtr e => 9 + ccost e
  | TMsg _ => 9
  | _ => 0
  end.
Definition fields_cost (fs : list gofield) : nat := list_sum (map (fun g => if gf_exported g then fcost (gf_type g) else 0) fs).
Definition weight (k : skey) : nat := 4 + fields_cost (struct_fields D k).
Definition kinds : list skind := [KBool; KInt32; KInt64; KUint32; KUint64; KFloat32; KFloat64; KString].
Definition universe : list skey := map SNamed (seq 0 (length D)) ++ map SOpt kinds.
Definition entered (s : gstate) (w : walker) (k : skey) : bool :=
  match assoc skey_eq_dec k (g_infoCache s), w_iget w k with None, None => false | _, _ => true end.
Definition due (s : gstate) (w : walker) (l : list skey) : nat :=
  list_sum (map (fun k => if entered s w k then 0 else weight k) l).
Definition account (s : gstate) (w : walker) : nat := due s w universe.

Definition wmono (w w' : walker) : Prop := forall k, w_iget w k <> None -> w_iget w' k <> None.
Definition publ (w w' : walker) (s' : gstate) : Prop := forall k, w_iget w' k <> None -> w_iget w k <> None \/ cached s' k.

Lemma entered_spec s w k : entered s w k = true <-> cached s k \/ w_iget w k <> None.
Proof.
  rewrite cached_assoc. unfold entered. destruct (assoc _ _ _), (w_iget w k);
    (split; [intros H; (discriminate || (left; congruence) || (right; congruence))|intros [H|H]; (reflexivity || (exfalso; apply H; reflexivity))]).
Qed.
Lemma entered_mono s s' w w' k : mono s s' -> wmono w w' -> entered s w k = true -> entered s' w' k = true.
Proof. rewrite !entered_spec. intros H1 H2 [H|H]; auto. Qed.
Lemma due_cons s w k l : due s w (k :: l) = (if entered s w k then 0 else weight k) + due s w l.
Proof. reflexivity. Qed.
Lemma due_mono s s' w w' l : mono s s' -> wmono w w' -> due s' w' l <= due s w l.
Proof.
  intros H1 H2. induction l as [|k l IH]; [auto|]. rewrite !due_cons.
  destruct (entered s w k) eqn:E; [rewrite (entered_mono _ _ _ _ _ H1 H2 E); exact IH|].
  destruct (entered s' w' k); lia.
Qed.
Lemma account_mono s s' w w' : mono s s' -> wmono w w' -> account s' w' <= account s w.
Proof. apply due_mono. Qed.
Lemma due_enter s s' w w' k l : mono s s' -> wmono w w' -> In k l -> entered s w k = false -> entered s' w' k = true ->
  due s' w' l + weight k <= due s w l.
Proof.
  intros H1 H2 Hk E E'. induction l as [|q l IH]; [destruct Hk|]. pose proof (due_mono s s' w w' l H1 H2) as HM.
  rewrite !due_cons. destruct Hk as [->|Hk].
  - rewrite E, E'. lia.
  - specialize (IH Hk). destruct (entered s w q) eqn:Eq.
    + rewrite (entered_mono _ _ _ _ _ H1 H2 Eq). lia.
    + destruct (entered s' w' q); lia.
Qed.
Lemma in_universe k : user_key D k = true -> In k universe.
Proof.
  intros H. apply in_or_app. destruct k as [sid| |q]; [left|discriminate|right].
  - cbn in H. apply Nat.ltb_lt in H. apply in_map, in_seq. lia.
  - apply in_map. destruct q; cbn; auto 10.
Qed.
Lemma wmono_refl w : wmono w w. Proof. intros k H. exact H. Qed.
Lemma wmono_trans a b c : wmono a b -> wmono b c -> wmono a c. Proof. intros H K k X. auto. Qed.
Lemma wmono_set w t c : wmono w (w_set w t c). Proof. intros k H. exact H. Qed.
Lemma wmono_iset w k i : wmono w (w_iset w k i).
Proof. intros q H. unfold w_iget, w_iset in *. cbn. destruct (skey_eq_dec q k); [discriminate|exact H]. Qed.
Lemma publ_refl w s : publ w w s. Proof. intros k H. auto. Qed.
Lemma publ_trans a b c s s' : mono s s' -> publ a b s -> publ b c s' -> publ a c s'.
Proof. intros M H K k X. apply K in X. destruct X as [X|X]; auto. apply H in X. destruct X; auto. Qed.

(** After a call: the account of the rest is covered by what is left. *)
Definition post {A} (s : gstate) (w : walker) : A * walker -> nat -> gstate -> Prop :=
  fun '(_, w') m s' => account s' w' <= m /\ mono s s' /\ wmono w w' /\ publ w w' s'.
Definition icost (k : skey) : nat := fl + (if user_key D k then 0 else weight k).

Lemma sp_call {A B} (p : prog (A * walker)) (k : A * walker -> prog B) s w L b Q :
  sp p s (account s w + L) (post s w) -> account s w + L <= b ->
  (forall a w' m s', mono s s' -> wmono w w' -> publ w w' s' -> account s' w' + (b - (account s w + L)) <= m -> sp (k (a, w')) s' m Q) ->
  sp (pbind p k) s b Q.
Proof.
  intros H Hb K. apply sp_bind. eapply sp_conseq; [exact H|exact Hb|].
  intros [a w'] m s' M (P1 & P2 & P3 & P4) _. apply K; auto. lia.
Qed.
Lemma sp_call_last {A} (p : prog (A * walker)) s0 w0 s w L b :
  sp p s (account s w + L) (post s w) -> account s w + L <= b -> mono s0 s -> wmono w0 w -> publ w0 w s -> sp p s b (post s0 w0).
Proof.
  intros H Hb M1 M2 M3. eapply sp_conseq; [exact H|exact Hb|].
  intros [a w'] m s' M (P1 & P2 & P3 & P4) _. split; [lia|]. split; [eapply mono_trans; eassumption|]. split; [eapply wmono_trans; eassumption|].
  eapply publ_trans; eassumption.
Qed.
Lemma post_refl {A} (a : A) s w m s' : account s w <= m -> mono s s' -> post s w (a, w) m s'.
Proof.
  intros H M. split; [|split; [exact M|split; [apply wmono_refl|apply publ_refl]]].
  pose proof (account_mono s s' w w M (wmono_refl w)). lia.
Qed.
Lemma account_set s w t c : account s (w_set w t c) = account s w. Proof. reflexivity. Qed.

Lemma walk_sp fuel :
  (forall w t zz rq s, sp (w_codec D fuel w t zz rq) s (account s w + ccost t) (post s w)) /\
  (forall w t k s, struct_ptr t = Some k -> sp (w_structCodec D fuel w t k) s (account s w + 9) (post s w)) /\
  (forall w k s, sp (w_structInfo D fuel w k) s (account s w + icost k) (fun r m s' => post s w r m s' /\ (cached s' k \/ w_iget (snd r) k <> None))) /\
  (forall w idx fs s, sp (w_fields D fuel w idx fs) s (account s w + fields_cost fs) (post s w)) /\
  (forall w t g s, sp (w_field D fuel w t g) s (account s w + fcost (gf_type g)) (post s w)) /\
  (forall w key val tag kf vf s, sp (w_mapCodec D fuel w key val tag kf vf) s (account s w + (7 + fcost val)) (post s w)).
Proof.
  induction fuel as [|fuel (IHc & IHs & IHi & IHfs & IHf & IHm)].
  { split; [|split; [|split; [|split; [|split]]]]; intros w *; apply sp_nofuel || (intros _; apply sp_nofuel). }
  assert (IHi' : forall w k s, sp (w_structInfo D fuel w k) s (account s w + icost k) (post s w)).
  { intros w k s. eapply sp_conseq; [apply IHi|lia|]. intros r m s' _ [P _] _. rewrite Nat.sub_diag, Nat.add_0_r. exact P. }
  split; [|split; [|split; [|split; [|split]]]].
  - intros w t zz rq s. cbn [w_codec]. destruct (w_get w t); [apply sp_ret, post_refl; [lia|apply mono_refl]|].
    destruct t as [k| |k|e|k e|e|sid|]; try apply sp_panic; try (apply sp_ret, post_refl; [lia|apply mono_refl]).
    + destruct (struct_ptr (TPtr e)) as [k|] eqn:E.
      { eapply sp_conseq; [apply IHs; exact E|cbn [ccost]; lia|]. intros [a w'] m s' _ (P1 & P2) _. split; [lia|exact P2]. }
      cbn [ccost]. apply sp_op; [lia|]. intros s1 ? ? M1 _. 
      set (c := fst (exec NewCell s)). pose proof (account_mono s s1 w w M1 (wmono_refl w)) as A1.
      eapply sp_call; [apply IHc| |].
      * rewrite account_set. cbn [Walker.elem_of]. lia.
      * rewrite account_set. cbn [Walker.elem_of]. intros c' w' m s2 M2 W2 P2 Hm.
        apply sp_op; [lia|]. intros s3 ? ? M3 _. 
        apply sp_ret. pose proof (account_mono s2 s3 w' w' M3 (wmono_refl w')). split; [lia|].
        split; [eapply mono_trans; [exact M1|]; eapply mono_trans; eassumption|]. split; [exact W2|].
        intros k Hk. destruct (P2 k Hk); auto.
    + apply IHs. reflexivity.
  - intros w t k s Hk. cbn [w_structCodec]. apply sp_op; [lia|]. intros s1 ? ? M1 _.
    destruct (fst (exec (CodecLoad t) s)) as [c|]; [apply sp_ret, post_refl; [lia|exact M1]|].
    destruct (w_get w t) as [c|]; [apply sp_ret, post_refl; [lia|exact M1]|].
    apply sp_op; [lia|]. intros s2 ? ? M2 _. set (c := fst (exec NewCell s1)).
    assert (M02 : mono s s2) by (eapply mono_trans; eassumption). pose proof (account_mono s s2 w w M02 (wmono_refl w)) as A2.
    assert (Ik : icost k <= 5).
    { unfold icost. assert (fl <= 1) by (rewrite <- (f2 k s); apply f1). destruct t as [| | | | |[]|sid|]; try discriminate; inversion Hk; subst k; cbn [user_key]; try lia.
      destruct (Nat.ltb_spec sid (length D)); [lia|]. unfold weight. cbn [struct_fields]. rewrite (proj2 (nth_error_None _ _)) by assumption. cbn. lia. }
    eapply sp_call; [apply IHi'| |].
    + rewrite account_set. lia.
    + rewrite account_set. intros i w' m s3 M3 W3 P3 Hm. 
      apply sp_op; [lia|]. intros s4 ? ? M4 _. apply sp_op; [lia|]. intros s5 ? ? M5 _.
      apply sp_ret. assert (M35 : mono s3 s5) by (eapply mono_trans; eassumption). pose proof (account_mono s3 s5 w' w' M35 (wmono_refl w')).
      split; [lia|]. split; [eapply mono_trans; [exact M02|]; eapply mono_trans; eassumption|]. split; [exact W3|].
      intros q Hq. destruct (P3 q Hq); auto.
  - intros w k s. cbn [w_structInfo]. unfold icost. apply sp_opx; [rewrite f2; lia|]. intros s1 M1 _. rewrite f2.
    cbn [exec fst]. destruct (assoc skey_eq_dec k (g_infoCache s)) as [i|] eqn:E1.
    { apply sp_ret. split; [apply post_refl; [lia|exact M1]|]. left. apply M1, cached_assoc. rewrite E1. discriminate. }
    destruct (w_iget w k) as [i|] eqn:E2.
    { apply sp_ret. split; [apply post_refl; [lia|exact M1]|]. right. cbn. rewrite E2. discriminate. }
    assert (E : entered s w k = false) by (unfold entered; rewrite E1, E2; reflexivity).
    assert (X : forall s2 i, mono s s2 -> account s2 (w_iset w k i) + weight k <= account s w + (if user_key D k then 0 else weight k)).
    { intros s2 i M2. destruct (user_key D k) eqn:U.
      - rewrite Nat.add_0_r. apply due_enter; [exact M2|apply wmono_iset|apply in_universe; exact U|exact E|].
        apply entered_spec. right. unfold w_iget, w_iset. cbn. destruct (skey_eq_dec k k); [discriminate|contradiction].
      - pose proof (account_mono s s2 w (w_iset w k i) M2 (wmono_iset w k i)). lia. }
    assert (W4 : weight k = 4 + fields_cost (struct_fields D k)) by reflexivity.
    pose proof (X s1 0 M1) as X1.
    apply sp_op; [lia|]. intros s2 ? ? M2 _. set (i := fst (exec NewInfo s1)) in *.
    assert (M02 : mono s s2) by (eapply mono_trans; eassumption). pose proof (X s2 i M02) as X2.
    eapply sp_call; [apply IHfs|lia|]. intros fs w' m s3 M3 W3 P3 Hm.
    
    apply sp_op; [lia|]. intros s4 ? ? M4 _. apply sp_op; [lia|]. intros s5 ? ? M5 _. apply sp_op; [lia|]. intros s6 ? ? M6 C6.
    apply sp_ret. assert (M36 : mono s3 s6) by (eapply mono_trans; [exact M4|]; eapply mono_trans; eassumption).
    pose proof (account_mono s3 s6 w' w' M36 (wmono_refl w')). split; [|left; apply C6; exists i; left; reflexivity]. split; [lia|].
    split; [eapply mono_trans; [exact M02|]; eapply mono_trans; eassumption|].
    split; [eapply wmono_trans; [apply wmono_iset|exact W3]|].
    intros q Hq. destruct (P3 q Hq) as [Hq'|Hq']; [|right; auto].
    unfold w_iget, w_iset in Hq'. cbn [w_infos assoc] in Hq'. destruct (skey_eq_dec q k) as [->|]; [|left; exact Hq'].
    right. apply C6. exists i. left. reflexivity.
  - intros w idx fs s. cbn [w_fields]. destruct fs as [|g fs]; [apply sp_ret, post_refl; [lia|apply mono_refl]|].
    assert (Hc : fields_cost (g :: fs) = (if gf_exported g then fcost (gf_type g) else 0) + fields_cost fs) by reflexivity. rewrite Hc. clear Hc.
    eapply sp_call with (L := if gf_exported g then fcost (gf_type g) else 0) (w := w).
    + destruct (gf_exported g); [|apply sp_ret, post_refl; [lia|apply mono_refl]].
      destruct (gf_tag g) as [tag|]; [|apply sp_ret, post_refl; [lia|apply mono_refl]].
      destruct (parseStructTag tag) as [t [e|]]; [apply sp_panic|].
      eapply sp_call; [apply IHf|lia|]. intros c w' m s' M W P Hm. apply sp_ret. split; [lia|auto].
    + lia.
    + intros o w' m s' M W P Hm. eapply sp_call; [apply IHfs|lia|]. intros r w'' m2 s2 M2 W2 P2 Hm2. apply sp_ret.
      split; [lia|]. split; [eapply mono_trans; eassumption|]. split; [eapply wmono_trans; eassumption|eapply publ_trans; eassumption].
  - intros w t g s. cbn [w_field]. destruct (static_choice t (gf_type g)); [apply sp_ret, post_refl; [lia|apply mono_refl]|].
    assert (Hsl : forall ty, match ty with TSlice e => fcost ty = 4 + ccost e | TPtr e => fcost ty = 9 + ccost e | _ => False end ->
      sp (let* (c, w) := w_codec D fuel w (Walker.elem_of ty) (t_zz t) true in sliceCodecOf ty c w) s (account s w + fcost ty) (post s w)).
    { intros ty Hty. assert (He : 4 + ccost (Walker.elem_of ty) <= fcost ty) by (destruct ty; try contradiction; cbn [Walker.elem_of]; lia).
      clear Hty. eapply sp_call; [apply IHc|lia|]. intros c w' m s' M W P Hm. unfold sliceCodecOf.
      apply sp_op; [lia|]. intros s1 ? ? M1 _. pose proof (account_mono s' s1 w' w' M1 (wmono_refl w')) as A1.
      assert (R : forall x m, account s1 w' <= m -> sp (Ret (x, w')) s1 m (post (A:=cref) s w)).
      { intros z m0 Hm0. apply sp_ret. split; [exact Hm0|]. split; [eapply mono_trans; eassumption|]. split; [exact W|].
        intros q Hq. destruct (P q Hq); auto. }
      destruct (fst (exec (SliceLoad c) s')) as [z|]; [apply R; lia|].
      destruct (w_get w' ty); [apply R; lia|].
      apply sp_op; [lia|]. intros s2 ? ? M2 _. set (y := fst (exec NewCell s1)).
      apply sp_op; [lia|]. intros s3 ? ? M3 _.
      apply sp_op; [lia|]. intros s4 ? ? M4 _. apply sp_ret.
      assert (M14 : mono s1 s4) by (eapply mono_trans; [exact M2|]; eapply mono_trans; eassumption).
      pose proof (account_mono s1 s4 w' (w_set w' ty y) M14 (wmono_set _ _ _)).
      split; [lia|]. split; [eapply mono_trans; [exact M|]; eapply mono_trans; eassumption|]. split; [exact W|].
      intros q Hq. destruct (P q Hq); auto. }
    assert (Hpl : ccost (gf_type g) <= fcost (gf_type g) -> sp (w_codec D fuel w (gf_type g) (t_zz t) false) s (account s w + fcost (gf_type g)) (post s w)).
    { intros L. eapply sp_call_last; [apply IHc|lia|apply mono_refl|apply wmono_refl|apply publ_refl]. }
    destruct (gf_type g) as [k| |k|e|key val|e|sid|] eqn:E; cbn [baseTypeOf]; try (apply Hpl; cbn [ccost fcost]; lia).
    + apply sp_ret, post_refl; [lia|apply mono_refl].
    + apply Hsl. reflexivity.
    + destruct (parseStructTag (gf_key g)) as [kt ke]. destruct (parseStructTag (gf_val g)) as [vt ve]. cbn [fcost].
      eapply sp_call; [apply IHc|cbn [ccost]; lia|]. cbn [ccost]. intros kc w1 m s1 M1 W1 P1 Hm.
      eapply sp_call; [apply IHc|lia|]. intros vc w2 m2 s2 M2 W2 P2 Hm2.
      eapply sp_call_last; [apply IHm|lia| | |]; [eapply mono_trans; eassumption|eapply wmono_trans; eassumption|eapply publ_trans; eassumption].
    + destruct (baseTypeOf e); try (apply Hpl; cbn [ccost fcost]; lia); try (apply Hsl; reflexivity). apply sp_panic.
  - intros w key val tag kf vf s. cbn [w_mapCodec]. apply sp_op; [lia|]. intros s1 ? ? M1 _.
    set (c := fst (exec NewCell s)). pose proof (account_mono s s1 w w M1 (wmono_refl w)) as A1.
    set (e := SEntry key val _ _). assert (Ie : icost e <= 5 + fcost val).
    { unfold icost. assert (fl <= 1) by (rewrite <- (f2 e s); apply f1). unfold e. cbn [user_key]. unfold weight.
      cbn [struct_fields entry_fields fields_cost map gf_exported gf_type fcost list_sum fold_right]. lia. }
    eapply sp_call; [apply IHi'|rewrite account_set; lia|]. rewrite account_set. intros i w' m s2 M2 W2 P2 Hm.
    apply sp_op; [lia|]. intros s3 ? ? M3 _. apply sp_ret.
    pose proof (account_mono s2 s3 w' w' M3 (wmono_refl w')). split; [lia|].
    split; [eapply mono_trans; [exact M1|]; eapply mono_trans; eassumption|]. split; [exact W2|]. intros q Hq. destruct (P2 q Hq); auto.
Qed.

Definition no_walk : walker := {| w_codecs := []; w_infos := [] |}.
Lemma due_publ s w l : (forall k, w_iget w k <> None -> cached s k) -> due s no_walk l <= due s w l.
Proof.
  intros H. induction l as [|k l IH]; [auto|]. rewrite !due_cons.
  destruct (entered s w k) eqn:E; [|destruct (entered s no_walk k); lia].
  replace (entered s no_walk k) with true; [lia|]. symmetry. apply entered_spec. left. apply entered_spec in E. destruct E; auto.
Qed.
Lemma cached_sp fuel k s ls : user_key D k = true -> (forall i s, cached s k -> f (InfoLoadOrStore k i) s <= ls) ->
  sp (cachedStructInfoOf D fuel k) s (account s no_walk + 2 * fl + ls)
    (fun i m s' => account s' no_walk <= m /\ mono s s' /\ cached s' k).
Proof.
  intros Hk Hs. unfold cachedStructInfoOf. apply sp_opx; [rewrite f2; lia|]. intros s1 M1 _. rewrite f2.
  pose proof (account_mono s s1 no_walk no_walk M1 (wmono_refl _)) as A1. cbn [exec fst].
  destruct (assoc skey_eq_dec k (g_infoCache s)) as [i|] eqn:E.
  - apply sp_ret. split; [lia|]. split; [exact M1|]. apply M1, cached_assoc. rewrite E. discriminate.
  - apply sp_bind. fold no_walk. assert (Ik : icost k = fl) by (unfold icost; rewrite Hk; lia).
    eapply sp_conseq; [apply walk_sp|lia|]. intros [i w'] m s2 M2 ((P1 & _ & P3 & P4) & P5) Hm. rewrite Ik in *.
    assert (C : cached s2 k). { destruct P5 as [P5|P5]; [exact P5|]. apply P4 in P5. destruct P5 as [P5|P5]; [contradiction|exact P5]. }
    assert (A2 : account s2 no_walk <= account s2 w').
    { apply due_publ. intros q Hq. apply P4 in Hq. destruct Hq as [Hq|Hq]; [contradiction|exact Hq]. }
    pose proof (Hs i s2 C) as HL.
    assert (R : sp (pbind (do_ (InfoLoadOrStore k i)) (fun x => Ret x)) s2 (m + (account s no_walk + 2 * fl + ls - fl - (account s1 no_walk + fl)))
      (fun i m s' => account s' no_walk <= m /\ mono s s' /\ cached s' k)).
    { apply sp_opx; [lia|]. intros s3 M3 _. apply sp_ret. pose proof (account_mono s2 s3 no_walk no_walk M3 (wmono_refl _)).
      split; [lia|]. split; [|apply M3; exact C]. eapply mono_trans; [exact M1|]. eapply mono_trans; eassumption. }
    exact R.
Qed.
End Account.
End Spend.

Section Bound.
Variable D : decls.
Lemma ccost_le t : ccost t <= 9 * nodes t. Proof. induction t; cbn [ccost nodes]; lia. Qed.
Lemma ccost_map t : match t with TMap _ _ => False | _ => True end -> fcost t <= 9 * nodes t.
Proof. pose proof (ccost_le t) as H. destruct t; cbn [fcost nodes ccost] in *; intros K; try destruct K; try lia. pose proof (ccost_le t). lia. Qed.
Lemma fcost_le t : fcost t <= 18 * nodes t.
Proof.
  induction t as [k| |k|e|k v IH|e|sid|] using gotype_ind; try (match goal with |- fcost ?t <= _ => pose proof (ccost_map t Logic.I) end; cbn [nodes] in *; lia).
  cbn [fcost nodes]. destruct v; try (match goal with |- context[fcost ?t] => pose proof (ccost_map t Logic.I); pose proof (ccost_le t) end; lia).
  cbn [ccost] in *. lia.
Qed.
Lemma fields_cost_le fs : fields_cost fs <= 18 * written fs.
Proof.
  unfold fields_cost, written. induction fs as [|g fs IH]; [auto|]. pose proof (fcost_le (gf_type g)).
  change (list_sum (map (fun g => if gf_exported g then fcost (gf_type g) else 0) (g :: fs))) with
    ((if gf_exported g then fcost (gf_type g) else 0) + list_sum (map (fun g => if gf_exported g then fcost (gf_type g) else 0) fs)).
  change (list_sum (map (fun g => nodes (gf_type g)) (g :: fs))) with (nodes (gf_type g) + list_sum (map (fun g => nodes (gf_type g)) fs)).
  destruct (gf_exported g); lia.
Qed.
Definition price : nat := 18 * declared D + 4 * length D + 32.
Lemma account_le s w : account D s w <= price.
Proof.
  assert (H : forall l, due D s w l <= list_sum (map (weight D) l)).
  { induction l as [|k l IH]; [auto|]. rewrite due_cons. change (list_sum (map (weight D) (k :: l))) with (weight D k + list_sum (map (weight D) l)).
    destruct (entered s w k); lia. }
  unfold account. etransitivity; [apply H|]. unfold universe, price. rewrite map_app, list_sum_app.
  assert (A : list_sum (map (weight D) (map SNamed (seq 0 (length D)))) <= 18 * declared D + 4 * length D).
  { assert (B : forall E n, (forall j, nth_error D (n + j) = nth_error E j) -> list_sum (map (weight D) (map SNamed (seq n (length E)))) <= 18 * declared E + 4 * length E).
    { induction E as [|fs E IH]; intros n Hn; [auto|]. cbn [length seq].
      change (list_sum (map (weight D) (map SNamed (n :: seq (S n) (length E))))) with (weight D (SNamed n) + list_sum (map (weight D) (map SNamed (seq (S n) (length E))))).
      change (declared (fs :: E)) with (written fs + declared E).
      assert (Hw : weight D (SNamed n) <= 4 + 18 * written fs).
      { unfold weight. cbn [struct_fields]. specialize (Hn 0). rewrite Nat.add_0_r in Hn. rewrite Hn. cbn [nth_error]. pose proof (fields_cost_le fs). lia. }
      assert (Hi : list_sum (map (weight D) (map SNamed (seq (S n) (length E)))) <= 18 * declared E + 4 * length E).
      { apply IH. intros j. specialize (Hn (S j)). rewrite Nat.add_succ_r in Hn. exact Hn. }
      lia. }
    apply B. reflexivity. }
  assert (C : list_sum (map (weight D) (map SOpt kinds)) = 32) by reflexivity. lia.
Qed.

Lemma first_use_proof fuel k s n r s' : user_key D k = true -> amid every (cachedStructInfoOf D fuel k) s n r s' ->
  n <= 18 * declared D + 4 * length D + 35.
Proof.
  intros Hk H. pose proof (cached_sp every D (fun _ _ => le_n 1) 1 (fun _ _ => eq_refl) fuel k s 1 Hk (fun _ _ _ => le_n 1)) as X.
  destruct (X n r s' H) as (X1 & _). pose proof (account_le s no_walk). unfold price in *. lia.
Qed.
Lemma later_use_proof fuel k s n r s' : cached s k -> amid every (cachedStructInfoOf D fuel k) s n r s' -> n <= 1.
Proof.
  intros Hc H. assert (X : sp every (cachedStructInfoOf D fuel k) s 1 (fun _ _ _ => True)).
  { unfold cachedStructInfoOf. apply sp_opx; [unfold every; lia|]. intros s1 M1 _. cbn [exec fst]. apply cached_assoc in Hc.
    destruct (assoc skey_eq_dec k (g_infoCache s)); [|contradiction]. apply sp_ret. exact Logic.I. }
  apply (X n r s' H).
Qed.

(** ** Memory *)
Lemma upd_len {A} (l : list A) i x : length (upd l i x) = length l. Proof. apply upd_length. Qed.
Lemma exec_memory o s : memory s <= memory (snd (exec o s)) <= memory s + 1.
Proof.
  destruct s as [l1 l2 l3 l4 l5]. unfold memory.
  destruct o; cbn [exec snd g_cells g_infos g_infoCache g_codecCache g_sliceMap g_with_cells g_with_infos g_with_infoCache g_with_codecCache g_with_sliceMap];
    repeat (match goal with |- context[match ?x with _ => _ end] => destruct x end;
      cbn [snd g_cells g_infos g_infoCache g_codecCache g_sliceMap g_with_cells g_with_infos g_with_infoCache g_with_codecCache g_with_sliceMap]);
    rewrite ?app_length, ?upd_len; cbn [length]; lia.
Qed.
Lemma growing_exec o s : memory (snd (exec o s)) = memory s + growing o s.
Proof. pose proof (exec_memory o s). unfold growing. lia. Qed.
Lemma growing_1 o s : growing o s <= 1.
Proof. pose proof (exec_memory o s). unfold growing. lia. Qed.
Lemma run_memory {A} (p : prog A) : forall s, memory (snd (run p s)) = memory s + count growing p s.
Proof.
  induction p as [a| | |o k IH]; intros s; cbn [run count snd]; try lia.
  destruct (exec o s) as [r s1] eqn:E. rewrite IH. cbn [fst snd]. pose proof (growing_exec o s) as G. rewrite E in G. cbn [snd] in G. lia.
Qed.
Lemma amid_run {A} f (p : prog A) : forall s, amid f p s (count f p s) (Some (fst (run p s))) (snd (run p s)).
Proof.
  induction p as [a| | |o k IH]; intros s; cbn [run count fst snd]; try constructor.
  eapply amid_do with (s1 := snd (exec o s)); [intros q Hq; exact Hq|]. destruct (exec o s) as [r s1]. apply IH.
Qed.
Lemma grow_sp fuel k s : user_key D k = true ->
  sp growing (cachedStructInfoOf D fuel k) s (account D s no_walk) (fun i m s' => account D s' no_walk <= m /\ mono s s' /\ cached s' k).
Proof.
  intros Hk. pose proof (cached_sp growing D growing_1 0 (fun q s => Nat.sub_diag (memory s)) fuel k s 0 Hk) as X.
  rewrite Nat.mul_0_r, !Nat.add_0_r in X. apply X.
  intros i s0 Hc. apply cached_assoc in Hc. unfold growing. cbn [exec]. destruct (assoc skey_eq_dec k (g_infoCache s0)); [|contradiction]. cbn. lia.
Qed.
Lemma used_run k s s' : used D k s s' -> exists i, run (cachedStructInfoOf D (walk_fuel D) k) s = (Done i, s').
Proof.
  assert (W : forall A (f : iref -> gstate -> api A) a, with_info D k s f = (Returns a, s') -> exists i, run (cachedStructInfoOf D (walk_fuel D) k) s = (Done i, s')).
  { intros A f a H. unfold with_info in H. destruct (run (cachedStructInfoOf D (walk_fuel D) k) s) as [[i| |] s1]; inversion H; subst; eauto. }
  intros [p n H|p r H|b x r Hb H].
  - eapply W, H.
  - eapply W, H.
  - unfold Unmarshal in H. destruct (zlen b =? 0)%Z eqn:E; [|eapply W, H]. exfalso. apply Hb. destruct b; [reflexivity|]. unfold zlen in E. cbn in E. lia.
Qed.
Lemma answered_memory s : answered D s -> memory s + account D s no_walk <= price.
Proof.
  induction 1 as [|s s' k H IH Hk Hu].
  - change (memory g_empty) with 0. apply account_le.
  - apply used_run in Hu. destruct Hu as (i & E). pose proof (grow_sp (walk_fuel D) k s Hk) as X.
    pose proof (amid_run growing (cachedStructInfoOf D (walk_fuel D) k) s) as Y. pose proof (run_memory (cachedStructInfoOf D (walk_fuel D) k) s) as Z.
    rewrite E in Y, Z. cbn [fst snd] in Y, Z. destruct (X _ _ _ Y) as (X1 & _ & X2 & _). lia.
Qed.
Lemma answered_proof s : answered D s -> memory s <= 18 * declared D + 4 * length D + 32.
Proof. intros H. apply answered_memory in H. unfold price in H. lia. Qed.
Lemma run_grow k s : user_key D k = true -> memory (snd (run (cachedStructInfoOf D (walk_fuel D) k) s)) <= memory s + price.
Proof.
  intros Hk. pose proof (grow_sp (walk_fuel D) k s Hk) as X. pose proof (amid_run growing (cachedStructInfoOf D (walk_fuel D) k) s) as Y.
  rewrite run_memory. destruct (X _ _ _ Y) as (X1 & _). pose proof (account_le s no_walk). lia.
Qed.
Lemma one_call_proof v b s : iface_ok D v = true -> forall s', s' = snd (Size D v s) \/ s' = snd (Marshal D v s) \/ s' = snd (Unmarshal D b v s) ->
  memory s' <= memory s + (18 * declared D + 4 * length D + 32).
Proof.
  intros Hv s' H. change (18 * declared D + 4 * length D + 32) with price.
  assert (W : forall A k (f : iref -> gstate -> api A), user_key D k = true -> memory (snd (with_info D k s f)) <= memory s + price).
  { intros A k f Hk. pose proof (run_grow k s Hk) as G. unfold with_info. destruct (run (cachedStructInfoOf D (walk_fuel D) k) s) as [[i| |] s1]; exact G. }
  assert (Z : memory s <= memory s + price) by lia.
  destruct H as [-> | [-> | -> ]].
  - destruct v as [ | |n|k p]; try exact Z. apply W. exact Hv.
  - destruct v as [ | |n|k p]; try exact Z. apply W. exact Hv.
  - unfold Unmarshal. destruct (zlen b =? 0)%Z; [exact Z|]. destruct v as [ | |n|k [x|]]; try exact Z. apply W. exact Hv.
Qed.
Lemma used_cached k s s' : user_key D k = true -> used D k s s' -> cached s' k.
Proof.
  intros Hk Hu. apply used_run in Hu. destruct Hu as (i & E). pose proof (grow_sp (walk_fuel D) k s Hk) as X.
  pose proof (amid_run growing (cachedStructInfoOf D (walk_fuel D) k) s) as Y. rewrite E in Y. destruct (X _ _ _ Y) as (_ & _ & X2). apply X2.
Qed.
End Bound.
Lemma later_use D fuel k s s1 s2 n r s' : user_key D k = true -> used D k s s1 -> (forall q, cached s1 q -> cached s2 q) ->
  amid every (cachedStructInfoOf D fuel k) s2 n r s' -> n <= 1.
Proof. intros Hk Hu M H. eapply later_use_proof; [|exact H]. apply M. eapply used_cached; eassumption. Qed.
Lemma kept_proof o s k : cached s k -> cached (snd (exec o s)) k.
Proof. apply mono_exec. Qed.
