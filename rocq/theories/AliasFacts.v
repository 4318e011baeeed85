(** Decoding on memory computes what decoding on values computes, as long as
    the message owns its memory. *)
From Verif Require Import Base Wire GoType Leaf Codec Walker Api DecodeFacts Alias SpecAlias.
From Coq Require Import Permutation ZifyBool ZifyNat ZifyN.
Local Open Scope Z_scope.

(** ** Induction over [mval] *)
Section Ind.
Variable P : mval -> Prop.
Hypothesis HL : forall v, P (MLeaf v).
Hypothesis HS : forall s, P (MStr s).
Hypothesis HB : forall o, P (MBytes o).
Hypothesis HO : forall f x, P x -> P (MOpt f x).
Hypothesis HSl : forall nn items spare, Forall P items -> Forall P spare -> P (MSlice nn items spare).
Hypothesis HM0 : P (MMap None).
Hypothesis HM : forall l, Forall (fun kv => P (fst kv) /\ P (snd kv)) l -> P (MMap (Some l)).
Hypothesis HP0 : P (MPtr None).
Hypothesis HP : forall x, P x -> P (MPtr (Some x)).
Hypothesis HSt : forall fs, Forall P fs -> P (MStruct fs).
Fixpoint mval_ind2 (v : mval) : P v :=
  let fix all (l : list mval) : Forall P l :=
    match l with [] => Forall_nil _ | x :: r => Forall_cons _ (mval_ind2 x) (all r) end in
  let fix alle (l : list (mval * mval)) : Forall (fun kv => P (fst kv) /\ P (snd kv)) l :=
    match l with
    | [] => Forall_nil _
    | kv :: r => Forall_cons kv
        (match kv as kv' return P (fst kv') /\ P (snd kv') with
         | (k, x) => conj (mval_ind2 k) (mval_ind2 x) end) (alle r)
    end in
  match v with
  | MLeaf v => HL v
  | MStr s => HS s
  | MBytes o => HB o
  | MOpt f x => HO f x (mval_ind2 x)
  | MSlice nn items spare => HSl nn items spare (all items) (all spare)
  | MMap None => HM0
  | MMap (Some l) => HM l (alle l)
  | MPtr None => HP0
  | MPtr (Some x) => HP x (mval_ind2 x)
  | MStruct fs => HSt fs (all fs)
  end.
End Ind.

(** ** Items *)
Definition same_item (M M' : mem) (i : item) : Prop :=
  match i with
  | IBytes s | IStr s => content M' s = content M s
  | IVal _ => True
  end.

Lemma denote_ext M M' v : Forall (same_item M M') (items_of v) -> denote M' v = denote M v.
Proof.
  induction v using mval_ind2; cbn [items_of denote]; intros HF.
  - reflexivity.
  - inversion HF; subst. cbn in *. congruence.
  - destruct o; [|reflexivity]. inversion HF; subst. cbn in *. congruence.
  - f_equal; auto.
  - apply Forall_app in HF as [H1 H2].
    f_equal; apply map_ext_in; intros x Hx.
    + rewrite Forall_forall in H. apply H; auto. rewrite Forall_flat_map in H1.
      rewrite Forall_forall in H1. apply H1; auto.
    + rewrite Forall_forall in H0. apply H0; auto. rewrite Forall_flat_map in H2.
      rewrite Forall_forall in H2. apply H2; auto.
  - reflexivity.
  - f_equal. f_equal. apply map_ext_in. intros [k x] Hx.
    rewrite Forall_flat_map in HF. rewrite Forall_forall in H, HF.
    specialize (HF _ Hx). cbn in HF. apply Forall_app in HF as [H1 H2].
    destruct (H _ Hx) as [Ha Hb]. cbn in Ha, Hb. f_equal; auto.
  - reflexivity.
  - f_equal. f_equal. auto.
  - f_equal. apply map_ext_in. intros x Hx. rewrite Forall_forall in H. apply H; auto.
    rewrite Forall_flat_map in HF. rewrite Forall_forall in HF. auto.
Qed.

Lemma bytes_ids_app l1 l2 : bytes_ids (l1 ++ l2) = bytes_ids l1 ++ bytes_ids l2.
Proof. apply flat_map_app. Qed.
Lemma str_ids_app l1 l2 : str_ids (l1 ++ l2) = str_ids l1 ++ str_ids l2.
Proof. apply flat_map_app. Qed.
Lemma bytes_ids_perm l1 l2 : Permutation l1 l2 -> Permutation (bytes_ids l1) (bytes_ids l2).
Proof. apply Permutation_flat_map. Qed.
Lemma str_ids_perm l1 l2 : Permutation l1 l2 -> Permutation (str_ids l1) (str_ids l2).
Proof. apply Permutation_flat_map. Qed.

Lemma NoDup_app_l {A} (l1 l2 : list A) : NoDup (l1 ++ l2) -> NoDup l1.
Proof.
  induction l1; cbn; [constructor|]. intros H; inversion H; subst. constructor; auto.
  intros Hi. apply H2, in_or_app; auto.
Qed.

Definition okl (M : mem) (F : list item) : Prop := Forall (item_ok M) F /\ separate F.

Lemma okl_perm M F G : Permutation F G -> okl M F -> okl M G.
Proof.
  intros HP [H1 [H2 H3]]. split; [eapply Permutation_Forall; eauto|]. split.
  - eapply Permutation_NoDup; [|exact H2]. apply bytes_ids_perm; auto.
  - intros a Ha Hb. apply (H3 a).
    + eapply Permutation_in; [|exact Ha]. apply bytes_ids_perm. symmetry; auto.
    + eapply Permutation_in; [|exact Hb]. apply str_ids_perm. symmetry; auto.
Qed.
Lemma okl_app M F G : okl M (F ++ G) -> okl M F.
Proof.
  intros [H1 [H2 H3]]. apply Forall_app in H1 as [H1 _]. split; [auto|].
  rewrite bytes_ids_app in *. rewrite str_ids_app in *. split.
  - eapply NoDup_app_l; eauto.
  - intros a Ha Hb. apply (H3 a); apply in_or_app; auto.
Qed.
Lemma okl_app_r M F G : okl M (F ++ G) -> okl M G.
Proof. intros H. apply (okl_app M G F). eapply okl_perm; [apply Permutation_app_comm|exact H]. Qed.

(** Items that refer to no memory. *)
Definition free_item (i : item) : Prop :=
  match i with
  | IBytes s => False
  | IStr s => s = empty_slice
  | IVal v => plain v = true
  end.
Lemma free_bytes F : Forall free_item F -> bytes_ids F = [].
Proof. induction 1 as [|[s|s|v] F Hx]; cbn in *; auto; contradiction. Qed.
Lemma free_str F : Forall free_item F -> str_ids F = [].
Proof. induction 1 as [|[s|s|v] F Hx]; cbn in *; auto; subst; auto. Qed.
Lemma free_ok M F : Forall free_item F -> Forall (item_ok M) F.
Proof.
  apply Forall_impl. intros [s|s|v]; cbn; auto; [contradiction|].
  intros ->. split; cbn; lia.
Qed.
Lemma okl_free M F G : okl M F -> Forall free_item G -> okl M (F ++ G).
Proof.
  intros [H1 [H2 H3]] HG. split; [apply Forall_app; split; auto; apply free_ok; auto|].
  unfold separate. rewrite bytes_ids_app, str_ids_app, (free_bytes G), (free_str G), !app_nil_r; auto.
Qed.

Lemma mzero_k_free k : Forall free_item (items_of (mzero_k k)).
Proof. destruct k; repeat constructor. Qed.
Lemma mzero_free t : Forall free_item (items_of (mzero t)).
Proof. destruct t; cbn; try apply mzero_k_free; try constructor; cbn; auto. Qed.
Lemma mzero_struct_free D k : Forall free_item (items_of (mzero_struct D k)).
Proof.
  destruct k; cbn.
  - destruct (nth_error D sid) as [fs|]; cbn; [|constructor].
    induction fs; cbn; [constructor|]. apply Forall_app; split; [apply mzero_free|auto].
  - rewrite app_nil_r. apply Forall_app; split; [apply mzero_k_free|apply mzero_free].
  - apply mzero_k_free.
Qed.
Lemma denote_mzero_k M k : denote M (mzero_k k) = zero_k k.
Proof. destruct k; reflexivity. Qed.
Lemma denote_mzero M t : denote M (mzero t) = zero t.
Proof. destruct t; cbn; auto; try apply denote_mzero_k. f_equal. apply denote_mzero_k. Qed.
Lemma denote_mzero_struct M D k : denote M (mzero_struct D k) = zero_struct D k.
Proof.
  destruct k; cbn.
  - destruct (nth_error D sid); [|reflexivity]. cbn. f_equal. rewrite map_map.
    apply map_ext. intros f. apply denote_mzero.
  - rewrite denote_mzero_k, denote_mzero. reflexivity.
  - f_equal. apply denote_mzero_k.
Qed.

(** ** What one step may do to memory *)
Record post (M M' : mem) (F F' : list item) : Prop := {
  p_len : (length M <= length M')%nat;
  p_arr : forall a, (length (array M a) <= length (array M' a))%nat;
  p_frame : forall a, (a < length M)%nat -> ~ In a (bytes_ids F) -> array M' a = array M a;
  p_ok : okl M' F';
  p_bytes : forall a, In a (bytes_ids F') -> In a (bytes_ids F) \/ (length M <= a)%nat;
  p_str : forall a, In a (str_ids F') -> In a (str_ids F) \/ (length M <= a)%nat }.

Lemma post_refl M F : okl M F -> post M M F F.
Proof. intros H. split; auto. Qed.
Lemma post_trans M M1 M2 F F1 F2 : post M M1 F F1 -> post M1 M2 F1 F2 -> post M M2 F F2.
Proof.
  intros [A1 A2 A3 A4 A5 A6] [B1 B2 B3 B4 B5 B6]. split; auto.
  - lia.
  - intros a. specialize (A2 a). specialize (B2 a). lia.
  - intros a Ha Hn. rewrite B3, A3; auto; [lia|]. intros Hi. destruct (A5 _ Hi); auto; lia.
  - intros a Ha. destruct (B5 _ Ha) as [H|H]; [apply A5 in H; tauto|right; lia].
  - intros a Ha. destruct (B6 _ Ha) as [H|H]; [apply A6 in H; tauto|right; lia].
Qed.
(** Forgetting some items of the result. *)
Lemma post_sub M M' F F' F'' G : Permutation F' (F'' ++ G) -> post M M' F F' -> post M M' F F''.
Proof.
  intros HP [A1 A2 A3 A4 A5 A6]. split; auto.
  - eapply okl_app. eapply okl_perm; eauto.
  - intros a Ha. apply A5. eapply Permutation_in; [symmetry; apply bytes_ids_perm; exact HP|].
    rewrite bytes_ids_app. apply in_or_app; auto.
  - intros a Ha. apply A6. eapply Permutation_in; [symmetry; apply str_ids_perm; exact HP|].
    rewrite str_ids_app. apply in_or_app; auto.
Qed.
(** Starting from more items. *)
Lemma post_pre M M' F F0 F' : incl (bytes_ids F) (bytes_ids F0) -> incl (str_ids F) (str_ids F0) ->
  post M M' F F' -> post M M' F0 F'.
Proof.
  intros H1 H2 [A1 A2 A3 A4 A5 A6]. split; auto.
  - intros a Ha. destruct (A5 _ Ha); auto.
  - intros a Ha. destruct (A6 _ Ha); auto.
Qed.
Lemma post_perm M M' F F0 F' F1 : Permutation F F0 -> Permutation F' F1 ->
  post M M' F F' -> post M M' F0 F1.
Proof.
  intros H1 H2 H. apply (post_sub _ _ _ F' F1 []); [rewrite app_nil_r; auto|].
  revert H. apply post_pre; intros a Ha; (eapply Permutation_in; [|exact Ha]).
  - apply bytes_ids_perm; auto.
  - apply str_ids_perm; auto.
Qed.

Lemma array_some M a : (0 < length (array M a))%nat -> (a < length M)%nat.
Proof.
  unfold array. intros H. destruct (Nat.lt_ge_cases a (length M)); auto.
  rewrite nth_overflow in H; cbn in H; lia.
Qed.
Lemma slice_id_lt M s a : slice_ok M s -> In a (slice_ids s) -> (a < length M)%nat.
Proof.
  intros [H1 H2] Hi. unfold slice_ids in Hi. destruct (cp s =? 0)%nat eqn:E; cbn in Hi; [tauto|].
  destruct Hi as [<-|[]]. apply array_some. lia.
Qed.
Lemma bytes_ids_lt M F a : Forall (item_ok M) F -> In a (bytes_ids F) -> (a < length M)%nat.
Proof.
  intros HF Hi. apply in_flat_map in Hi as (i & Hi & Ha). rewrite Forall_forall in HF.
  specialize (HF _ Hi). destruct i; cbn in *; try tauto. eapply slice_id_lt; eauto.
Qed.
Lemma str_ids_lt M F a : Forall (item_ok M) F -> In a (str_ids F) -> (a < length M)%nat.
Proof.
  intros HF Hi. apply in_flat_map in Hi as (i & Hi & Ha). rewrite Forall_forall in HF.
  specialize (HF _ Hi). destruct i; cbn in *; try tauto. eapply slice_id_lt; eauto.
Qed.

Lemma content_frame M M' s : slice_ok M s ->
  (forall a, In a (slice_ids s) -> array M' a = array M a) -> content M' s = content M s.
Proof.
  intros [H1 H2] H. unfold content. unfold slice_ids in H.
  destruct (cp s =? 0)%nat eqn:E.
  - replace (ln s) with O by lia. reflexivity.
  - rewrite H; cbn; auto.
Qed.
Lemma slice_ok_mono M M' s : (forall a, (length (array M a) <= length (array M' a))%nat) ->
  slice_ok M s -> slice_ok M' s.
Proof. intros H [H1 H2]. split; auto. specialize (H (ar s)). lia. Qed.
Lemma item_ok_mono M M' i : (forall a, (length (array M a) <= length (array M' a))%nat) ->
  item_ok M i -> item_ok M' i.
Proof. intros H. destruct i; cbn; auto; apply slice_ok_mono; auto. Qed.

(** A step on some items of a message leaves the others alone. *)
Lemma ctx_same M M' C F F' : okl M (C ++ F) -> post M M' F F' -> Forall (same_item M M') C.
Proof.
  intros [H1 [H2 H3]] HP. rewrite Forall_forall. intros i Hi.
  apply Forall_app in H1 as [H1 H1']. pose proof H1 as H1c. rewrite Forall_forall in H1.
  specialize (H1 _ Hi). rewrite bytes_ids_app, str_ids_app in *.
  destruct i as [s|s|v]; cbn in *; auto; apply content_frame; auto; intros a Ha;
    (apply (p_frame _ _ _ _ HP); [eapply slice_id_lt; eauto|]).
  - intros Hf. assert (Hc : In a (bytes_ids C)).
    { apply in_flat_map. exists (IBytes s). auto. }
    clear - H2 Hc Hf. induction (bytes_ids C); cbn in *; [auto|]. inversion H2; subst.
    destruct Hc as [->|Hc]; auto. apply H1. apply in_or_app; auto.
  - intros Hf. apply (H3 a); apply in_or_app; [right; auto|left].
    apply in_flat_map. exists (IStr s). auto.
Qed.
Lemma NoDup_app' {A} (l1 l2 : list A) : NoDup l1 -> NoDup l2 -> (forall x, In x l1 -> ~ In x l2) -> NoDup (l1 ++ l2).
Proof.
  induction 1 as [|x l1 Hx H1 IH]; cbn; auto. intros H2 H. constructor.
  - intros Hi. apply in_app_or in Hi as [Hi|Hi]; auto. apply (H x); auto.
  - apply IH; auto.
Qed.
Lemma NoDup_app_disj {A} (l1 l2 : list A) x : NoDup (l1 ++ l2) -> In x l1 -> ~ In x l2.
Proof.
  induction l1; cbn; [tauto|]. intros H [->|Hx] Hi; inversion H; subst; auto.
  - apply H2. apply in_or_app; auto.
  - apply IHl1; auto.
Qed.
Lemma ctx_post M M' C F F' : okl M (C ++ F) -> post M M' F F' -> post M M' (C ++ F) (C ++ F').
Proof.
  intros [H1 [H2 H3]] HP. destruct HP as [A1 A2 A3 [A4 [A4' A4'']] A5 A6].
  apply Forall_app in H1 as [H1 H1'].
  rewrite bytes_ids_app in *. rewrite str_ids_app in *.
  assert (HbC : forall a, In a (bytes_ids C) -> (a < length M)%nat) by (intros a0 Ha0; exact (bytes_ids_lt _ _ _ H1 Ha0)).
  assert (HsC : forall a, In a (str_ids C) -> (a < length M)%nat) by (intros a0 Ha0; exact (str_ids_lt _ _ _ H1 Ha0)).
  split; auto.
  - intros a Ha Hn. apply A3; auto. intros Hi. apply Hn. rewrite bytes_ids_app. apply in_or_app; auto.
  - split.
    + apply Forall_app; split; auto. eapply Forall_impl; [|exact H1]. intros i. apply item_ok_mono; auto.
    + unfold separate. rewrite bytes_ids_app, str_ids_app. split.
      * apply NoDup_app'; auto.
        -- eapply NoDup_app_l; eauto.
        -- intros a Ha Hb. destruct (A5 _ Hb) as [Hc|Hc].
           ++ eapply NoDup_app_disj; eauto.
           ++ specialize (HbC _ Ha). lia.
      * intros a Ha Hb. apply in_app_or in Ha. apply in_app_or in Hb.
        destruct Ha as [Ha|Ha], Hb as [Hb|Hb].
        -- apply (H3 a); apply in_or_app; auto.
        -- destruct (A6 _ Hb) as [Hc|Hc]; [apply (H3 a); apply in_or_app; auto|].
           specialize (HbC _ Ha). lia.
        -- destruct (A5 _ Ha) as [Hc|Hc]; [apply (H3 a); apply in_or_app; auto|].
           specialize (HsC _ Hb). lia.
        -- apply (A4'' a); auto.
  - intros a. rewrite !bytes_ids_app. intros Ha. apply in_app_or in Ha as [Ha|Ha].
    + left. apply in_or_app; auto.
    + destruct (A5 _ Ha); auto. left. apply in_or_app; auto.
  - intros a. rewrite !str_ids_app. intros Ha. apply in_app_or in Ha as [Ha|Ha].
    + left. apply in_or_app; auto.
    + destruct (A6 _ Ha); auto. left. apply in_or_app; auto.
Qed.

(** ** Memory operations *)
Lemma array_alloc M x a : array (M ++ [x]) a =
  if (a <? length M)%nat then array M a else if (a =? length M)%nat then x else [].
Proof.
  unfold array. destruct (a <? length M)%nat eqn:E.
  - apply app_nth1. lia.
  - rewrite app_nth2 by lia. destruct (a =? length M)%nat eqn:E2.
    + replace (a - length M)%nat with O by lia. reflexivity.
    + destruct (a - length M)%nat eqn:E3; [lia|]. cbn. destruct n; reflexivity.
Qed.
Lemma nth_list_set {A} (l : list A) i x j d : (i < length l)%nat ->
  nth j (list_set l i x) d = if (j =? i)%nat then x else nth j l d.
Proof.
  revert i j. induction l as [|y l IH]; intros i j H; cbn in H; [lia|].
  destruct i, j; cbn; auto. apply IH. lia.
Qed.
Lemma length_list_set {A} (l : list A) i x : length (list_set l i x) = length l.
Proof. revert i; induction l; intros [|i]; cbn; auto. Qed.
Lemma array_write M a o d x : (a < length M)%nat -> array (write M a o d) x =
  if (x =? a)%nat then firstn o (array M a) ++ d ++ skipn (o + length d) (array M a) else array M x.
Proof. intros H. unfold write, array at 1. rewrite nth_list_set; auto. Qed.
Lemma list_set_overflow {A} (l : list A) i x : (length l <= i)%nat -> list_set l i x = l.
Proof. revert i; induction l; intros [|i] H; cbn in *; auto; [lia|]. f_equal. apply IHl. lia. Qed.

Lemma post_alloc M x F : okl M F -> post M (M ++ [x]) F F.
Proof.
  intros [H1 H2]. assert (Hm : forall a, (length (array M a) <= length (array (M ++ [x]) a))%nat).
  { intros a. rewrite array_alloc. destruct (a <? length M)%nat eqn:E; auto.
    unfold array. rewrite nth_overflow by lia. cbn. lia. }
  split; auto.
  - rewrite app_length. lia.
  - intros a Ha _. rewrite array_alloc. destruct (a <? length M)%nat eqn:E; auto. lia.
  - split; auto. eapply Forall_impl; [|exact H1]. intros i. apply item_ok_mono; auto.
Qed.

(** ** The leaf codecs *)
Definition num (w : wk) : bool := match w with WString | WBool => false | _ => true end.
Definition base_dec (d : bytes -> val -> dres val) : Prop := forall b p,
  match d b p with
  | DRet x _ _ => plain p = true /\ plain x = true
  | DCrash c => c = Confused
  | DFuel => False
  end.
Lemma wret_plain (w : option val) p n e :
  (forall x, w = Some x -> plain p = true /\ plain x = true) ->
  match wret w n e with
  | DRet x _ _ => plain p = true /\ plain x = true
  | DCrash c => c = Confused
  | DFuel => False
  end.
Proof. destruct w; cbn; auto. Qed.
Lemma num_decode w : num w = true -> base_dec (l_decode (static (SC w Normal))).
Proof.
  intros H b p. destruct w; try discriminate H; clear H; cbn [static l_decode];
  match goal with
  | |- match l_decode ?c b p with _ => _ end => unfold c; cbn [l_decode]
  end;
  match goal with
  | |- match ?f b p with _ => _ end => unfold f
  end;
  match goal with
  | |- match (let '(_, _) := ?x in _) with _ => _ end => destruct x as [[? ?] ?]
  end;
  apply wret_plain; destruct p; cbn; intros ? [=]; subst; auto.
Qed.
Definition base (w : wk) : bytes -> val -> dres val := l_decode (static (SC w Normal)).
Lemma static_base w m : l_decode (static (SC w m)) =
  match m with Optional => decodeOption (base w) | _ => base w end.
Proof. destruct w, m; reflexivity. Qed.

(** The relation between the two decoders. *)
Definition sim (M : mem) (v : mval) (r : dres val) (r' : dres (mval * mem)) : Prop :=
  match r with
  | DRet x n e => exists v' M', r' = DRet (v', M') n e /\ denote M' v' = x /\
      post M M' (items_of v) (items_of v')
  | DCrash c => r' = DCrash c
  | DFuel => r' = DFuel
  end.

Lemma ok_val M x : plain x = true -> okl M [IVal x].
Proof. intros H. split; [repeat constructor; auto|]. split; [constructor|]. cbn. tauto. Qed.

Lemma plain_not v0 v : plain v = true -> (forall x, v0 <> MLeaf x) -> forall M, denote M v0 <> v.
Proof. intros H Hn M E. destruct v0; cbn in E; subst; try discriminate. apply (Hn v). reflexivity. Qed.
Lemma sim_num w M b v : num w = true -> okl M (items_of v) ->
  sim M v (base w (content M b) (denote M v)) (m_base w M b v).
Proof.
  intros Hs [Hok Hsep].
  replace (m_base w M b v) with (match v with
    | MLeaf x => dmap (fun y => (MLeaf y, M)) (base w (content M b) x)
    | _ => DCrash Confused
    end) by (destruct w; try discriminate Hs; reflexivity).
  pose proof (num_decode w Hs (content M b) (denote M v)) as H. fold (base w) in H.
  destruct v as [x|sl|o|f x|nn it sp|m|o|fs]; cbn [denote] in *;
  try (destruct (base w _ _); [destruct H; discriminate|subst; reflexivity|contradiction]).
  destruct (base w _ _) as [y n e|c|]; cbn in *; auto.
  exists (MLeaf y), M. split; [reflexivity|]. split; [reflexivity|]. destruct H.
  split; auto. apply ok_val; auto.
Qed.
Lemma sim_bool M b v : okl M (items_of v) ->
  sim M v (decodeBool (content M b) (denote M v)) (m_bool M b v).
Proof.
  intros Hok. unfold decodeBool, m_bool. destruct (content M b) as [|c r].
  - cbn. exists v, M. split; [reflexivity|]. split; [reflexivity|]. apply post_refl; auto.
  - destruct v as [x|sl|o|f x|nn it sp|m|o|fs]; cbn; auto. destruct x; cbn; auto.
    eexists; eexists. split; [reflexivity|]. split; [reflexivity|]. split; auto. apply ok_val; auto.
Qed.

Lemma okl_nil M : okl M [].
Proof. split; [constructor|]. split; [constructor|]. cbn; tauto. Qed.
Lemma okl_str1 M s : slice_ok M s -> okl M [IStr s].
Proof. intros H. split; [constructor; [exact H|constructor]|]. split; [constructor|]. cbn; tauto. Qed.
Lemma okl_bytes1 M s : slice_ok M s -> okl M [IBytes s].
Proof.
  intros H. split; [constructor; [exact H|constructor]|]. split; [|cbn; tauto].
  cbn. rewrite app_nil_r. unfold slice_ids. destruct (cp s =? 0)%nat; repeat constructor. cbn; tauto.
Qed.
Lemma empty_ok M : slice_ok M empty_slice.
Proof. split; cbn; lia. Qed.
Lemma post_alloc_any M x F F' : okl M F -> okl (M ++ [x]) F' ->
  (forall a, In a (bytes_ids F') -> a = length M) -> (forall a, In a (str_ids F') -> a = length M) ->
  post M (M ++ [x]) F F'.
Proof.
  intros H H' Hb Hs. destruct (post_alloc M x F H). split; auto.
  - intros a Ha. right. apply Hb in Ha. lia.
  - intros a Ha. right. apply Hs in Ha. lia.
Qed.
Lemma slice_ids_in s a : In a (slice_ids s) -> a = ar s.
Proof. unfold slice_ids. destruct (cp s =? 0)%nat; cbn; intuition. Qed.

Lemma content_new M d pre : content (M ++ [d ++ pre]) {| ar := length M; off := 0; ln := length d; cp := length d + length pre |} = d.
Proof.
  unfold content. cbn. rewrite array_alloc, Nat.ltb_irrefl, Nat.eqb_refl.
  rewrite firstn_app, Nat.sub_diag, firstn_all, firstn_O, app_nil_r. reflexivity.
Qed.

Lemma sim_string M b v : okl M (items_of v) ->
  sim M v (decodeString (content M b) (denote M v)) (m_string M b v).
Proof.
  intros Hok. unfold decodeString, m_string.
  destruct (decodeVarlen (content M b)) as [[[o n] e]|c]; [|reflexivity].
  destruct v as [x|sl|o'|f x|nn it sp|m|o'|fs]; cbn [denote];
    try (destruct (n =? 0); reflexivity).
  { destruct Hok as [Hok _]. inversion Hok; subst. cbn in H1. destruct x; try discriminate H1; destruct (n =? 0); reflexivity. }
  destruct (n =? 0).
  { cbn. exists (MStr empty_slice), M. split; [reflexivity|]. split; [reflexivity|].
    split; auto; cbn; try tauto. apply okl_str1, empty_ok. }
  destruct o as [[|x d]|].
  - cbn. exists (MStr empty_slice), M. split; [reflexivity|]. split; [reflexivity|].
    split; auto; cbn; try tauto. apply okl_str1, empty_ok.
  - cbn [wr_str wret sim]. eexists; eexists. split; [reflexivity|].
    pose proof (content_new M (x :: d) []) as HC. rewrite app_nil_r in HC. rewrite Nat.add_0_r in HC.
    split; [cbn [denote]; f_equal; exact HC|].
    apply post_alloc_any; auto.
    + apply okl_str1. split; cbn; auto. rewrite array_alloc, Nat.ltb_irrefl, Nat.eqb_refl. cbn. auto.
    + cbn. tauto.
    + cbn. intuition.
  - cbn. exists (MStr empty_slice), M. split; [reflexivity|]. split; [reflexivity|].
    split; auto; cbn; try tauto. apply okl_str1, empty_ok.
Qed.

Lemma write_length M a o d : length (write M a o d) = length M.
Proof. apply length_list_set. Qed.

Lemma content_write M s d : slice_ok M s -> (length d <= cp s)%nat ->
  content (write M (ar s) (off s) d) {| ar := ar s; off := off s; ln := length d; cp := cp s |} = d.
Proof.
  intros [H1 H2] Hd. unfold content. cbn.
  destruct (Nat.lt_ge_cases (ar s) (length M)).
  - rewrite array_write, Nat.eqb_refl by auto.
    rewrite skipn_app, skipn_all2 by (rewrite firstn_length; lia). cbn.
    rewrite firstn_length, Nat.min_l by lia. rewrite Nat.sub_diag. cbn.
    rewrite firstn_app, Nat.sub_diag, firstn_all, firstn_O, app_nil_r. reflexivity.
  - assert (array M (ar s) = []) as E by (unfold array; apply nth_overflow; auto).
    rewrite E in H2. cbn in H2. destruct d; [reflexivity|cbn in *; lia].
Qed.
Lemma write_array_len M a o d x : (o + length d <= length (array M a))%nat ->
  length (array (write M a o d) x) = length (array M x).
Proof.
  intros H. destruct (Nat.lt_ge_cases a (length M)).
  - rewrite array_write by auto. destruct (x =? a)%nat eqn:E; auto.
    apply Nat.eqb_eq in E. subst x. rewrite !app_length, firstn_length, skipn_length. lia.
  - unfold write. rewrite list_set_overflow; auto.
Qed.

Lemma post_write M s d : slice_ok M s -> (length d <= cp s)%nat ->
  post M (write M (ar s) (off s) d) [IBytes s]
    [IBytes {| ar := ar s; off := off s; ln := length d; cp := cp s |}].
Proof.
  intros [H1 H2] Hd.
  assert (HL : forall x, length (array (write M (ar s) (off s) d) x) = length (array M x)).
  { intros x. apply write_array_len. lia. }
  split.
  - rewrite write_length. auto.
  - intros a. rewrite HL. auto.
  - intros a Ha Hn. cbn in Hn. rewrite app_nil_r in Hn. unfold slice_ids in Hn.
    destruct (Nat.lt_ge_cases (ar s) (length M)).
    + rewrite array_write by auto. destruct (a =? ar s)%nat eqn:E; auto.
      apply Nat.eqb_eq in E. subst a. destruct (cp s =? 0)%nat eqn:E2; [|exfalso; apply Hn; cbn; auto].
      destruct d; [|cbn in *; lia]. cbn. rewrite Nat.add_0_r. apply firstn_skipn.
    + unfold write. rewrite list_set_overflow; auto.
  - apply okl_bytes1. split; cbn; auto. rewrite HL. auto.
  - cbn. intros a Ha. left. exact Ha.
  - cbn. tauto.
Qed.

Section Sim.
Variable grow : nat -> nat.

Lemma sim_bytes M b v : okl M (items_of v) ->
  sim M v (decodeBytes (content M b) (denote M v)) (m_bytes grow M b v).
Proof.
  intros Hok. unfold decodeBytes, m_bytes.
  destruct (decodeVarlen (content M b)) as [[[o n] e]|c]; [|reflexivity].
  destruct v as [x|sl|o'|f x|nn it sp|m|o'|fs]; cbn [denote]; try reflexivity.
  { destruct Hok as [Hok _]. inversion Hok; subst. cbn in H1. destruct x; try discriminate H1; reflexivity. }
  set (d := match o with Some d => d | None => [] end). clearbody d. clear o.
  destruct o' as [s|].
  - destruct Hok as [Hok _]. inversion Hok; subst. cbn in H1. destruct (length d <=? cp s)%nat eqn:E.
    + apply Nat.leb_le in E. cbn [sim]. eexists; eexists. split; [reflexivity|]. split.
      * cbn [denote option_map]. do 2 f_equal. apply content_write; auto.
      * apply post_write; auto.
    + unfold alloc. cbn [sim]. eexists; eexists. split; [reflexivity|]. split.
      * cbn [denote option_map]. do 2 f_equal.
        pose proof (content_new M d (repeat 0%N (grow (length d)))) as HC. rewrite repeat_length in HC. exact HC.
      * apply post_alloc_any.
        -- cbn. apply okl_bytes1; auto.
        -- apply okl_bytes1. split; cbn; [lia|]. rewrite array_alloc, Nat.ltb_irrefl, Nat.eqb_refl.
           rewrite app_length, repeat_length. auto.
        -- cbn. rewrite app_nil_r. intros a Ha. apply slice_ids_in in Ha. auto.
        -- cbn. tauto.
  - unfold alloc. cbn [cp]. rewrite Nat.leb_refl. cbn [sim ar off].
    set (M1 := M ++ [repeat 0%N (length d)]).
    set (s := {| ar := length M; off := 0; ln := 0; cp := length d |}).
    assert (Hs : slice_ok M1 s).
    { split; cbn; [lia|]. unfold M1. rewrite array_alloc, Nat.ltb_irrefl, Nat.eqb_refl, repeat_length. auto. }
    eexists; eexists. split; [reflexivity|]. split.
    + cbn [denote option_map]. do 2 f_equal. apply (content_write M1 s); cbn; auto.
    + apply (post_trans _ M1 _ _ [IBytes s]).
      * apply post_alloc_any; [apply okl_nil| |cbn; rewrite app_nil_r; intros a Ha; apply slice_ids_in in Ha; auto|cbn; tauto].
        apply okl_bytes1; auto.
      * apply (post_write M1 s d); auto.
Qed.

Lemma sim_base w M b v : okl M (items_of v) ->
  sim M v (base w (content M b) (denote M v)) (m_base w M b v).
Proof.
  intros Hok. destruct (num w) eqn:E; [apply sim_num; auto|].
  destruct w; try discriminate E; [apply sim_bool|apply sim_string]; auto.
Qed.
Lemma sim_leaf s M b v : okl M (items_of v) ->
  sim M v (l_decode (static s) (content M b) (denote M v)) (m_leaf grow s M b v).
Proof.
  intros Hok. destruct s as [w m|]; [|apply sim_bytes; auto].
  rewrite static_base. destruct m; cbn [m_leaf]; try (apply sim_base; auto).
  destruct v as [x|sl|o'|f x|nn it sp|m|o'|fs]; cbn [denote decodeOption m_option]; try reflexivity.
  { destruct Hok as [Hok _]. inversion Hok; subst. cbn in H1. destruct x; try discriminate H1; reflexivity. }
  cbn in Hok. pose proof (sim_base w M b x Hok) as H.
  destruct (base w (content M b) (denote M x)); cbn in *; try (rewrite H; reflexivity).
  destruct H as (v' & M' & -> & <- & HP). eexists; eexists; split; [reflexivity|]. split; [reflexivity|]. auto.
Qed.
End Sim.
