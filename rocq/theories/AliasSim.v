(** Decoding on memory: the composite codecs and Unmarshal. *)
From Verif Require Import Base Wire GoType Leaf Codec Walker Api DecodeFacts Alias SpecAlias AliasFacts.
From Coq Require Import Permutation ZifyBool ZifyNat ZifyN.
Local Open Scope Z_scope.

Lemma content_len M s : slice_ok M s -> length (content M s) = ln s.
Proof. intros [H1 H2]. unfold content. rewrite firstn_length, skipn_length. lia. Qed.
Lemma content_sub M b n l : slice_ok M b -> 0 <= n -> (Z.to_nat n + l <= length (content M b))%nat ->
  content M (sl_sub b n l) = firstn l (skipn (Z.to_nat n) (content M b)) /\ slice_ok M (sl_sub b n l).
Proof.
  intros Hb Hn Hl. rewrite (content_len _ _ Hb) in Hl. destruct Hb as [H1 H2]. split.
  - unfold content. cbn. rewrite skipn_firstn_comm, firstn_firstn, skipn_skipn'.
    f_equal. lia.
  - split; cbn; lia.
Qed.
Lemma content_from M b n tl : slice_ok M b -> from_ (content M b) n = Some tl ->
  content M (sl_from b n) = tl /\ slice_ok M (sl_from b n).
Proof.
  intros Hb H. unfold from_ in H. destruct (_ && _)%bool eqn:E in H; [|discriminate]. injection H as <-.
  apply andb_prop in E as [E1 E2]. unfold sl_from. pose proof (content_len _ _ Hb) as HL.
  unfold zlen in E2. destruct (content_sub M b n (ln b - Z.to_nat n) Hb) as [H1 H2]; [lia|lia|].
  split; auto. rewrite H1. apply firstn_all2. rewrite skipn_length. lia.
Qed.
Lemma sub_inv b lo hi d : sub_ b lo hi = Some d ->
  0 <= lo /\ (Z.to_nat lo + length d <= length b)%nat /\ d = firstn (length d) (skipn (Z.to_nat lo) b).
Proof.
  unfold sub_. destruct (_ && _)%bool eqn:E; [|discriminate]. intros [= <-].
  apply andb_prop in E as [E E3]. apply andb_prop in E as [E1 E2]. unfold zlen in E3.
  rewrite firstn_length, skipn_length. split; [lia|]. split; [lia|]. f_equal. lia.
Qed.
Lemma field_data_inv b o wt d : field_data b o wt = FData d ->
  0 <= o /\ (Z.to_nat o + length d <= length b)%nat /\ d = firstn (length d) (skipn (Z.to_nat o) b).
Proof.
  unfold field_data. intros H. destruct (from_ b o) as [b0|]; [|discriminate].
  destruct (wt =? wt_varint)%N; [|destruct (wt =? wt_varlen)%N;
    [|destruct (wt =? wt_fixed32)%N; [|destruct (wt =? wt_fixed64)%N; [|discriminate]]]].
  - destruct (decodeVarint b0) as [[? n] [e|]]; [discriminate|].
    destruct (sub_ b o (o + n)) eqn:E; [|discriminate]. injection H as <-. eapply sub_inv; eauto.
  - destruct (decodeVarint b0) as [[l n] [e|]]; [discriminate|].
    destruct (_ <? l)%N; [discriminate|].
    destruct (sub_ b o _) eqn:E; [|discriminate]. injection H as <-. eapply sub_inv; eauto.
  - destruct (_ <? _); [discriminate|].
    destruct (sub_ b o _) eqn:E; [|discriminate]. injection H as <-. eapply sub_inv; eauto.
  - destruct (_ <? _); [discriminate|].
    destruct (sub_ b o _) eqn:E; [|discriminate]. injection H as <-. eapply sub_inv; eauto.
Qed.

Lemma list_set_mid {A} (l1 l2 : list A) y y' : list_set (l1 ++ y :: l2) (length l1) y' = l1 ++ y' :: l2.
Proof. induction l1; cbn; congruence. Qed.

Lemma ctx_mid M M' A F F' B : okl M (A ++ F ++ B) -> post M M' F F' ->
  post M M' (A ++ F ++ B) (A ++ F' ++ B) /\ Forall (same_item M M') A /\ Forall (same_item M M') B /\ okl M F.
Proof.
  intros Hok HP.
  assert (PM : forall X, Permutation ((A ++ B) ++ X) (A ++ X ++ B)).
  { intros X. rewrite <- app_assoc. apply Permutation_app_head, Permutation_app_comm. }
  assert (Hok' : okl M ((A ++ B) ++ F)) by (eapply okl_perm; [symmetry; apply PM|auto]).
  pose proof (ctx_same _ _ _ _ _ Hok' HP) as HS. apply Forall_app in HS as [HA HB].
  split; [|split; [|split]]; auto.
  - eapply post_perm; [apply PM|apply PM|]. apply ctx_post; auto.
  - eapply okl_app_r; eauto.
Qed.
Lemma okl_mid M A F B : okl M (A ++ F ++ B) -> okl M F.
Proof. intros H. apply okl_app_r in H. apply okl_app in H. auto. Qed.

(** The bytes of a buffer that is no memory of the message survive. *)
Lemma post_buffer M M' F F' b : post M M' F F' -> (ar b < length M)%nat -> ~ In (ar b) (bytes_ids F) ->
  content M' b = content M b.
Proof. intros HP H1 H2. unfold content. rewrite (p_frame _ _ _ _ HP); auto. Qed.
Lemma post_slice M M' F F' b : post M M' F F' -> slice_ok M b -> slice_ok M' b.
Proof. intros HP. apply slice_ok_mono. apply (p_arr _ _ _ _ HP). Qed.

Section Sim.
Variable grow : nat -> nat.
Context {R I : Type}.
Variable look : R -> cbody R I.
Variable iget : I -> sinfo R.
Variable D : decls.

Let dec := dec look iget D.
Let decs := decs look iget D.
Let mdec := mdec grow look iget D.
Let mdecs := mdecs grow look iget D.

Definition buf (M : mem) (b : slice) (v : mval) : Prop :=
  okl M (items_of v) /\ slice_ok M b /\ (ar b < length M)%nat /\ ~ In (ar b) (bytes_ids (items_of v)).

Lemma map_same M M' (l : list mval) : Forall (same_item M M') (flat_map items_of l) ->
  map (denote M') l = map (denote M) l.
Proof.
  intros H. apply map_ext_in. intros x Hx. apply denote_ext. rewrite Forall_flat_map in H.
  rewrite Forall_forall in H. auto.
Qed.
Definition entry_items (kv : mval * mval) := match kv with (k, x) => items_of k ++ items_of x end.
Definition entry_val M (kv : mval * mval) := match kv with (k, x) => (denote M k, denote M x) end.
Lemma map_same_e M M' l : Forall (same_item M M') (flat_map entry_items l) ->
  map (entry_val M') l = map (entry_val M) l.
Proof.
  intros H. apply map_ext_in. intros [k x] Hx. rewrite Forall_flat_map in H.
  rewrite Forall_forall in H. specialize (H _ Hx). cbn in *. apply Forall_app in H as [? ?].
  f_equal; apply denote_ext; auto.
Qed.
Lemma m_assign_items M l k x : exists G,
  Permutation (flat_map entry_items l ++ items_of k ++ items_of x)
    (flat_map entry_items (m_assign M l k x) ++ G).
Proof.
  induction l as [|[k' x'] l (G & IH)]; cbn [m_assign].
  - exists []. cbn. rewrite !app_nil_r. auto.
  - destruct (key_eqb _ _).
    + exists (items_of k' ++ items_of x'). cbn [flat_map entry_items].
      set (P := items_of k' ++ items_of x'). set (Q := items_of k ++ items_of x).
      rewrite <- app_assoc. etransitivity; [apply Permutation_app_comm|].
      apply Permutation_app_tail, Permutation_app_comm.
    + exists G. cbn [flat_map entry_items]. rewrite <- !app_assoc. do 2 apply Permutation_app_head. auto.
Qed.
Lemma m_assign_val M l k x : map (entry_val M) (m_assign M l k x) =
  map_assign (map (entry_val M) l) (denote M k) (denote M x).
Proof.
  induction l as [|[k' x'] l IH]; cbn; auto. destruct (key_eqb _ _); cbn; congruence.
Qed.

Lemma free_nil F : Forall free_item F -> bytes_ids F = [] /\ str_ids F = [].
Proof. intros H. split; [apply free_bytes|apply free_str]; auto. Qed.
Lemma free_okl M F : Forall free_item F -> okl M F.
Proof. intros H. exact (okl_free M [] F (okl_nil M) H). Qed.

Lemma sim_both fuel :
  (forall c M b v, buf M b v ->
     sim M v (dec fuel c (content M b) (denote M v)) (mdec fuel c M b v)) /\
  (forall i M b o x, buf M b x ->
     sim M x (decs fuel i (content M b) o (denote M x)) (mdecs fuel i M b o x)).
Proof.
  induction fuel as [|fuel [IHd IHs]]; [split; intros; reflexivity|]. split.
  - intros c M b v (Hok & Hb & Hlt & Hap). unfold dec, mdec. rewrite dec_S.
    fold dec decs.
    replace (Alias.mdec grow look iget D (S fuel) c M b v) with
      (match look c with
       | BNil => DCrash NilFunc
       | BStatic s => m_leaf grow s M b v
       | BPtr t c' =>
         match v with
         | MPtr o =>
           let x := match o with Some x => x | None => mzero t end in
           dmap (fun r => (MPtr (Some (fst r)), snd r)) (mdec fuel c' M b x)
         | _ => DCrash Confused
         end
       | BSlice t c' =>
         match v with
         | MSlice nn items spare =>
           let grown := match spare with [] => true | _ => false end in
           let spare := match spare with
             | [] => repeat (mzero t) (length (grow_spare t (length items)))
             | _ => spare end in
           match spare with
           | [] => DCrash Bounds
           | slot :: spare =>
             match mdec fuel c' M b slot with
             | DRet (x, M) n None => DRet (MSlice (nn || grown) (items ++ [x]) spare, M) n None
             | DRet (x, M) n (Some e) => DRet (MSlice (nn || grown) items (x :: spare), M) n (Some e)
             | r => r
             end
           end
         | _ => DCrash Confused
         end
       | BStruct k i =>
         match v with
         | MPtr o =>
           let x := match o with Some x => x | None => mzero_struct D k end in
           let '(_, n, e) := decodeVarint (content M b) in
           match e with
           | Some e => DRet (MPtr (Some x), M) n (Some e)
           | None =>
             match from_ (content M b) n with
             | None => DCrash Bounds
             | Some _ =>
               match mdecs fuel i M (sl_from b n) 0 x with
               | DRet (x, M) l e => DRet (MPtr (Some x), M) (n + l) e
               | r => r
               end
             end
           end
         | _ => DCrash Confused
         end
       | BMap _ _ _ k i =>
         match v with
         | MMap m =>
           let m := match m with Some l => l | None => [] end in
           if zlen (content M b) =? 0 then DRet (MMap (Some m), M) 0 None
           else
             let s := mzero_struct D k in
             let '(_, nl, e) := decodeVarint (content M b) in
             match e with
             | Some e => DRet (MMap (Some m), M) 0 (Some e)
             | None =>
               match from_ (content M b) nl with
               | None => DCrash Bounds
               | Some _ =>
                 match mdecs fuel i M (sl_from b nl) 0 s with
                 | DRet (MStruct [key; x], M) n None =>
                   DRet (MMap (Some (m_assign M m key x)), M) (n + nl) None
                 | DRet (_, _) n None => DCrash Confused
                 | DRet (_, M) n (Some e) => DRet (MMap (Some m), M) (n + nl) (Some e)
                 | r => r
                 end
               end
             end
         | _ => DCrash Confused
         end
       end) by reflexivity.
    destruct (look c) as [|s|t c'|t c'|k i|tag kf vf k i] eqn:Elook.
    + reflexivity.
    + apply sim_leaf; auto.
    + destruct v as [x|sl|o|f x|nn it sp|m|o|fs]; cbn [denote]; try reflexivity.
      { inversion Hok as [H1 _]; inversion H1; subst. destruct x; try discriminate; reflexivity. }
      cbv zeta.
      set (x := match o with Some x => x | None => mzero t end).
      assert (Hx : buf M b x /\ incl (bytes_ids (items_of x)) (bytes_ids (items_of (MPtr o))) /\
         incl (str_ids (items_of x)) (str_ids (items_of (MPtr o))) /\
         denote M x = match match o with Some x => Some (denote M x) | None => None end with Some x => x | None => zero t end).
      { subst x. destruct o as [y|].
        - split; [|split; [|split]]; try (intros a Ha; exact Ha); auto. split; auto.
        - destruct (free_nil _ (mzero_free t)) as [E1 E2]. split; [|split; [|split]].
          + split; [|split; [|split]]; auto; [apply free_okl, mzero_free|]. rewrite E1. auto.
          + rewrite E1. intros a [].
          + rewrite E2. intros a [].
          + apply denote_mzero. }
      clearbody x. destruct Hx as (Hx & Hi1 & Hi2 & Hdx). specialize (IHd c' M b x Hx).
      rewrite <- Hdx.
      destruct (dec fuel c' (content M b) (denote M x)); cbn [sim] in IHd; cbn [dmap sim]; try (rewrite IHd; reflexivity).
      destruct IHd as (v' & M' & -> & <- & HP). eexists; eexists. split; [reflexivity|]. split; [reflexivity|].
      cbn [items_of]. eapply post_pre; eauto.
    + destruct v as [x|sl|o|f x|nn it sp|m|o|fs]; cbn [denote]; try reflexivity.
      { inversion Hok as [H1 _]; inversion H1; subst. destruct x; try discriminate; reflexivity. }
      cbv zeta.
      set (sp' := match sp with [] => repeat (mzero t) (length (grow_spare t (length it))) | _ => sp end).
      assert (Hsp : okl M (items_of (MSlice nn it sp')) /\
         incl (bytes_ids (items_of (MSlice nn it sp'))) (bytes_ids (items_of (MSlice nn it sp))) /\
         incl (str_ids (items_of (MSlice nn it sp'))) (str_ids (items_of (MSlice nn it sp))) /\
         map (denote M) sp' = match map (denote M) sp with [] => grow_spare t (length (map (denote M) it)) | _ => map (denote M) sp end).
      { subst sp'. destruct sp as [|y sp].
        - assert (HF : Forall free_item (flat_map items_of (repeat (mzero t) (length (grow_spare t (length it)))))).
          { apply Forall_flat_map. apply Forall_forall. intros y Hy. apply repeat_spec in Hy. subst. apply mzero_free. }
          destruct (free_nil _ HF) as [E1 E2]. cbn [items_of flat_map] in *. rewrite app_nil_r in *.
          rewrite bytes_ids_app, str_ids_app, E1, E2, !app_nil_r.
          split; [apply okl_free; auto|]. split; [intros a Ha; exact Ha|]. split; [intros a Ha; exact Ha|].
          cbn [map]. rewrite map_length. unfold grow_spare. rewrite repeat_length.
          induction (_ - _)%nat; cbn; [reflexivity|]. rewrite denote_mzero. f_equal; auto.
        - split; auto. split; [intros a Ha; exact Ha|]. split; [intros a Ha; exact Ha|]. reflexivity. }
      assert (Hg : match map (denote M) sp with [] => true | _ => false end = match sp with [] => true | _ => false end)
        by (destruct sp; reflexivity).
      rewrite Hg. set (g := match sp with [] => true | _ => false end). clearbody g. clear Hg.
      destruct Hsp as (Hok' & Hi1 & Hi2 & Hm). rewrite <- Hm. clear Hm. clearbody sp'.
      destruct sp' as [|slot sp']; [reflexivity|]. cbn [map]. cbn [items_of flat_map] in Hok'.
      assert (Hbx : buf M b slot).
      { split; [eapply okl_mid; eauto|]. split; auto. split; auto. intros Hi. apply Hap. apply Hi1.
        cbn [items_of flat_map]. rewrite !bytes_ids_app. apply in_or_app. right. apply in_or_app. auto. }
      specialize (IHd c' M b slot Hbx).
      destruct (dec fuel c' (content M b) (denote M slot)) as [x n e|cc|]; cbn [sim] in IHd;
        try (rewrite IHd; reflexivity).
      destruct IHd as (v' & M' & -> & <- & HP).
      destruct (ctx_mid _ _ _ _ _ _ Hok' HP) as (HP' & HA & HB & _).
      destruct e as [e|]; cbn [sim]; eexists; eexists; (split; [reflexivity|]); split.
      * cbn [denote map]. f_equal; [apply map_same; auto|]. f_equal. apply map_same; auto.
      * eapply post_pre; eauto.
      * cbn [denote]. rewrite map_app. cbn [map]. f_equal; [f_equal|]; apply map_same; auto.
      * eapply post_pre; eauto. cbn [items_of]. rewrite flat_map_app. cbn [flat_map].
        rewrite app_nil_r, <- app_assoc. auto.
    + destruct v as [x|sl|o|f x|nn it sp|m|o|fs]; cbn [denote]; try reflexivity.
      { inversion Hok as [H1 _]; inversion H1; subst. destruct x; try discriminate; reflexivity. }
      cbv zeta.
      set (x := match o with Some x => x | None => mzero_struct D k end).
      assert (Hx : okl M (items_of x) /\ incl (bytes_ids (items_of x)) (bytes_ids (items_of (MPtr o))) /\
         incl (str_ids (items_of x)) (str_ids (items_of (MPtr o))) /\
         denote M x = match match o with Some x => Some (denote M x) | None => None end with Some x => x | None => zero_struct D k end).
      { subst x. destruct o as [y|].
        - split; [|split; [|split]]; try (intros a Ha; exact Ha); auto.
        - destruct (free_nil _ (mzero_struct_free D k)) as [E1 E2]. split; [|split; [|split]].
          + apply free_okl, mzero_struct_free.
          + rewrite E1. intros a [].
          + rewrite E2. intros a [].
          + apply denote_mzero_struct. }
      clearbody x. destruct Hx as (Hx & Hi1 & Hi2 & Hdx). rewrite <- Hdx. clear Hdx.
      destruct (decodeVarint (content M b)) as [[u n] [e|]].
      { cbn [sim]. eexists; eexists. split; [reflexivity|]. split; [reflexivity|]. cbn [items_of].
        eapply post_pre; eauto. apply post_refl; auto. }
      destruct (from_ (content M b) n) as [tl|] eqn:Ef; [|reflexivity].
      destruct (content_from _ _ _ _ Hb Ef) as [Hc Hs]. rewrite <- Hc.
      assert (Hbx : buf M (sl_from b n) x) by (split; [auto|split; [auto|split; [exact Hlt|intros Hi; apply Hap; apply Hi1; exact Hi]]]).
      specialize (IHs i M (sl_from b n) 0 x Hbx).
      destruct (decs fuel i (content M (sl_from b n)) 0 (denote M x)) as [y l e|cc|]; cbn [sim] in IHs;
        try (rewrite IHs; reflexivity).
      destruct IHs as (v' & M' & -> & <- & HP). cbn [sim]. eexists; eexists. split; [reflexivity|].
      split; [reflexivity|]. cbn [items_of]. eapply post_pre; eauto.
    + destruct v as [x|sl|o|f x|nn it sp|m|o|fs]; cbn [denote]; try reflexivity.
      { inversion Hok as [H1 _]; inversion H1; subst. destruct x; try discriminate; reflexivity. }
      cbv zeta.
      set (l := match m with Some l => l | None => [] end).
      assert (Hm : items_of (MMap m) = flat_map entry_items l) by (destruct m; reflexivity).
      assert (Hd : match match m with Some l => Some (map (fun kv => match kv with (k, x) => (denote M k, denote M x) end) l)
        | None => None end with Some l => l | None => [] end = map (entry_val M) l) by (destruct m; reflexivity).
      rewrite Hd. rewrite Hm in Hok, Hap. clearbody l. clear Hd.
      destruct (zlen (content M b) =? 0).
      { cbn [sim]. eexists; eexists. split; [reflexivity|]. split; [reflexivity|]. rewrite Hm. apply post_refl; auto. }
      destruct (decodeVarint (content M b)) as [[u n] [e|]].
      { cbn [sim]. eexists; eexists. split; [reflexivity|]. split; [reflexivity|]. rewrite Hm. apply post_refl; auto. }
      destruct (from_ (content M b) n) as [tl|] eqn:Ef; [|reflexivity].
      destruct (content_from _ _ _ _ Hb Ef) as [Hc Hs]. rewrite <- Hc.
      rewrite <- (denote_mzero_struct M D k).
      pose proof (mzero_struct_free D k) as HF. destruct (free_nil _ HF) as [E1 E2].
      assert (Hbx : buf M (sl_from b n) (mzero_struct D k)).
      { split; [apply free_okl; auto|]. split; auto. split; auto. rewrite E1. auto. }
      specialize (IHs i M (sl_from b n) 0 _ Hbx).
      destruct (decs fuel i (content M (sl_from b n)) 0 (denote M (mzero_struct D k))) as [y l' e|cc|]; cbn [sim] in IHs;
        try (rewrite IHs; reflexivity).
      destruct IHs as (v' & M' & -> & <- & HP).
      assert (Hokc : okl M (flat_map entry_items l ++ items_of (mzero_struct D k))) by (apply okl_free; auto).
      pose proof (ctx_same _ _ _ _ _ Hokc HP) as HS.
      pose proof (ctx_post _ _ _ _ _ Hokc HP) as HPc.
      assert (HPc' : post M M' (flat_map entry_items l) (flat_map entry_items l ++ items_of v')).
      { revert HPc. apply post_pre; rewrite ?bytes_ids_app, ?str_ids_app, ?E1, ?E2, app_nil_r; intros a Ha; exact Ha. }
      pose proof (p_ok _ _ _ _ HPc') as [Hokv _]. apply Forall_app in Hokv as [_ Hokv].
      destruct e as [e|].
      { assert (HG : sim M (MMap m) (DRet (VMap (Some (map (entry_val M) l))) (l' + n) (Some e))
                       (DRet (MMap (Some l), M') (l' + n) (Some e))).
        { cbn [sim]. eexists; eexists. split; [reflexivity|]. split; [cbn [denote]; do 2 f_equal; apply map_same_e; auto|].
          rewrite Hm. eapply post_sub; [|exact HPc']. reflexivity. }
        revert HG. clear. generalize (denote M' v'). intros y.
        destruct y as [| | | | | | | | | | | | |ys|]; try destruct ys as [|? [|? [|? ?]]];
        destruct v' as [| | | | | | |fs]; try destruct fs as [|? [|? [|? ?]]]; intros H; exact H. }
      destruct v' as [x|sl|o|f x|nn it sp|mm|o|fs]; try reflexivity.
      { inversion Hokv; subst. cbn [denote]. cbn in H1. destruct x; try discriminate H1; reflexivity. }
      destruct fs as [|mk [|mx [|? ?]]]; try reflexivity.
      cbn [denote map sim]. eexists; eexists. split; [reflexivity|]. split.
      * cbn [denote]. do 2 f_equal. change (map (entry_val M') (m_assign M' l mk mx) =
          map_assign (map (entry_val M) l) (denote M' mk) (denote M' mx)).
        rewrite m_assign_val, (map_same_e M M'); auto.
      * rewrite Hm. cbn [items_of]. destruct (m_assign_items M' l mk mx) as (G & HG).
        eapply post_sub; [|exact HPc']. cbn [items_of flat_map]. rewrite app_nil_r. exact HG.
  - intros i M b o x (Hok & Hb & Hlt & Hap). unfold decs, mdecs. rewrite decs_S. fold dec decs.
    replace (Alias.mdecs grow look iget D (S fuel) i M b o x) with
    (if o <? zlen (content M b) then
      match from_ (content M b) o with
      | None => DCrash Bounds
      | Some tl =>
        let '(fn, wt, n, e) := decodeTag tl in
        let offset := o + n in
        match e with
        | Some e => DRet (x, M) offset (Some e)
        | None =>
          match lookup_field (iget i) fn with
          | None =>
            match skip_unknown (content M b) offset wt with
            | CR c => DCrash c
            | OK (offset, Some e) => DRet (x, M) offset (Some (fieldError fn wt e))
            | OK (offset, None) => mdecs fuel i M b offset x
            end
          | Some f =>
            if negb (wt =? wireType f)%N then
              DRet (x, M) offset (Some (fieldError fn wt (ErrExpectedWireType (wireType f))))
            else
              match field_data (content M b) offset wt with
              | FCrash => DCrash Bounds
              | FErr offset e => DRet (x, M) offset (Some (fieldError fn wt e))
              | FData data =>
                match m_get x (f_idx f) with
                | None => DCrash Confused
                | Some y =>
                  match mdec fuel (f_codec f) M (sl_sub b offset (length data)) y with
                  | DRet (y, M) n e =>
                    let x := m_set x (f_idx f) y in
                    let offset := offset + n in
                    match e with
                    | Some e => DRet (x, M) offset (Some (fieldError fn wt e))
                    | None => mdecs fuel i M b offset x
                    end
                  | r => r
                  end
                end
              end
          end
        end
      end
    else DRet (x, M) o None) by reflexivity.
    assert (Href : forall n e, sim M x (DRet (denote M x) n e) (DRet (x, M) n e)).
    { intros n e. cbn. exists x, M. split; auto. split; auto. apply post_refl; auto. }
    destruct (o <? zlen (content M b)); [|apply Href].
    destruct (from_ (content M b) o) as [tl|]; [|reflexivity].
    destruct (decodeTag tl) as [[[fn wt] n] [e|]]; cbv zeta; [apply Href|].
    destruct (lookup_field (iget i) fn) as [f|].
    2:{ destruct (skip_unknown (content M b) (o + n) wt) as [[o' [e|]]|c]; [apply Href| |reflexivity].
        apply IHs. split; auto. }
    destruct (negb (wt =? wireType f)%N); [apply Href|].
    destruct (field_data (content M b) (o + n) wt) as [d|o' e|] eqn:Efd; [|apply Href|reflexivity].
    apply field_data_inv in Efd as (Ho & Hl & Ed).
    destruct (content_sub M b (o + n) (length d) Hb Ho Hl) as [Hc Hsl]. rewrite <- Ed in Hc.
    destruct x as [x|sl|oo|ff x|nn it sp|m|oo|fs]; cbn [denote get_field m_get]; try reflexivity.
    { inversion Hok as [H1 _]; inversion H1; subst. destruct x; try discriminate; reflexivity. }
    rewrite nth_error_map. destruct (nth_error fs (f_idx f)) as [y|] eqn:En; cbn [option_map]; [|reflexivity].
    apply nth_error_split in En as (l1 & l2 & -> & Hlen). rewrite <- Hlen in *.
    cbn [items_of] in Hok, Hap. rewrite flat_map_app in Hok, Hap. cbn [flat_map] in Hok, Hap.
    assert (Hbx : buf M (sl_sub b (o + n) (length d)) y).
    { split; [eapply okl_mid; eauto|]. split; auto. split; auto. intros Hi. apply Hap. cbn in Hi.
      rewrite !bytes_ids_app. apply in_or_app. right. apply in_or_app. auto. }
    specialize (IHd (f_codec f) M _ y Hbx). rewrite Hc in IHd.
    destruct (dec fuel (f_codec f) d (denote M y)) as [y1 n1 e1|cc|]; cbn [sim] in IHd;
      try (rewrite IHd; reflexivity).
    destruct IHd as (v' & M' & -> & <- & HP).
    destruct (ctx_mid _ _ _ _ _ _ Hok HP) as (HP' & HA & HB & _).
    assert (Hset : set_field (VStruct (map (denote M) (l1 ++ y :: l2))) (length l1) (denote M' v') =
      denote M' (m_set (MStruct (l1 ++ y :: l2)) (length l1) v')).
    { cbn [set_field m_set denote]. f_equal. rewrite list_set_mid, !map_app. cbn [map].
      rewrite <- (map_length (denote M) l1), list_set_mid. rewrite !(map_same M M'); auto. }
    rewrite Hset.
    assert (HPx : post M M' (items_of (MStruct (l1 ++ y :: l2)))
              (items_of (m_set (MStruct (l1 ++ y :: l2)) (length l1) v'))).
    { cbn [m_set items_of]. rewrite list_set_mid, !flat_map_app. cbn [flat_map]. auto. }
    clear Hset. set (x1 := m_set _ _ _) in *. clearbody x1.
    destruct e1 as [e1|].
    { cbn [sim]. exists x1, M'. auto. }
    assert (Hap0 : ~ In (ar b) (bytes_ids (items_of (MStruct (l1 ++ y :: l2))))).
    { cbn [items_of]. rewrite flat_map_app. exact Hap. }
    assert (Hbuf : buf M' b x1).
    { split; [apply (p_ok _ _ _ _ HPx)|]. split; [eapply post_slice; eauto|].
      split; [pose proof (p_len _ _ _ _ HPx); lia|].
      intros Hi. apply (p_bytes _ _ _ _ HPx) in Hi as [Hi|Hi]; auto. lia. }
    specialize (IHs i M' b (o + n + n1) x1 Hbuf).
    rewrite (post_buffer _ _ _ _ b HPx) in IHs by auto.
    destruct (decs fuel i (content M b) (o + n + n1) (denote M' x1)) as [y2 n2 e2|cc|]; cbn [sim] in IHs |- *; auto.
    destruct IHs as (v2 & M2 & -> & <- & HP2). exists v2, M2. split; auto. split; auto.
    eapply post_trans; eauto.
Qed.
End Sim.
