(** Messages of a schema and the order of map entries. *)
From Coq Require Import Permutation.
From Verif Require Import Base Wire GoType Leaf Codec Tag Walker Api Resolve Typing SpecWire SpecMsg SpecOrder WireFacts TypingFacts CodecSim
  WalkSeq MsgApi MsgThms OrderFacts.
Local Open Scope N_scope.

(** ** Types and conditions do not depend on the order *)
Lemma distinct_keys a b : Forall2 (fun p q : val * val => fst p = fst q) a b -> keys_distinct a = keys_distinct b.
Proof.
  induction 1 as [|[k x] [k' y] a b E H IH]; [reflexivity|]. cbn [fst] in E. subst k'. cbn [keys_distinct]. rewrite IH. f_equal.
  clear IH. induction H as [|[k1 x1] [k2 y1] a b E _ IH]; [reflexivity|]. cbn [fst] in E. subst. cbn [forallb fst]. rewrite IH. reflexivity.
Qed.
Lemma distinct_perm a b : Permutation a b -> keys_distinct a = true -> keys_distinct b = true.
Proof.
  induction 1 as [|[k x] a b P IH|[k x] [k' x'] a|a b c _ IH1 _ IH2]; [auto| | |auto]; cbn [keys_distinct forallb fst]; intros H; btrue.
  - rewrite IH by assumption. rewrite andb_true_r. rewrite forallb_forall in *. intros p Hp. apply H. eapply Permutation_in; [apply Permutation_sym; exact P|exact Hp].
  - repeat (apply andb_true_iff; split); auto. rewrite key_eqb_sym. assumption.
Qed.
Lemma forallb_perm {A} (g : A -> bool) a b : Permutation a b -> forallb g a = true -> forallb g b = true.
Proof. intros P H. rewrite forallb_forall in *. intros x Hx. apply H. eapply Permutation_in; [apply Permutation_sym; exact P|exact Hx]. Qed.
Lemma forallb_F2 {A B} (g : A -> bool) (h : B -> bool) a b : Forall2 (fun x y => g x = true -> h y = true) a b -> forallb g a = true -> forallb h b = true.
Proof. induction 1 as [|x y a b Hx _ IH]; [auto|]. cbn. intros H. apply andb_true_iff in H. destruct H. rewrite Hx, IH by assumption. reflexivity. Qed.
Lemma all2_F2 {A B} (g : A -> B -> bool) a b l : Forall2 (fun x y => forall t, g x t = true -> g y t = true) a b -> all2 g a l = true -> all2 g b l = true.
Proof.
  intros H. revert l. induction H as [|x y a b Hx _ IH]; intros [|t l]; cbn; auto. intros E. apply andb_true_iff in E. destruct E. rewrite (Hx t), IH by assumption. reflexivity.
Qed.
Lemma F2_length {A B} (P : A -> B -> Prop) a b : Forall2 P a b -> length a = length b.
Proof. induction 1; cbn; congruence. Qed.

Lemma wt_reorder D : forall v w, reorder v w -> forall t, wt D v t = true -> wt D w t = true.
Proof.
  assert (X : forall v w, reorder v w -> (forall t, wt D v t = true -> wt D w t = true) /\
    match v, w with VStruct a, VStruct b => Forall2 (fun x y => forall t, wt D x t = true -> wt D y t = true) a b | VStruct _, _ | _, VStruct _ => False | _, _ => True end);
    [|intros v w H; apply X; exact H].
  apply reorder_ind'.
  - intros v. split; [auto|]. destruct v; auto. apply Forall2_same. auto.
  - intros nn a b spare _ H. split; [|exact Logic.I]. intros [] Hw; try discriminate Hw. cbn [wt] in *. btrue. repeat (apply andb_true_iff; split); auto.
    + inversion H; subst; assumption.
    + match goal with E : forallb _ a = true |- _ => revert E; apply forallb_F2 end. eapply Forall2_impl; [|exact H]. intros x y [A _]. apply A.
  - intros a b c Hp _ H. split; [|exact Logic.I]. intros [] Hw; try discriminate Hw. cbn [wt] in *. btrue.
    apply andb_true_iff; split.
    + eapply forallb_F2; [|eapply forallb_perm; eassumption]. eapply Forall2_impl; [|exact H]. intros [k1 x] [k2 y] [E [A _]]. cbn [fst snd] in *. subst k2.
      intros K. apply andb_true_iff in K. destruct K. apply andb_true_iff. auto.
    + erewrite <- distinct_keys; [eapply distinct_perm; eassumption|]. eapply Forall2_impl; [|exact H]. intros p q [E _]. exact E.
  - intros a b _ [A F]. split; [|exact Logic.I]. intros [] Hw; try (destruct a; discriminate Hw).
    + cbn [wt] in *. destruct a, b; apply A; exact Hw.
    + destruct a, b; try discriminate Hw; try contradiction. cbn [wt] in *. destruct (nth_error D sid); [|discriminate]. eapply all2_F2; eassumption.
  - intros a b _ H. split; [|eapply Forall2_impl; [|exact H]; intros x y [A _]; exact A]. intros [] Hw; discriminate Hw.
Qed.
Lemma wts_reorder D v w k : reorder v w -> wts D v k = true -> wts D w k = true.
Proof.
  intros H. destruct k; cbn [wts].
  - apply wt_reorder. constructor. exact H.
  - destruct H; auto. apply all2_F2. eapply Forall2_impl; [|eassumption]. intros x y Hxy t. apply wt_reorder. exact Hxy.
  - apply wt_reorder. exact H.
Qed.

(** ** Scalars *)
Lemma pay_reorder s v w : reorder v w -> pay s v = pay s w.
Proof. intros H. destruct (reorder_leaf v w H) as [->|[A B]]; [reflexivity|]. destruct v; try discriminate A; destruct w; try discriminate B; destruct s; reflexivity. Qed.
Lemma zero_reorder v w : reorder v w -> is_zero v = is_zero w.
Proof. intros H. destruct (reorder_leaf v w H) as [->|[A B]]; [reflexivity|]. destruct v; try discriminate A; destruct w; try discriminate B; reflexivity. Qed.

(** ** Records *)
Section Schema.
Variable sch : schema.
Lemma shuffle_refl fs a : shuffle sch fs a a.
Proof. induction a; constructor; assumption. Qed.
Lemma shuffle_tail fs a b c : shuffle sch fs a b -> shuffle sch fs (a ++ c) (b ++ c).
Proof.
  induction 1; cbn [app]; [apply shuffle_refl|apply sh_same; assumption|eapply sh_sub; eassumption|eapply sh_entry; eassumption|eapply sh_swap; eassumption|eapply sh_trans; eassumption].
Qed.
Lemma shuffle_head fs a c d : shuffle sch fs c d -> shuffle sch fs (a ++ c) (a ++ d).
Proof. intros H. induction a; [exact H|]. cbn. apply sh_same. assumption. Qed.
Lemma shuffle_len fs a b : shuffle sch fs a b -> length (ser a) = length (ser b).
Proof.
  assert (E : forall n (c d : bytes), length c = length d -> length (ser_rec (n, PLen c)) = length (ser_rec (n, PLen d))).
  { intros n c d H. unfold ser_rec. cbn [ser_payload fst snd wire_of]. rewrite !app_length, H. reflexivity. }
  assert (C : forall r l, length (ser (r :: l)) = (length (ser_rec r) + length (ser l))%nat) by (intros; unfold ser; cbn [map concat]; apply app_length).
  induction 1; rewrite ?C; auto; try (erewrite E by eassumption; congruence); try lia.
Qed.
Lemma shuffle_app fs a b c d : shuffle sch fs a b -> shuffle sch fs c d -> shuffle sch fs (a ++ c) (b ++ d).
Proof. intros A B. eapply sh_trans; [apply shuffle_tail; exact A|apply shuffle_head; exact B]. Qed.

Lemma records_message v n f : records sch v n f = message sch [v] [Field n f].
Proof. cbn. rewrite app_nil_r. reflexivity. Qed.
Lemma msg_records n m xs : records sch (VPtr (Some (VStruct xs))) n (FMessage m) = [(n, PLen (ser (message sch xs (msg sch m))))].
Proof. reflexivity. Qed.
Lemma swap_perm fs n k e l l' : In (Field n (FMap k e)) fs -> Permutation l l' ->
  shuffle sch fs (map (fun b => (n, PLen b)) l) (map (fun b => (n, PLen b)) l').
Proof.
  intros H. induction 1; cbn [map]; [constructor|apply sh_same; assumption|eapply sh_swap; eassumption|eapply sh_trans; eassumption].
Qed.
Definition leafy (f : fty) : bool := match f with FRepeated _ | FMap _ _ => false | _ => true end.
Definition shape (f : fty) : bool := match f with FRepeated e | FMap _ e => leafy e | _ => true end.
Lemma leafy_shape f : leafy f = true -> shape f = true.
Proof. destruct f; auto; discriminate. Qed.
Hypothesis Hshape : forall m n f, In (Field n f) (msg sch m) -> shape f = true.

Definition carried (fs : list sfld) (n : N) (f : fty) : Prop :=
  In (Field n f) fs /\ shape f = true \/ In (Field n (FRepeated f)) fs /\ leafy f = true.
Lemma fields_shuffle xs ys : Forall2 (fun x y => forall n f fs, carried fs n f -> shuffle sch fs (records sch x n f) (records sch y n f)) xs ys ->
  forall fs fs', (forall g, In g fs' -> In g fs) -> (forall n f, In (Field n f) fs -> shape f = true) -> shuffle sch fs (message sch xs fs') (message sch ys fs').
Proof.
  induction 1 as [|x y xs ys Hx _ IH]; intros fs fs' Hin Hs; [apply shuffle_refl|].
  destruct fs' as [|[t|n f] fs']; cbn [message]; [constructor|apply IH; [intros g Hg; apply Hin; right; exact Hg|exact Hs]|].
  apply shuffle_app; [|apply IH; [intros g Hg; apply Hin; right; exact Hg|exact Hs]].
  assert (In (Field n f) fs) by (apply Hin; left; reflexivity). apply Hx. left. eauto.
Qed.
Lemma flat_shuffle fs n f a b : Forall2 (fun x y => shuffle sch fs (records sch x n f) (records sch y n f)) a b ->
  shuffle sch fs (flat_map (fun x => records sch x n f) a) (flat_map (fun x => records sch x n f) b).
Proof. induction 1; cbn [flat_map]; [constructor|apply shuffle_app; assumption]. Qed.
Definition entry_rec (n : N) (k : sty) (e : fty) (kv : val * val) : record :=
  (n, PLen (ser (message sch [fst kv; snd kv] [Field 1 (FAlways k); Field 2 e]))).
Lemma map_records n k e l : records sch (VMap (Some l)) n (FMap k e) = map (entry_rec n k e) l.
Proof.
  cbn [records]. induction l as [|[a x] l IH]; [reflexivity|]. cbn [flat_map map]. rewrite IH. unfold entry_rec. cbn [fst snd message app].
  rewrite app_nil_r. destruct a; reflexivity.
Qed.
Lemma swap_entries fs n k e l l' : In (Field n (FMap k e)) fs -> Permutation l l' ->
  shuffle sch fs (map (entry_rec n k e) l) (map (entry_rec n k e) l').
Proof.
  intros H. induction 1; cbn [map]; [constructor|apply sh_same; assumption|eapply sh_swap; eassumption|eapply sh_trans; eassumption].
Qed.

Lemma records_shuffle : forall v w, reorder v w ->
  (forall n f fs, carried fs n f -> shuffle sch fs (records sch v n f) (records sch w n f)) /\
  match v, w with
  | VStruct a, VStruct b => Forall2 (fun x y => forall n f fs, carried fs n f -> shuffle sch fs (records sch x n f) (records sch y n f)) a b
  | VStruct _, _ | _, VStruct _ => False
  | _, _ => True
  end.
Proof.
  apply reorder_ind'.
  - intros v. split; [intros; apply shuffle_refl|]. destruct v; auto. apply Forall2_same. intros; apply shuffle_refl.
  - intros nn a b spare Hr H. split; [|exact Logic.I]. intros n f fs Hc.
    assert (E : reorder (VSlice nn a spare) (VSlice nn b spare)) by (constructor; exact Hr).
    destruct f; cbn [records]; rewrite ?(pay_reorder _ _ _ E), ?(zero_reorder _ _ E); try apply shuffle_refl.
    apply flat_shuffle. eapply Forall2_impl; [|exact H]. intros x y [A _]. apply A. right. destruct Hc as [[A1 A2]|[A1 A2]]; [auto|discriminate].
  - intros a b c Hp Hr H. split; [|exact Logic.I]. intros n f fs Hc.
    assert (E : reorder (VMap (Some a)) (VMap (Some c))) by (econstructor; eassumption).
    destruct f; try (cbn [records]; rewrite ?(pay_reorder _ _ _ E), ?(zero_reorder _ _ E); apply shuffle_refl).
    rewrite !map_records. destruct Hc as [[A1 A2]|[A1 A2]]; [|discriminate]. eapply sh_trans; [apply swap_entries; eassumption|].
    clear Hp E. induction H as [|[k1 x] [k2 y] b c [Ek [Hx _]] _ IH]; [constructor|]. cbn [map]. inversion Hr; subst. cbn [fst snd] in *. subst k2.
    eapply sh_entry; [exact A1| |apply IH; assumption].
    apply (fields_shuffle [k1; x] [k1; y]); [|auto|].
    + constructor; [intros; apply shuffle_refl|]. constructor; [exact Hx|constructor].
    + intros n' f' [X|[X|[]]]; inversion X; subst; [reflexivity|]. apply leafy_shape. exact A2.
  - intros a b Hr [A F]. split; [|exact Logic.I]. intros n f fs Hc.
    assert (E : reorder (VPtr (Some a)) (VPtr (Some b))) by (constructor; exact Hr).
    destruct f; try (cbn [records]; rewrite ?(pay_reorder _ _ _ E), ?(zero_reorder _ _ E), ?(pay_reorder _ _ _ Hr); apply shuffle_refl).
    destruct a, b; try contradiction; try apply shuffle_refl. rewrite !msg_records.
    destruct Hc as [[A1 A2]|[A1 A2]]; (eapply sh_sub; [exact A1|auto| |constructor]); apply fields_shuffle; auto; intros; eapply Hshape; eassumption.
  - intros a b Hr H. split; [|eapply Forall2_impl; [|exact H]; intros x y [A _]; exact A]. intros n f fs Hc.
    assert (E : reorder (VStruct a) (VStruct b)) by (constructor; exact Hr).
    destruct f; cbn [records]; rewrite ?(pay_reorder _ _ _ E), ?(zero_reorder _ _ E); apply shuffle_refl.
Qed.
Lemma message_shuffle xs ys m : Forall2 reorder xs ys -> shuffle sch (msg sch m) (message sch xs (msg sch m)) (message sch ys (msg sch m)).
Proof.
  intros H. apply fields_shuffle; [|auto|apply Hshape]. eapply Forall2_impl; [|exact H]. intros x y Hxy. apply records_shuffle. exact Hxy.
Qed.

(** ** Conditions and what is kept *)
Lemma nil_reorder v w : reorder v w -> is_nil v = is_nil w.
Proof. intros H. destruct H; reflexivity. Qed.
Definition same_len (x y : val) : Prop := forall n f, length (ser (records sch x n f)) = length (ser (records sch y n f)).
Lemma ser_cons_len r l : length (ser (r :: l)) = (length (ser_rec r) + length (ser l))%nat.
Proof. clear Hshape. unfold ser. cbn [map concat]. apply app_length. Qed.
Lemma ser_app_len a b : length (ser (a ++ b)) = (length (ser a) + length (ser b))%nat.
Proof. clear Hshape. unfold ser. rewrite map_app, concat_app. apply app_length. Qed.
Lemma len_rec n (c d : bytes) : length c = length d -> length (ser_rec (n, PLen c)) = length (ser_rec (n, PLen d)).
Proof. clear Hshape. intros H. unfold ser_rec. cbn [ser_payload fst snd wire_of]. rewrite !app_length, H. reflexivity. Qed.
Lemma len_fields xs ys : Forall2 same_len xs ys -> forall fs, length (ser (message sch xs fs)) = length (ser (message sch ys fs)).
Proof. clear Hshape.
  induction 1 as [|x y xs ys Hx _ IH]; [reflexivity|]. intros [|[t|n f] fs]; cbn [message]; auto. rewrite !ser_app_len, Hx, IH. reflexivity.
Qed.
Lemma len_perm n k e a b : Permutation a b -> length (ser (map (entry_rec n k e) a)) = length (ser (map (entry_rec n k e) b)).
Proof. clear Hshape. induction 1; cbn [map]; rewrite ?ser_cons_len; lia. Qed.
Lemma len_reorder : forall v w, reorder v w -> same_len v w /\
  match v, w with VStruct a, VStruct b => Forall2 same_len a b | VStruct _, _ | _, VStruct _ => False | _, _ => True end.
Proof. clear Hshape.
  assert (X0 : forall v, same_len v v) by (intros v n f; reflexivity).
  apply reorder_ind'.
  - intros v. split; [apply X0|]. destruct v; auto. apply Forall2_same. apply X0.
  - intros nn a b spare Hr H. split; [|exact Logic.I]. intros n f.
    assert (E : reorder (VSlice nn a spare) (VSlice nn b spare)) by (constructor; exact Hr).
    destruct f; cbn [records]; rewrite ?(pay_reorder _ _ _ E), ?(zero_reorder _ _ E); try reflexivity.
    clear E Hr. induction H as [|x y a b [A _] _ IH]; [reflexivity|]. cbn [flat_map]. rewrite !ser_app_len, A, IH. reflexivity.
  - intros a b c Hp Hr H. split; [|exact Logic.I]. intros n f.
    assert (E : reorder (VMap (Some a)) (VMap (Some c))) by (econstructor; eassumption).
    destruct f; try (cbn [records]; rewrite ?(pay_reorder _ _ _ E), ?(zero_reorder _ _ E); reflexivity).
    rewrite !map_records, (len_perm _ _ _ _ _ Hp). clear Hp E Hr. induction H as [|[k1 x] [k2 y] b c [Ek [Hx _]] _ IH]; [reflexivity|]. cbn [map fst snd] in *. subst k2.
    rewrite !ser_cons_len, IH. f_equal. apply len_rec. cbn [fst snd]. apply len_fields. repeat constructor; auto.
  - intros a b Hr [A F]. split; [|exact Logic.I]. intros n f.
    assert (E : reorder (VPtr (Some a)) (VPtr (Some b))) by (constructor; exact Hr).
    destruct f; try (cbn [records]; rewrite ?(pay_reorder _ _ _ E), ?(zero_reorder _ _ E), ?(pay_reorder _ _ _ Hr); reflexivity).
    destruct a, b; try contradiction; try reflexivity. rewrite !msg_records, !ser_cons_len. f_equal. apply len_rec, len_fields. exact F.
  - intros a b Hr H. split; [|eapply Forall2_impl; [|exact H]; intros x y [A _]; exact A]. intros n f.
    assert (E : reorder (VStruct a) (VStruct b)) by (constructor; exact Hr).
    destruct f; cbn [records]; rewrite ?(pay_reorder _ _ _ E), ?(zero_reorder _ _ E); reflexivity.
Qed.
Lemma len_ok_reorder k e v w : reorder v w -> map_len_ok sch k e v = map_len_ok sch k e w.
Proof. clear Hshape.
  intros H. unfold map_len_ok. rewrite (proj1 (len_reorder v w H) 2%N e). replace (key_length k w) with (key_length k v); [reflexivity|].
  destruct (reorder_leaf v w H) as [->|[A B]]; [reflexivity|]. destruct H; try reflexivity; discriminate.
Qed.
Lemma encodable_struct m xs : encodable sch (VPtr (Some (VStruct xs))) (FMessage m) = encodable_msg sch xs (msg sch m).
Proof. reflexivity. Qed.
Lemma kept_struct m xs : kept sch (VPtr (Some (VStruct xs))) (FMessage m) = VPtr (Some (VStruct (kept_msg sch xs (msg sch m)))).
Proof. reflexivity. Qed.
Definition same_cond (x y : val) : Prop := (forall f, encodable sch x f = true -> encodable sch y f = true) /\ (forall f, reorder (kept sch x f) (kept sch y f)).
Lemma encodable_fields xs ys : Forall2 same_cond xs ys -> forall fs, encodable_msg sch xs fs = true -> encodable_msg sch ys fs = true.
Proof.
  induction 1 as [|x y xs ys [Hx _] _ IH]; [auto|]. intros [|[t|n f] fs]; cbn; auto. intros H. apply andb_true_iff in H. destruct H. rewrite Hx, IH by assumption. reflexivity.
Qed.
Lemma kept_fields xs ys : Forall2 same_cond xs ys -> forall fs, Forall2 reorder (kept_msg sch xs fs) (kept_msg sch ys fs).
Proof.
  induction 1 as [|x y xs ys [_ Hx] _ IH]; intros fs; [destruct fs; constructor|]. destruct fs as [|[t|n f] fs]; cbn; constructor; auto. constructor.
Qed.
Lemma cond_reorder : forall v w, reorder v w -> same_cond v w /\
  match v, w with VStruct a, VStruct b => Forall2 same_cond a b | VStruct _, _ | _, VStruct _ => False | _, _ => True end.
Proof.
  assert (X0 : forall v, same_cond v v) by (intros v; split; [auto|intros; constructor]).
  apply reorder_ind'.
  - intros v. split; [apply X0|]. destruct v; auto. apply Forall2_same. apply X0.
  - intros nn a b spare Hr H. split; [|exact Logic.I]. split.
    + intros f. destruct f; cbn [encodable]; auto. apply forallb_F2. eapply Forall2_impl; [|exact H]. intros x y [[A _] _]. apply A.
    + intros f. destruct f; cbn [kept]; try (constructor; exact Hr). constructor.
      induction H as [|x y a b [[_ A] _] _ IH]; [constructor|]. inversion Hr; subst. cbn [flat_map]. rewrite (nil_reorder x y) by assumption.
      destruct (is_nil y); cbn [app]; [apply IH; assumption|constructor; [apply A|apply IH; assumption]].
  - intros a b c Hp Hr H. split; [|exact Logic.I]. split.
    + intros f. destruct f; try (cbn [encodable]; auto; fail).
      assert (Z : forall l, encodable sch (VMap (Some l)) (FMap k f) = negb (match l with [] => true | _ => false end) &&
        forallb (fun kv => match kv with (_, x) => map_len_ok sch k f x && encodable sch x f end) l) by (intros [|[? ?] ?]; reflexivity).
      rewrite !Z. intros E. apply andb_true_iff in E. destruct E as [E1 E2]. apply andb_true_iff. split.
      * assert (L := Permutation_length Hp). assert (L' := F2_length _ _ _ Hr). destruct a, c; auto. cbn in L, L'. congruence.
      * eapply forallb_F2; [|eapply forallb_perm; eassumption]. clear -H Hr. induction H as [|[k1 x] [k2 y] b c [_ [[A _] _]] _ IH]; constructor.
        { inversion Hr as [|? ? ? ? [_ R] _]; subst. cbn [snd] in *. rewrite (len_ok_reorder k f x y R). intros E. apply andb_true_iff in E. destruct E. apply andb_true_iff. auto. }
        inversion Hr; subst. apply IH. assumption.
    + intros f. destruct f; cbn [kept]; try (econstructor; eassumption).
      eapply ro_map; [apply Permutation_map; exact Hp|]. clear -H. induction H as [|[k1 x] [k2 y] b c [E [[_ A] _]] _ IH]; constructor; [|exact IH].
      cbn [fst snd] in *. auto.
  - intros a b Hr [A F]. split; [|exact Logic.I]. split.
    + intros f. destruct f; auto.
      * cbn [encodable]. rewrite (zero_reorder _ _ Hr). auto.
      * destruct a, b; try contradiction; auto. rewrite !encodable_struct. apply encodable_fields. exact F.
    + intros f. destruct f; try (constructor; exact Hr).
      destruct a, b; try contradiction; try (constructor; exact Hr). rewrite !kept_struct. do 2 constructor. apply kept_fields. exact F.
  - intros a b Hr H. split; [|eapply Forall2_impl; [|exact H]; intros x y [A _]; exact A]. split.
    + intros f. destruct f; cbn [encodable]; auto.
    + intros f. destruct f; cbn [kept]; constructor; exact Hr.
Qed.
Lemma encodable_reorder xs ys m : Forall2 reorder xs ys -> encodable_msg sch xs (msg sch m) = true -> encodable_msg sch ys (msg sch m) = true.
Proof. intros H. apply encodable_fields. eapply Forall2_impl; [|exact H]. intros x y Hxy. apply cond_reorder. exact Hxy. Qed.
Lemma kept_reorder xs ys m : Forall2 reorder xs ys -> Forall2 reorder (kept_msg sch xs (msg sch m)) (kept_msg sch ys (msg sch m)).
Proof. intros H. apply kept_fields. eapply Forall2_impl; [|exact H]. intros x y Hxy. apply cond_reorder. exact Hxy. Qed.
End Schema.

Lemma norm_reorder : forall v w, reorder v w -> reorder (norm v) (norm w).
Proof.
  apply (reorder_ind' (fun v w => reorder (norm v) (norm w))).
  - intros v. constructor.
  - intros nn a b spare _ H. cbn [norm]. replace (match b with [] => false | _ => true end) with (match a with [] => false | _ => true end) by (inversion H; reflexivity).
    constructor. induction H; constructor; assumption.
  - intros a b c Hp _ H. destruct a as [|p a].
    { apply Permutation_nil in Hp. subst b. inversion H; subst. constructor. }
    destruct c as [|q c]; [inversion H; subst; apply Permutation_sym, Permutation_nil in Hp; discriminate|].
    cbn [norm]. eapply ro_map; [apply (Permutation_map (fun kv => match kv with (k, x) => (k, norm x) end)); exact Hp|].
    clear Hp. induction H as [|[k1 x] [k2 y] b0 c0 [E A] _ IH]; cbn [map]; constructor; auto.
  - intros a b _ H. cbn [norm]. constructor. exact H.
  - intros a b _ H. cbn [norm]. constructor. induction H; constructor; assumption.
Qed.

Lemma scope_shape sch m n f : in_scope sch = true -> In (Field n f) (msg sch m) -> shape f = true.
Proof.
  intros H Hin. unfold in_scope in H. rewrite forallb_forall in H. unfold msg in Hin.
  destruct (nth_in_or_default m sch []) as [A|A]; [|rewrite A in Hin; destruct Hin].
  specialize (H _ A). unfold scope_msg in H. rewrite forallb_forall in H. specialize (H _ Hin). cbn in H.
  destruct f; auto; cbn [scope_field] in H.
  - destruct f; auto; discriminate.
  - apply andb_true_iff in H. destruct H as [_ H]. destruct f; auto; discriminate.
Qed.

Lemma order_decodes_proof D sch : covers D sch = true -> forall s1 s2 s3 s4 m xs ys, reachable D s1 -> reachable D s2 -> reachable D s3 -> reachable D s4 ->
  wts D (VStruct xs) (SNamed m) = true -> encodable_msg sch xs (msg sch m) = true -> (zlen (ser (message sch xs (msg sch m))) < 2^63)%Z ->
  reorder (VStruct xs) (VStruct ys) ->
  exists rs rs' zs zs', fst (Marshal D (ptr m xs) s1) = Returns (Some (ser rs), None) /\ fst (Marshal D (ptr m ys) s2) = Returns (Some (ser rs'), None) /\
    shuffle sch (msg sch m) rs rs' /\
    fst (Unmarshal D (ser rs) (ptr m (zeros (msg sch m))) s3) = Returns (ptr m zs, None) /\
    fst (Unmarshal D (ser rs') (ptr m (zeros (msg sch m))) s4) = Returns (ptr m zs', None) /\
    reorder (VStruct (map norm zs)) (VStruct (map norm zs')).
Proof.
  intros HC s1 s2 s3 s4 m xs ys R1 R2 R3 R4 Hw He Hl Hr.
  assert (HF : Forall2 reorder xs ys) by (inversion Hr; subst; [apply Forall2_same; constructor|assumption]).
  assert (Hs : forall m n f, In (Field n f) (msg sch m) -> shape f = true).
  { intros m' n f. apply scope_shape. unfold covers in HC. repeat (apply andb_true_iff in HC; destruct HC as [HC ?]). assumption. }
  assert (Hw' := wts_reorder D _ _ _ Hr Hw). assert (He' := encodable_reorder sch xs ys m HF He).
  assert (Sh := message_shuffle sch Hs xs ys m HF).
  assert (Hl' : (zlen (ser (message sch ys (msg sch m))) < 2^63)%Z) by (unfold zlen; rewrite <- (shuffle_len _ _ _ _ Sh); exact Hl).
  destruct (roundtrip D sch HC s1 s3 m xs R1 R3 Hw He Hl) as (b & zs & M1 & U1 & N1 & _).
  destruct (roundtrip D sch HC s2 s4 m ys R2 R4 Hw' He' Hl') as (b' & zs' & M2 & U2 & N2 & _).
  destruct (marshal_spec D sch HC s1 m xs R1 Hw He Hl) as [_ M1']. destruct (marshal_spec D sch HC s2 m ys R2 Hw' He' Hl') as [_ M2'].
  rewrite M1' in M1. inversion M1; subst b. rewrite M2' in M2. inversion M2; subst b'.
  exists (message sch xs (msg sch m)), (message sch ys (msg sch m)), zs, zs'. repeat (split; [assumption|]).
  rewrite N1, N2. constructor. assert (K := kept_reorder sch xs ys m HF). clear -K. induction K; cbn [map]; constructor; auto using norm_reorder.
Qed.
