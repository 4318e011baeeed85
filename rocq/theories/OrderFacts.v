(** Encoding does not depend on the order of map entries but for the order of
    what is written. *)
From Coq Require Import Permutation.
From Verif Require Import Base Wire GoType Leaf Codec Tag Walker Api SpecWire SpecMsg SpecOrder WireFacts CodecSim.
Local Open Scope Z_scope.

Lemma reorder_ind' (P : val -> val -> Prop)
  (H0 : forall v, P v v)
  (H1 : forall nn a b spare, Forall2 reorder a b -> Forall2 P a b -> P (VSlice nn a spare) (VSlice nn b spare))
  (H2 : forall a b c, Permutation a b -> Forall2 (fun p q => fst p = fst q /\ reorder (snd p) (snd q)) b c ->
     Forall2 (fun p q => fst p = fst q /\ P (snd p) (snd q)) b c -> P (VMap (Some a)) (VMap (Some c)))
  (H3 : forall a b, reorder a b -> P a b -> P (VPtr (Some a)) (VPtr (Some b)))
  (H4 : forall a b, Forall2 reorder a b -> Forall2 P a b -> P (VStruct a) (VStruct b)) :
  forall v w, reorder v w -> P v w.
Proof.
  fix IH 3. intros v w H. destruct H as [v|nn a b spare H|a b c Hp H|a b H|a b H].
  - apply H0.
  - apply H1; [exact H|]. clear -H IH. induction H as [|x y a b Hx _ IHl]; constructor; [apply IH; exact Hx|exact IHl].
  - apply (H2 a b c Hp H). clear -H IH. induction H as [|x y b c [E Hx] _ IHl]; constructor; [split; [exact E|apply IH; exact Hx]|exact IHl].
  - apply H3; [exact H|apply IH; exact H].
  - apply H4; [exact H|]. clear -H IH. induction H as [|x y a b Hx _ IHl]; constructor; [apply IH; exact Hx|exact IHl].
Qed.

Lemma Forall2_same {A} (P : A -> A -> Prop) l : (forall x, P x x) -> Forall2 P l l.
Proof. intros H. induction l; constructor; auto. Qed.

Lemma Forall2_impl {A B} (P Q : A -> B -> Prop) l l' : (forall a b, P a b -> Q a b) -> Forall2 P l l' -> Forall2 Q l l'.
Proof. intros H. induction 1; constructor; auto. Qed.

Lemma small_same v w : reorder v w -> small v = true -> v = w.
Proof.
  revert v w. apply (reorder_ind' (fun v w => small v = true -> v = w)); [reflexivity|..].
  - intros nn a b spare _ H Hs. cbn [small] in Hs. f_equal. induction H as [|x y a b Hx _ IH]; [reflexivity|].
    cbn in Hs. apply andb_true_iff in Hs. destruct Hs. f_equal; auto.
  - intros a b c Hp _ H Hs. do 2 f_equal.
    assert (a = b).
    { destruct a as [|p [|q a]]; [symmetry; apply Permutation_nil; exact Hp|symmetry; apply Permutation_length_1_inv; exact Hp|discriminate Hs]. }
    subst b. cbn [small] in Hs.
    assert (Hs' : forallb (fun kv => match kv with (_, x) => small x end) a = true) by (destruct a as [|p [|q a]]; [reflexivity|exact Hs|discriminate]).
    clear Hs Hp. induction H as [|[k x] [k' y] a b [E Hx] _ IH]; [reflexivity|].
    cbn [forallb] in Hs'. apply andb_true_iff in Hs'. destruct Hs'. cbn [fst snd] in *. subst k'. f_equal; [|auto]. f_equal; auto.
  - intros a b _ H Hs. do 2 f_equal. auto.
  - intros a b _ H Hs. cbn [small] in Hs. f_equal. induction H as [|x y a b Hx _ IH]; [reflexivity|].
    cbn in Hs. apply andb_true_iff in Hs. destruct Hs. f_equal; auto.
Qed.

(** ** Leaf codecs *)
Definition composite (v : val) : bool :=
  match v with VSlice _ _ _ | VMap (Some _) | VPtr (Some _) | VStruct _ => true | _ => false end.
Lemma reorder_leaf v w : reorder v w -> v = w \/ composite v = true /\ composite w = true.
Proof. intros H. destruct H; [left; reflexivity|right; split; reflexivity..]. Qed.
(** The size of some leaf codecs does not read the value. *)
Lemma size_composite s f : exists r, forall v, composite v = true -> l_size (static s) v f = r.
Proof.
  exists (l_size (static s) (VStruct []) f). intros v H.
  destruct v; try discriminate H; try (destruct m; discriminate H || idtac); try (destruct o; try discriminate H); destruct s as [[] []|]; reflexivity.
Qed.
Lemma size_leaf s v w f : reorder v w -> l_size (static s) v f = l_size (static s) w f.
Proof.
  intros H. destruct (reorder_leaf v w H) as [->|[A B]]; [reflexivity|]. destruct (size_composite s f) as [r E]. rewrite (E v A), (E w B). reflexivity.
Qed.
Lemma encode_composite s b v f : composite v = true -> l_encode (static s) b v f = CR Confused.
Proof. intros H. destruct v; try discriminate H; try (destruct m; discriminate H || idtac); try (destruct o; try discriminate H); destruct s as [[] []|]; reflexivity. Qed.

Definition gives (r : bytes -> res bytes) (d : bytes) : Prop := forall b, r b = OK (b ++ d).
Definition appends (r : bytes -> res bytes) : Prop := (exists d, gives r d) \/ (exists c, forall b, r b = CR c).
Lemma appendVarint_app b v : appendVarint b v = b ++ appendVarint [] v.
Proof. unfold appendVarint. repeat match goal with |- context [if ?c then _ else _] => destruct c end; reflexivity. Qed.
Lemma app_gives d : appends (fun b => OK (b ++ d)).
Proof. left. exists d. intros b. reflexivity. Qed.
Lemma keep_gives : appends (fun b => OK b).
Proof. left. exists []. intros b. rewrite app_nil_r. reflexivity. Qed.
Lemma cr_gives c : appends (fun _ => CR c).
Proof. right. exists c. reflexivity. Qed.
Lemma appends_ext r r' : (forall b, r b = r' b) -> appends r' -> appends r.
Proof. intros E [[d H]|[c H]]; [left; exists d|right; exists c]; intros b; rewrite E; apply H. Qed.
Lemma varint_gives t v : appends (fun b => OK (appendVarint (appendVarint b t) v)).
Proof. eapply appends_ext; [|apply app_gives]. intros b. cbn beta. rewrite appendVarint_app, (appendVarint_app b), <- app_assoc. reflexivity. Qed.
Lemma bytes_gives t v d : appends (fun b => OK (appendVarint (appendVarint b t) v ++ d)).
Proof. eapply appends_ext; [|apply app_gives]. intros b. cbn beta. rewrite appendVarint_app, (appendVarint_app b), <- !app_assoc. reflexivity. Qed.
Lemma le32_gives t v : appends (fun b => OK (encodeLE32 (appendVarint b t) v)).
Proof. eapply appends_ext; [|apply app_gives]. intros b. cbn beta. unfold encodeLE32. rewrite (appendVarint_app b), <- !app_assoc. reflexivity. Qed.
Lemma le64_gives t v : appends (fun b => OK (encodeLE64 (appendVarint b t) v)).
Proof. eapply appends_ext; [|apply app_gives]. intros b. cbn beta. unfold encodeLE64. rewrite (appendVarint_app b), <- !app_assoc. reflexivity. Qed.
Lemma byte_gives t d : appends (fun b => OK (appendVarint b t ++ d)).
Proof. eapply appends_ext; [|apply app_gives]. intros b. cbn beta. rewrite (appendVarint_app b), <- !app_assoc. reflexivity. Qed.

Ltac leaf_step := first
  [ apply keep_gives | apply cr_gives | apply bytes_gives | apply varint_gives | apply le32_gives | apply le64_gives | apply byte_gives
  | match goal with |- appends (fun _ => rbind ?r _) => destruct r; cbn [rbind] end
  | match goal with |- appends (fun _ => if ?c then _ else _) => destruct c end
  | match goal with |- appends (fun _ => match ?c with Some _ => _ | None => _ end) => destruct c end
  | match goal with |- appends (fun _ => match ?c with [] => _ | _ :: _ => _ end) => destruct c end
  | match goal with |- appends (fun _ => let '(_, _) := ?c in _) => destruct c end
  | match goal with |- appends (fun _ => OK (if ?c then _ else _)) => destruct c end ].
Lemma leaf_appends s v f : appends (fun b => l_encode (static s) b v f).
Proof.
  destruct s as [[] []|]; cbn [static l_encode boolCodec boolRequiredCodec boolOptionCodec stringCodec stringRequiredCodec stringOptionCodec
    float32Codec float32RequiredCodec float32OptionCodec float64Codec float64RequiredCodec float64OptionCodec int32Codec int32RequiredCodec int32OptionCodec
    int64Codec int64RequiredCodec int64OptionCodec uint32Codec uint32RequiredCodec uint32OptionCodec uint64Codec uint64RequiredCodec uint64OptionCodec
    fixed32Codec fixed32RequiredCodec fixed32OptionCodec fixed64Codec fixed64RequiredCodec fixed64OptionCodec zigzag32Codec zigzag32RequiredCodec zigzag32OptionCodec
    zigzag64Codec zigzag64RequiredCodec zigzag64OptionCodec bytesCodec optionCodec];
  unfold encodeBool, encodeBoolRequired, encodeString, encodeStringRequired, encodeFloat32, encodeFloat32Required, encodeFloat64, encodeFloat64Required,
    encodeInt32, encodeInt32Required, encodeInt64, encodeInt64Required, encodeUint32, encodeUint32Required, encodeUint64, encodeUint64Required,
    encodeFixed32, encodeFixed32Required, encodeFixed64, encodeFixed64Required, encodeZigzag32, encodeZigzag32Required, encodeZigzag64, encodeZigzag64Required,
    encodeBytes, encodeOption, appendVarintZigZag; cbv zeta; repeat leaf_step.
Qed.

(** ** Lists of results *)
Definition leads (r r' : res Z) : Prop := forall n, r = OK n -> r' = OK n.
Lemma sum_leads l l' n : Forall2 leads l l' -> sum_res l = OK n -> sum_res l' = OK n.
Proof.
  intros H. revert n. induction H as [|r r' l l' Hr _ IH]; intros n; [auto|]. cbn [sum_res].
  destruct r as [a|]; [|discriminate]. rewrite (Hr a eq_refl). cbn [rbind]. destruct (sum_res l) as [m|] eqn:E; [|discriminate].
  cbn [rbind]. rewrite (IH m eq_refl). auto.
Qed.
Lemma sum_perm l l' n : Permutation l l' -> sum_res l = OK n -> sum_res l' = OK n.
Proof.
  intros H. revert n. induction H as [|r l l' _ IH|r r' l|l l' l'' _ IH1 _ IH2]; intros n; [auto| | |auto].
  - cbn [sum_res]. destruct r as [a|]; [|discriminate]. cbn [rbind]. destruct (sum_res l) as [m|]; [|discriminate]. rewrite (IH m eq_refl). auto.
  - cbn [sum_res]. destruct r as [a|], r' as [a'|]; cbn [rbind]; try discriminate; destruct (sum_res l) as [m|]; cbn [rbind]; try discriminate.
    intros H. inversion H; subst. f_equal. lia.
Qed.
Lemma chain_gives l : forall d, Forall appends l -> gives (fun b => chain_res b l) d -> exists ds, Forall2 gives l ds /\ d = concat ds.
Proof.
  induction l as [|g l IH]; intros d Ha H.
  - exists []. split; [constructor|]. specialize (H []). cbn in H. inversion H. reflexivity.
  - inversion Ha as [|? ? Hg Hl]; subst. destruct Hg as [[d1 Hg]|[c Hg]]; [|specialize (H []); cbn in H; rewrite Hg in H; discriminate].
    assert (X : exists d2, gives (fun b => chain_res b l) d2 /\ d = d1 ++ d2).
    { assert (Y : appends (fun b => chain_res b l)).
      { clear -Hl. induction Hl as [|g l Hg _ IH]; [apply keep_gives|]. cbn [chain_res].
        destruct Hg as [[d1 Hg]|[c Hg]]; [|right; exists c; intros b; rewrite Hg; reflexivity].
        destruct IH as [[d2 IH]|[c IH]]; [left; exists (d1 ++ d2)|right; exists c]; intros b; rewrite Hg; cbn [rbind]; rewrite IH; [rewrite app_assoc|]; reflexivity. }
      destruct Y as [[d2 Y]|[c Y]]; [|specialize (H []); cbn in H; rewrite Hg in H; cbn [rbind] in H; rewrite Y in H; discriminate].
      exists d2. split; [exact Y|]. specialize (H []). cbn [chain_res] in H. rewrite Hg in H. cbn [rbind] in H. rewrite Y in H. inversion H. reflexivity. }
    destruct X as (d2 & H2 & ->). destruct (IH d2 Hl H2) as (ds & Hds & ->). exists (d1 :: ds). split; [constructor; assumption|reflexivity].
Qed.
Lemma chain_of l ds : Forall2 gives l ds -> gives (fun b => chain_res b l) (concat ds).
Proof.
  induction 1 as [|g d l ds Hg _ IH]; intros b; [cbn; rewrite app_nil_r; reflexivity|]. cbn [chain_res concat].
  rewrite Hg. cbn [rbind]. rewrite IH, app_assoc. reflexivity.
Qed.
Lemma chain_appends l : Forall appends l -> appends (fun b => chain_res b l).
Proof.
  intros H. induction H as [|g l Hg _ IH]; [apply keep_gives|]. cbn [chain_res].
  destruct Hg as [[d1 Hg]|[c Hg]]; [|right; exists c; intros b; rewrite Hg; reflexivity].
  destruct IH as [[d2 IH]|[c IH]]; [left; exists (d1 ++ d2)|right; exists c]; intros b; rewrite Hg; cbn [rbind]; rewrite IH; [rewrite app_assoc|]; reflexivity.
Qed.
(** [r'] writes a rearrangement of what [r] writes. *)
Definition follows (r r' : bytes -> res bytes) : Prop := forall d, gives r d -> exists d', gives r' d' /\ Permutation d d'.
Lemma chain_follows l l' : Forall appends l -> Forall2 follows l l' -> follows (fun b => chain_res b l) (fun b => chain_res b l').
Proof.
  intros Ha H d Hd. destruct (chain_gives l d Ha Hd) as (ds & Hds & ->). clear Hd Ha. revert ds Hds.
  induction H as [|r r' l l' Hr _ IH]; intros ds Hds; inversion Hds; subst.
  - exists []. split; [apply (chain_of [] []); constructor|constructor].
  - destruct (Hr _ H1) as (d1 & A & B). destruct (IH _ H3) as (d2 & A2 & B2). exists (d1 ++ d2). split; [|cbn; apply Permutation_app; assumption].
    intros b. cbn [chain_res]. rewrite A. cbn [rbind]. rewrite A2, app_assoc. reflexivity.
Qed.
Lemma concat_perm {A} (l l' : list (list A)) : Permutation l l' -> Permutation (concat l) (concat l').
Proof.
  induction 1 as [|x l l' _ IH|x y l|l l' l'' _ IH1 _ IH2]; cbn; [constructor|apply Permutation_app_head; exact IH| |eapply Permutation_trans; eassumption].
  rewrite !app_assoc. apply Permutation_app_tail, Permutation_app_comm.
Qed.
Lemma chain_perm l l' : Forall appends l -> Permutation l l' -> follows (fun b => chain_res b l) (fun b => chain_res b l').
Proof.
  intros Ha H d Hd. destruct (chain_gives l d Ha Hd) as (ds & Hds & ->). clear Hd.
  destruct (Permutation_Forall2 H Hds) as (ds' & P & F). exists (concat ds'). split; [apply chain_of; exact F|apply concat_perm; exact P].
Qed.

Section Order.
Context {R I : Type}.
Variable look : R -> cbody R I.
Variable iget : I -> sinfo R.

Lemma fields_size_leads sub sub' (fs : list (sfield R)) n :
  (forall j, match sub j, sub' j with Some g, Some g' => forall c f, leads (g c f) (g' c f) | None, None => True | _, _ => False end) ->
  fields_size sub fs = OK n -> fields_size sub' fs = OK n.
Proof.
  intros H. revert n. induction fs as [|f fs IH]; intros n; [auto|]. cbn [fields_size]. specialize (H (f_idx f)).
  destruct (sub (f_idx f)) as [g|], (sub' (f_idx f)) as [g'|]; try contradiction; try discriminate.
  destruct (g (f_codec f) (f_meta f)) as [a|] eqn:E; [|discriminate]. rewrite (H _ _ a E). cbn [rbind].
  destruct (fields_size sub fs) as [m|] eqn:Em; [|discriminate]. cbn [rbind]. rewrite (IH m eq_refl). auto.
Qed.
Lemma nth_F2 {A B} (P : A -> B -> Prop) l l' j : Forall2 P l l' ->
  match nth_error l j, nth_error l' j with Some x, Some y => P x y | None, None => True | _, _ => False end.
Proof. intros H. revert j. induction H; intros [|j]; cbn; auto. apply IHForall2. Qed.

Lemma sz_reorder : forall v w, reorder v w -> forall c f, leads (sz look iget v c f) (sz look iget w c f).
Proof.
  assert (X : forall v w, reorder v w ->
    (forall c f, leads (sz look iget v c f) (sz look iget w c f)) /\
    match v, w with VStruct a, VStruct b => Forall2 (fun x y => forall c f, leads (sz look iget x c f) (sz look iget y c f)) a b | VStruct _, _ | _, VStruct _ => False | _, _ => True end);
    [|intros v w H; apply X; exact H].
  apply reorder_ind'.
  - intros v. split; [intros c f n E; exact E|]. destruct v; auto. apply Forall2_same. intros x c f n E. exact E.
  - intros nn a b spare Hr H. split; [|exact Logic.I]. intros c f n. cbn [sz]. destruct (look c); auto.
    + rewrite (size_leaf s _ (VSlice nn b spare)) by (constructor; exact Hr). auto.
    + apply sum_leads. clear Hr. induction H as [|x y a b [Hx _] _ IH]; constructor; [apply Hx|exact IH].
  - intros a b c0 Hp Hr H. split; [|exact Logic.I]. intros c f n. cbn [sz]. destruct (look c); auto.
    + rewrite (size_leaf s _ (VMap (Some c0))) by (econstructor; eassumption). auto.
    + match goal with |- rbind (sum_res (map ?g a)) _ = _ -> _ => set (h := g) end.
      destruct (sum_res (map h a)) as [m|] eqn:E; [|discriminate]. apply (sum_perm _ (map h b)) in E; [|apply Permutation_map; exact Hp].
      assert (E' : sum_res (map h c0) = OK m).
      { revert E. apply sum_leads. clear Hr Hp. induction H as [|[k x] [k' y] b c0 [Ek [Hx _]] _ IH]; constructor; [|exact IH]. cbn [fst snd] in *. subst k'.
        unfold h. intros q. destruct (sz look iget k (f_codec kf) (f_meta kf)); [|discriminate]. cbn [rbind].
        destruct (sz look iget x (f_codec vf) (f_meta vf)) eqn:Ex; [|discriminate]. rewrite (Hx _ _ _ Ex). auto. }
      rewrite E'. auto.
  - intros a b Hr [Hx Hf]. split; [|exact Logic.I]. intros c f n. cbn [sz]. destruct (look c); auto.
    + rewrite (size_leaf s _ (VPtr (Some b))) by (constructor; exact Hr). auto.
    + apply Hx.
    + match goal with |- rbind (fields_size ?s1 ?l) _ = _ -> rbind (fields_size ?s2 ?l) _ = _ =>
        destruct (fields_size s1 l) as [m|] eqn:E; [|discriminate]; assert (E' : fields_size s2 l = OK m) end; [|rewrite E'; auto].
      revert E. apply fields_size_leads. intros j. destruct a, b; try contradiction; try (destruct j; exact Logic.I).
      rewrite !nth_error_map. pose proof (nth_F2 _ _ _ j Hf) as N. destruct (nth_error fs j), (nth_error fs0 j); cbn; auto.
  - intros a b Hr H. split; [|eapply Forall2_impl; [|exact H]; intros x y [A _]; exact A]. intros c f n. cbn [sz]. destruct (look c); auto.
    rewrite (size_leaf s _ (VStruct b)) by (constructor; exact Hr). auto.
Qed.
Lemma reorder_fields v w j : reorder v w ->
  match get_field v j, get_field w j with Some x, Some y => reorder x y | None, None => True | _, _ => False end.
Proof.
  intros H. destruct H; cbn; auto.
  - destruct (get_field v j); [apply ro_same|exact Logic.I].
  - apply nth_F2. assumption.
Qed.
Lemma struct_size_reorder i v w n : reorder v w -> struct_size look iget i v = OK n -> struct_size look iget i w = OK n.
Proof.
  intros H. unfold struct_size. apply fields_size_leads. intros j. pose proof (reorder_fields v w j H) as F.
  destruct (get_field v j), (get_field w j); cbn; auto. intros c f. apply sz_reorder. exact F.
Qed.

(** ** Encoding appends *)
Lemma rbind_appends {A} (r : res A) (g : A -> bytes -> res bytes) : (forall a, appends (g a)) -> appends (fun b => rbind r (fun a => g a b)).
Proof. intros H. destruct r; [apply H|apply cr_gives]. Qed.
Lemma comp_appends (g h : bytes -> res bytes) : appends g -> appends h -> appends (fun b => rbind (g b) h).
Proof.
  intros [[d Hg]|[c Hg]] Hh; [|right; exists c; intros b; rewrite Hg; reflexivity].
  destruct Hh as [[e Hh]|[c Hh]]; [left; exists (d ++ e)|right; exists c]; intros b; rewrite Hg; cbn [rbind]; rewrite Hh; [rewrite app_assoc|]; reflexivity.
Qed.
Lemma pre_appends p g : appends g -> appends (fun b => g (b ++ p)).
Proof. intros [[d H]|[c H]]; [left; exists (p ++ d)|right; exists c]; intros b; rewrite H; [rewrite app_assoc|]; reflexivity. Qed.
Lemma varint_pre v g : appends g -> appends (fun b => g (appendVarint b v)).
Proof. intros H. eapply appends_ext; [|apply (pre_appends (appendVarint [] v) g H)]. intros b. cbn beta. rewrite appendVarint_app. reflexivity. Qed.
Lemma fields_appends sub (fs : list (sfield R)) : (forall j g, sub j = Some g -> forall c f, appends (fun b => g b c f)) ->
  appends (fun b => fields_encode sub b fs).
Proof.
  intros H. induction fs as [|f fs IH]; [apply keep_gives|]. cbn [fields_encode]. destruct (sub (f_idx f)) as [g|] eqn:E; [|apply cr_gives].
  apply comp_appends; [eapply H; eassumption|exact IH].
Qed.
Definition entry_enc (tag : N) (kf vf : sfield R) (kv : val * val) (b : bytes) : res bytes :=
  match kv with (k, x) =>
     keySize <- sz look iget k (f_codec kf) (f_meta kf) ;;
     valSize <- sz look iget x (f_codec kf) (f_meta vf) ;;
     b <- enc look iget k (appendVarint (b ++ appendVarint [] tag) (u64 (keySize + valSize))) (f_codec kf) (f_meta kf) ;;
     enc look iget x b (f_codec vf) (f_meta vf) end.
Lemma entry_appends tag kf vf k x : (forall c f, appends (fun b => enc look iget k b c f)) -> (forall c f, appends (fun b => enc look iget x b c f)) ->
  appends (entry_enc tag kf vf (k, x)).
Proof.
  intros Hk Hx. unfold entry_enc. apply rbind_appends. intros n. apply rbind_appends. intros m. apply comp_appends; [|apply Hx].
  apply (pre_appends _ (fun b => enc look iget k (appendVarint b (u64 (n + m))) (f_codec kf) (f_meta kf))).
  apply (varint_pre _ (fun b => enc look iget k b (f_codec kf) (f_meta kf))). apply Hk.
Qed.
Lemma tail_appends (g : bytes -> res bytes) t : appends g -> appends (fun b => b' <- g b ;; OK (if zlen b' =? zlen b then b' ++ t else b')).
Proof.
  intros [[d H]|[c H]]; [|right; exists c; intros b; rewrite H; reflexivity]. left.
  exists (d ++ (if zlen d =? 0 then t else [])). intros b. rewrite H. cbn [rbind]. rewrite zlen_app.
  replace (zlen b + zlen d =? zlen b) with (zlen d =? 0) by (destruct (Z.eqb_spec (zlen d) 0), (Z.eqb_spec (zlen b + zlen d) (zlen b)); lia).
  destruct (zlen d =? 0); rewrite ?app_nil_r, ?app_assoc; reflexivity.
Qed.
Lemma enc_appends : forall v c f, appends (fun b => enc look iget v b c f).
Proof.
  induction v as [v IH] using val_ind2; intros c f.
  destruct v; cbn [enc]; destruct (look c); try apply cr_gives; try apply leaf_appends.
  - apply chain_appends. rewrite Forall_map. eapply Forall_impl; [|apply IH]. cbn beta. intros a Ha. apply Ha.
  - destruct m as [l|].
    + apply (tail_appends (fun b => chain_res b (map (entry_enc tag kf vf) l))). apply chain_appends. rewrite Forall_map.
      eapply Forall_impl; [|exact IH]. intros [k x] [A B]. apply entry_appends; assumption.
    + apply (tail_appends (fun b => chain_res b [])). apply keep_gives.
  - destruct o as [x|]; [apply IH|apply keep_gives].
  - destruct o as [x|]; [|apply keep_gives]. apply rbind_appends. intros n.
    apply (varint_pre _ (fun b => fields_encode _ (appendVarint b (u64 n)) _)). apply (varint_pre _ (fun b => fields_encode _ b _)).
    apply fields_appends. intros j g Hg. destruct IH as [_ IH]. destruct x; try (destruct j; discriminate).
    rewrite nth_error_map in Hg. destruct (nth_error fs j) as [y|] eqn:E; [|discriminate]. inversion Hg; subst. apply nth_error_In in E.
    rewrite Forall_forall in IH. intros. apply IH. exact E.
Qed.

(** ** Encoding follows *)
Lemma follows_refl g : follows g g.
Proof. intros d H. exists d. auto. Qed.
Lemma follows_trans f g h : follows f g -> follows g h -> follows f h.
Proof. intros A B d H. destruct (A d H) as (d1 & H1 & P1). destruct (B d1 H1) as (d2 & H2 & P2). exists d2. split; [exact H2|eapply Permutation_trans; eassumption]. Qed.
Lemma follows_ext f f' g g' : (forall b, f b = f' b) -> (forall b, g b = g' b) -> follows f' g' -> follows f g.
Proof. intros A B H d Hd. destruct (H d) as (d' & H' & P); [intros b; rewrite <- A; apply Hd|]. exists d'. split; [intros b; rewrite B; apply H'|exact P]. Qed.
Lemma cr_follows c g : follows (fun _ => CR c) g.
Proof. intros d H. specialize (H []). discriminate. Qed.
Lemma comp_follows g g' h h' : appends g -> appends h -> follows g g' -> follows h h' -> follows (fun b => rbind (g b) h) (fun b => rbind (g' b) h').
Proof.
  intros Ag Ah Hg Hh d H. destruct Ag as [[d1 G]|[c G]]; [|specialize (H []); cbn beta in H; rewrite G in H; discriminate].
  destruct Ah as [[d2 K]|[c K]]; [|specialize (H []); cbn beta in H; rewrite G in H; cbn in H; rewrite K in H; discriminate].
  destruct (Hg d1 G) as (e1 & G' & P1). destruct (Hh d2 K) as (e2 & K' & P2). exists (e1 ++ e2). split.
  - intros b. rewrite G'. cbn. rewrite K', app_assoc. reflexivity.
  - specialize (H []). cbn beta in H. rewrite G in H. cbn in H. rewrite K in H. inversion H. cbn. apply Permutation_app; assumption.
Qed.
Lemma pre_follows p g g' : appends g -> follows g g' -> follows (fun b => g (b ++ p)) (fun b => g' (b ++ p)).
Proof.
  intros A H d Hd. destruct A as [[d1 G]|[c G]]; [|specialize (Hd []); cbn beta in Hd; rewrite G in Hd; discriminate].
  destruct (H d1 G) as (e & G' & P). exists (p ++ e). split; [intros b; rewrite G', app_assoc; reflexivity|].
  specialize (Hd []). cbn beta in Hd. rewrite G in Hd. inversion Hd. apply Permutation_app_head. exact P.
Qed.
Lemma varint_follows v g g' : appends g -> follows g g' -> follows (fun b => g (appendVarint b v)) (fun b => g' (appendVarint b v)).
Proof.
  intros A H. eapply follows_ext; [| |apply (pre_follows (appendVarint [] v) g g' A H)]; intros b; cbn beta; rewrite appendVarint_app; reflexivity.
Qed.
Lemma fields_follow sub sub' (fs : list (sfield R)) : (forall j g, sub j = Some g -> forall c f, appends (fun b => g b c f)) ->
  (forall j, match sub j, sub' j with Some g, Some g' => forall c f, follows (fun b => g b c f) (fun b => g' b c f) | None, None => True | _, _ => False end) ->
  follows (fun b => fields_encode sub b fs) (fun b => fields_encode sub' b fs).
Proof.
  intros Ha H. induction fs as [|f fs IH]; [apply follows_refl|]. cbn [fields_encode]. pose proof (H (f_idx f)) as Hf.
  destruct (sub (f_idx f)) as [g|] eqn:E, (sub' (f_idx f)) as [g'|]; try contradiction; [|apply cr_follows].
  apply (comp_follows (fun b => g b (f_codec f) (f_meta f)) (fun b => g' b (f_codec f) (f_meta f))); [eapply Ha; eassumption|apply fields_appends; exact Ha|apply Hf|exact IH].
Qed.
Lemma tail_follows g g' t : appends g -> follows g g' ->
  follows (fun b => b' <- g b ;; OK (if zlen b' =? zlen b then b' ++ t else b')) (fun b => b' <- g' b ;; OK (if zlen b' =? zlen b then b' ++ t else b')).
Proof.
  intros A H d Hd. destruct A as [[d1 G]|[c G]]; [|specialize (Hd []); cbn beta in Hd; rewrite G in Hd; discriminate].
  destruct (H d1 G) as (e & G' & P). assert (L : zlen e = zlen d1) by (unfold zlen; f_equal; symmetry; apply Permutation_length; exact P).
  assert (Z : forall b x : bytes, (zlen (b ++ x) =? zlen b) = (zlen x =? 0))
    by (intros b x; rewrite zlen_app; destruct (Z.eqb_spec (zlen x) 0), (Z.eqb_spec (zlen b + zlen x) (zlen b)); lia).
  exists (e ++ (if zlen e =? 0 then t else [])). split.
  - intros b. rewrite G'. cbn [rbind]. rewrite Z. destruct (zlen e =? 0); rewrite ?app_nil_r, ?app_assoc; reflexivity.
  - specialize (Hd []). cbn beta in Hd. rewrite G in Hd. cbn [rbind] in Hd. rewrite Z in Hd. rewrite L. destruct (zlen d1 =? 0); inversion Hd; subst; cbn; rewrite ?app_nil_r; [apply Permutation_app_tail|]; exact P.
Qed.
Lemma leaf_follows s v w f : reorder v w -> follows (fun b => l_encode (static s) b v f) (fun b => l_encode (static s) b w f).
Proof.
  intros H. destruct (reorder_leaf v w H) as [->|[A B]]; [apply follows_refl|]. intros d Hd. specialize (Hd []). cbn beta in Hd. rewrite (encode_composite s [] v f A) in Hd. discriminate.
Qed.

Lemma enc_reorder : forall v w, reorder v w -> forall c f, follows (fun b => enc look iget v b c f) (fun b => enc look iget w b c f).
Proof.
  assert (X : forall v w, reorder v w ->
    (forall c f, follows (fun b => enc look iget v b c f) (fun b => enc look iget w b c f)) /\
    match v, w with VStruct a, VStruct b => Forall2 (fun x y => forall c f, follows (fun b => enc look iget x b c f) (fun b => enc look iget y b c f)) a b | VStruct _, _ | _, VStruct _ => False | _, _ => True end);
    [|intros v w H; apply X; exact H].
  apply reorder_ind'.
  - intros v. split; [intros c f; apply follows_refl|]. destruct v; auto. apply Forall2_same. intros x c f. apply follows_refl.
  - intros nn a b spare Hr H. split; [|exact Logic.I]. intros c f. cbn [enc]. destruct (look c); try apply cr_follows.
    + apply leaf_follows. constructor. exact Hr.
    + apply chain_follows; [rewrite Forall_map; apply Forall_forall; intros x _; apply enc_appends|].
      clear Hr. induction H as [|x y a b [Hx _] _ IH]; constructor; [apply Hx|exact IH].
  - intros a b c0 Hp Hr H. split; [|exact Logic.I]. intros c f. cbn [enc]. destruct (look c); try apply cr_follows.
    + apply leaf_follows. econstructor; eassumption.
    + apply (tail_follows (fun b => chain_res b (map (entry_enc tag kf vf) a)) (fun b => chain_res b (map (entry_enc tag kf vf) c0))).
      * apply chain_appends. rewrite Forall_map. apply Forall_forall. intros [k x] _. apply entry_appends; apply enc_appends.
      * apply (follows_trans _ (fun b0 => chain_res b0 (map (entry_enc tag kf vf) b))).
        { apply chain_perm; [|apply Permutation_map; exact Hp]. rewrite Forall_map. apply Forall_forall. intros [k x] _. apply entry_appends; apply enc_appends. }
        apply chain_follows; [rewrite Forall_map; apply Forall_forall; intros [k x] _; apply entry_appends; apply enc_appends|].
        clear Hp. induction H as [|[k x] [k' y] b c0 [Ek [Hx _]] _ IH]; constructor; [|inversion Hr; subst; apply IH; assumption]. cbn [fst snd] in *. subst k'.
        unfold entry_enc. destruct (sz look iget k (f_codec kf) (f_meta kf)) as [n|]; [|apply cr_follows]. cbn [rbind].
        destruct (sz look iget x (f_codec kf) (f_meta vf)) as [m|] eqn:Em; [|apply cr_follows]. cbn [rbind].
        inversion Hr as [|? ? ? ? [_ Hxy] _]; subst. cbn [snd] in Hxy. rewrite (sz_reorder _ _ Hxy _ _ _ Em). cbn [rbind].
        apply comp_follows; [|apply enc_appends|apply follows_refl|apply Hx].
        apply (pre_appends _ (fun b => enc look iget k (appendVarint b (u64 (n + m))) (f_codec kf) (f_meta kf))).
        apply (varint_pre _ (fun b => enc look iget k b (f_codec kf) (f_meta kf))). apply enc_appends.
  - intros a b Hr [Hx Hf]. split; [|exact Logic.I]. intros c f. cbn [enc]. destruct (look c); try apply cr_follows.
    + apply leaf_follows. constructor. exact Hr.
    + apply Hx.
    + destruct (struct_size look iget i a) as [n|] eqn:E; [|apply cr_follows]. rewrite (struct_size_reorder i a b n Hr E). cbn [rbind].
      assert (Ha : forall j g, nth_error match a with VStruct fs => map (fun y => enc look iget y) fs | _ => [] end j = Some g -> forall c f, appends (fun b => g b c f)).
      { intros j g Hg. destruct a; try (destruct j; discriminate). rewrite nth_error_map in Hg. destruct (nth_error fs j); inversion Hg. intros. apply enc_appends. }
      apply (varint_follows _ (fun b => fields_encode _ (appendVarint b (u64 n)) _) (fun b => fields_encode _ (appendVarint b (u64 n)) _));
        [apply (varint_pre _ (fun b => fields_encode _ b _)); apply fields_appends; exact Ha|].
      apply (varint_follows _ (fun b => fields_encode _ b _) (fun b => fields_encode _ b _)); [apply fields_appends; exact Ha|].
      apply fields_follow; [exact Ha|]. intros j. destruct a, b; try contradiction; try (destruct j; exact Logic.I).
      rewrite !nth_error_map. pose proof (nth_F2 _ _ _ j Hf) as N. destruct (nth_error fs j), (nth_error fs0 j); cbn; auto.
  - intros a b Hr H. split; [|eapply Forall2_impl; [|exact H]; intros x y [A _]; exact A]. intros c f. cbn [enc]. destruct (look c); try apply cr_follows.
    apply leaf_follows. constructor. exact Hr.
Qed.
Lemma struct_encode_reorder i v w : reorder v w -> follows (fun b => struct_encode look iget i b v) (fun b => struct_encode look iget i b w).
Proof.
  intros H. unfold struct_encode. apply fields_follow.
  - intros j g Hg. destruct (get_field v j); inversion Hg. intros. apply enc_appends.
  - intros j. pose proof (reorder_fields v w j H) as F. destruct (get_field v j), (get_field w j); cbn; auto. intros c f. apply enc_reorder. exact F.
Qed.
Lemma struct_encode_appends i v : appends (fun b => struct_encode look iget i b v).
Proof. apply fields_appends. intros j g Hg. destruct (get_field v j); inversion Hg. intros. apply enc_appends. Qed.
End Order.

Lemma size_order_proof D k x y s s' n : reorder x y -> Size D (IPtr k (Some x)) s = (Returns n, s') -> Size D (IPtr k (Some y)) s = (Returns n, s').
Proof.
  intros H. cbn [Size]. unfold with_info. destruct (run _ s) as [[i| |] t]; try discriminate. cbn [info_size].
  destruct (struct_size (hlook t) (higet t) i x) as [m|] eqn:E; [|discriminate]. rewrite (struct_size_reorder _ _ i x y m H E). auto.
Qed.
Lemma marshal_order_proof D k x y s s' b : reorder x y -> Marshal D (IPtr k (Some x)) s = (Returns (Some b, None), s') ->
  exists b', Marshal D (IPtr k (Some y)) s = (Returns (Some b', None), s') /\ Permutation b b'.
Proof.
  intros H. cbn [Marshal]. unfold with_info. destruct (run _ s) as [[i| |] t]; try discriminate. cbn [info_size info_encode].
  destruct (struct_size (hlook t) (higet t) i x) as [m|] eqn:E; [|discriminate]. rewrite (struct_size_reorder _ _ i x y m H E). cbn [rbind].
  destruct (struct_encode (hlook t) (higet t) i [] x) as [b1|] eqn:E1; [|discriminate]. intros X. inversion X; subst.
  destruct (struct_encode_appends (hlook s') (higet s') i x) as [[d G]|[c G]]; [|rewrite G in E1; discriminate].
  destruct (struct_encode_reorder (hlook s') (higet s') i x y H d G) as (d' & G' & P). exists d'. rewrite (G' []). split; [reflexivity|].
  rewrite G in E1. inversion E1; subst. exact P.
Qed.
