(** Sizes and encodings with an order of its own for every loop over a map: the
    possible results are those of the fixed order on rearranged values. *)
From Coq Require Import Permutation.
From Verif Require Import Base Wire GoType Leaf Codec Tag Walker Api Resolve Typing SpecWire SpecMsg SpecOrder WireFacts CodecSim
  TypingFacts WalkInv WalkSpec WalkSeq Order OrderFacts.
Local Open Scope Z_scope.

Lemma F2_flip {A B} (P : A -> B -> Prop) l l' : Forall2 P l l' -> Forall2 (fun y x => P x y) l' l.
Proof. induction 1; constructor; auto. Qed.
Lemma reorder_sym v w : reorder v w -> reorder w v.
Proof.
  revert v w. apply reorder_ind'.
  - constructor.
  - intros nn a b spare _ H. constructor. induction H; constructor; auto.
  - intros a b c Hp _ H. destruct (Permutation_Forall2 (Permutation_sym Hp) H) as (c' & P & F).
    econstructor; [exact P|]. apply F2_flip in F. eapply Forall2_impl; [|exact F]. intros p q [E X]. split; [symmetry; exact E|exact X].
  - constructor. assumption.
  - intros a b _ H. constructor. induction H; constructor; auto.
Qed.

Section Any.
Context {R I : Type}.
Variable look : R -> cbody R I.
Variable iget : I -> sinfo R.
Notation sz := (sz look iget).
Notation enc := (enc look iget).
Notation nsz := (nsz look iget).
Notation nenc := (nenc look iget).

(** ** Sizes *)
Lemma sum_all l ns : Forall2 (fun r n => r = OK n) l ns -> sum_res l = OK (zsum ns).
Proof. induction 1 as [|r n l ns -> _ IH]; [reflexivity|]. cbn [sum_res]. rewrite IH. reflexivity. Qed.
Lemma sum_inv l n : sum_res l = OK n -> exists ns, Forall2 (fun r n => r = OK n) l ns /\ n = zsum ns.
Proof.
  revert n. induction l as [|r l IH]; intros n; cbn [sum_res].
  - intros H. inversion H. exists []. split; [constructor|reflexivity].
  - destruct r as [a|]; [|discriminate]. cbn [rbind]. destruct (sum_res l) as [m|]; [|discriminate]. intros H. inversion H; subst.
    destruct (IH m eq_refl) as (ns & F & ->). exists (a :: ns). split; [constructor; auto|reflexivity].
Qed.
Lemma fields_sum (sub : nat -> option (R -> fmeta -> res Z)) fs ns :
  Forall2 (fun fl n => exists g, sub (f_idx fl) = Some g /\ g (f_codec fl) (f_meta fl) = OK n) fs ns <->
  length ns = length fs /\ fields_size sub fs = OK (zsum ns) /\ Forall2 (fun fl n => match sub (f_idx fl) with Some g => g (f_codec fl) (f_meta fl) = OK n | None => False end) fs ns.
Proof.
  split.
  - induction 1 as [|fl n fs ns (g & E & H) _ (IH1 & IH2 & IH3)]; [repeat split; constructor|]. cbn [fields_size length]. rewrite IH1, E, H, IH2.
    repeat split. constructor; [rewrite E; exact H|exact IH3].
  - intros (_ & _ & H). eapply Forall2_impl; [|exact H]. cbn beta. intros fl n X. destruct (sub (f_idx fl)) as [g|]; [exists g; auto|contradiction].
Qed.
Lemma fields_inv (sub : nat -> option (R -> fmeta -> res Z)) fs n : fields_size sub fs = OK n ->
  exists ns, Forall2 (fun fl n => exists g, sub (f_idx fl) = Some g /\ g (f_codec fl) (f_meta fl) = OK n) fs ns /\ n = zsum ns.
Proof.
  revert n. induction fs as [|fl fs IH]; intros n; cbn [fields_size].
  - intros H. inversion H. exists []. split; [constructor|reflexivity].
  - destruct (sub (f_idx fl)) as [g|] eqn:E; [|discriminate]. destruct (g (f_codec fl) (f_meta fl)) as [a|] eqn:Ea; [|discriminate]. cbn [rbind].
    destruct (fields_size sub fs) as [m|]; [|discriminate]. intros H. inversion H; subst.
    destruct (IH m eq_refl) as (ns & F & ->). exists (a :: ns). split; [constructor; eauto|reflexivity].
Qed.
(** The functions for the fields of a struct, as [sz] and [enc] index them. *)
Lemma subs_sz x j g : nth_error match x with VStruct fs => map (fun y => sz y) fs | _ => [] end j = Some g <-> exists y, get_field x j = Some y /\ g = sz y.
Proof.
  destruct x; try (split; [destruct j; discriminate|intros (y & H & _); discriminate]). cbn [get_field]. rewrite nth_error_map.
  destruct (nth_error fs j); cbn; split; try discriminate; try (intros (y & H & _); discriminate).
  - intros H. inversion H. eauto.
  - intros (y & H & ->). inversion H. reflexivity.
Qed.

Lemma perm_F2 {A B} (P : A -> B -> Prop) l l' ns : Permutation l l' -> Forall2 P l' ns -> exists ns', Forall2 P l ns' /\ Permutation ns ns'.
Proof. intros H F. destruct (Permutation_Forall2 (Permutation_sym H) F) as (ns' & X & Y). exists ns'. auto. Qed.
Lemma zsum_perm l l' : Permutation l l' -> zsum l = zsum l'.
Proof. unfold zsum. induction 1; cbn [fold_right] in *; lia. Qed.

Definition field_of (P : val -> Prop) (v : val) : Prop := forall j y, get_field v j = Some y -> P y.
Lemma below_fields P v : below P v -> field_of P v.
Proof.
  intros [_ H] j y Hy. destruct v; try discriminate. cbn in Hy. apply nth_error_In in Hy. rewrite Forall_forall in H. auto.
Qed.

Lemma nsz_sz : forall v c f n, nsz v c f n <-> sz v c f = OK n.
Proof.
  induction v as [v IH] using val_ind2; intros c f n. split; intros H.
  - inversion H as [v0 c0 f0 s n0 E L|c0 f0 t c' E|x c0 f0 t c' n0 E X|nn items spare c0 f0 t c' ns E F|c0 f0 k i E|x c0 f0 k i ns E F|m l c0 f0 tag kf vf e i ns E P F]; subst.
    + destruct v; cbn [Codec.sz]; rewrite E; exact L.
    + cbn [Codec.sz]. rewrite E. reflexivity.
    + cbn [Codec.sz]. rewrite E. apply IH. exact X.
    + cbn [Codec.sz]. rewrite E. apply sum_all. destruct IH as [IH _]. clear H. induction F as [|x m items ns X F IHF]; [constructor|].
      inversion IH; subst. cbn [map]. constructor; auto. apply H1. exact X.
    + cbn [Codec.sz]. rewrite E. reflexivity.
    + cbn [Codec.sz]. rewrite E. apply below_fields in IH.
      assert (X : fields_size (nth_error match x with VStruct fs => map (fun y => sz y) fs | _ => [] end) (i_fields (iget i)) = OK (zsum ns)).
      { apply (proj1 (fields_sum _ _ _)). eapply Forall2_impl; [|exact F]. cbn beta. intros fl m (y & Hy & X). exists (sz y). split; [apply subs_sz; eauto|].
        apply (IH _ _ Hy). exact X. }
      cbv zeta. rewrite X. reflexivity.
    + cbn [Codec.sz]. rewrite E. cbv zeta. destruct (perm_F2 _ _ _ _ P F) as (ns' & F' & P'). rewrite (zsum_perm _ _ P').
      replace (sum_res _) with (OK (zsum ns')); [reflexivity|]. symmetry. apply sum_all.
      destruct m as [l0|]; [|inversion F'; subst; constructor]. cbn [entries] in F'. clear H P P' F.
      induction F' as [|[k x] m l0 ns' (a & b & X & Y & ->) F IHF]; [constructor|]. inversion IH as [|? ? [A B] IH']; subst. cbn [fst snd map] in *. constructor; [|apply IHF; exact IH'].
      apply A in X. apply B in Y. rewrite X, Y. reflexivity.
  - destruct v; cbn [Codec.sz] in H; destruct (look c) eqn:E; try discriminate; try (econstructor; eassumption).
    + apply sum_inv in H. destruct H as (ns & F & ->). eapply ns_slice; [exact E|]. destruct IH as [IH _].
      revert ns F. induction IH as [|x items Hx _ IHl]; intros ns F; inversion F; subst; constructor; [apply Hx; assumption|apply IHl; assumption].
    + cbv zeta in H. destruct (sum_res _) as [q|] eqn:Q; [|discriminate]. cbn [rbind] in H. inversion H; subst. apply sum_inv in Q. destruct Q as (ns & F & ->).
      eapply ns_map; [exact E|apply Permutation_refl|]. destruct m as [l|]; [|inversion F; subst; constructor]. cbn [entries].
      clear H. revert ns F. induction IH as [|[k x] l [A B] _ IHl]; intros ns F; inversion F as [|? ? ? ? X F']; subst; constructor; [|apply IHl; assumption].
      cbn [fst snd] in *. destruct (sz k (f_codec kf) (f_meta kf)) as [a|] eqn:Ea; [|discriminate]. cbn [rbind] in X.
      destruct (sz x (f_codec vf) (f_meta vf)) as [b|] eqn:Eb; [|discriminate]. cbn [rbind] in X. inversion X. exists a, b.
      split; [apply A; exact Ea|]. split; [apply B; exact Eb|reflexivity].
    + destruct o as [x|]; [|inversion H; eapply ns_nilptr; exact E]. eapply ns_ptr; [exact E|]. apply IH. exact H.
    + destruct o as [x|]; [|inversion H; eapply ns_nilmsg; exact E]. cbv zeta in H. destruct (fields_size _ _) as [q|] eqn:Q; [|discriminate].
      cbn [rbind] in H. inversion H; subst. apply fields_inv in Q. destruct Q as (ns & F & ->). eapply ns_msg; [exact E|].
      eapply Forall2_impl; [|exact F]. cbn beta. intros fl m (g & G & X). apply subs_sz in G. destruct G as (y & Hy & ->). exists y. split; [exact Hy|].
      apply (below_fields _ _ IH _ _ Hy). exact X.
Qed.
Lemma nstruct_sz i x n : nstruct_size look iget i x n <-> struct_size look iget i x = OK n.
Proof.
  unfold nstruct_size, struct_size. split.
  - intros (ns & F & ->). apply (proj1 (fields_sum _ _ _)). eapply Forall2_impl; [|exact F]. cbn beta. intros fl m (y & Hy & X).
    rewrite Hy. exists (sz y). split; [reflexivity|]. apply nsz_sz. exact X.
  - intros H. apply fields_inv in H. destruct H as (ns & F & ->). exists ns. split; [|reflexivity]. eapply Forall2_impl; [|exact F]. cbn beta.
    intros fl m (g & G & X). destruct (get_field x (f_idx fl)) as [y|]; [|discriminate]. inversion G; subst. exists y. split; [reflexivity|]. apply nsz_sz. exact X.
Qed.

(** ** Encodings *)
Lemma nil_gives g d : appends g -> g [] = OK d -> gives g d.
Proof. intros [[e H]|[c H]] E; rewrite H in E; inversion E; subst. exact H. Qed.
Lemma comp_gives (g h : bytes -> res bytes) d : appends g -> appends h -> gives (fun b => rbind (g b) h) d ->
  exists p q, gives g p /\ gives h q /\ d = p ++ q.
Proof.
  intros [[p Hg]|[c Hg]] Hh H; [|specialize (H []); cbn beta in H; rewrite Hg in H; discriminate].
  destruct Hh as [[q Hh]|[c Hh]]; [|specialize (H []); cbn beta in H; rewrite Hg in H; cbn in H; rewrite Hh in H; discriminate].
  exists p, q. split; [exact Hg|]. split; [exact Hh|]. specialize (H []). cbn beta in H. rewrite Hg in H. cbn in H. rewrite Hh in H. inversion H. reflexivity.
Qed.
Lemma gives_comp (g h : bytes -> res bytes) p q : gives g p -> gives h q -> gives (fun b => rbind (g b) h) (p ++ q).
Proof. intros Hg Hh b. rewrite Hg. cbn [rbind]. rewrite Hh, app_assoc. reflexivity. Qed.
Lemma pre_gives p g d : appends g -> gives (fun b => g (b ++ p)) d -> exists q, gives g q /\ d = p ++ q.
Proof.
  intros [[q Hg]|[c Hg]] H; [|specialize (H []); cbn beta in H; rewrite Hg in H; discriminate].
  exists q. split; [exact Hg|]. specialize (H []). cbn beta in H. rewrite Hg in H. inversion H. reflexivity.
Qed.
Lemma gives_pre p g q : gives g q -> gives (fun b => g (b ++ p)) (p ++ q).
Proof. intros H b. rewrite H, app_assoc. reflexivity. Qed.
Lemma gives_ext r r' d : (forall b, r b = r' b) -> gives r' d -> gives r d.
Proof. intros E H b. rewrite E. apply H. Qed.
Lemma fields_gives (sub : nat -> option (bytes -> R -> fmeta -> res bytes)) fs : forall d,
  (forall j g, sub j = Some g -> forall c f, appends (fun b => g b c f)) -> gives (fun b => fields_encode sub b fs) d ->
  exists ds, Forall2 (fun fl d => exists g, sub (f_idx fl) = Some g /\ gives (fun b => g b (f_codec fl) (f_meta fl)) d) fs ds /\ d = concat ds.
Proof.
  induction fs as [|fl fs IH]; intros d Ha H; cbn [fields_encode] in H.
  - exists []. split; [constructor|]. specialize (H []). inversion H. reflexivity.
  - destruct (sub (f_idx fl)) as [g|] eqn:E; [|specialize (H []); discriminate].
    destruct (comp_gives (fun b => g b (f_codec fl) (f_meta fl)) (fun b => fields_encode sub b fs) d) as (p & q & P & Q & ->);
      [eapply Ha; eassumption|apply fields_appends; exact Ha|exact H|].
    destruct (IH q Ha Q) as (ds & F & ->). exists (p :: ds). split; [constructor; eauto|reflexivity].
Qed.
Lemma gives_fields (sub : nat -> option (bytes -> R -> fmeta -> res bytes)) fs ds :
  Forall2 (fun fl d => exists g, sub (f_idx fl) = Some g /\ gives (fun b => g b (f_codec fl) (f_meta fl)) d) fs ds ->
  gives (fun b => fields_encode sub b fs) (concat ds).
Proof.
  induction 1 as [|fl d fs ds (g & E & H) _ IH]; [intros b; cbn; rewrite app_nil_r; reflexivity|].
  cbn [fields_encode concat]. rewrite E. apply (gives_comp (fun b => g b (f_codec fl) (f_meta fl)) (fun b => fields_encode sub b fs)); assumption.
Qed.
Lemma zlen_same (b x : bytes) : (zlen (b ++ x) =? zlen b) = (zlen x =? 0).
Proof. rewrite zlen_app. destruct (Z.eqb_spec (zlen x) 0), (Z.eqb_spec (zlen b + zlen x) (zlen b)); lia. Qed.
Lemma tail_gives g t d : appends g -> gives (fun b => b' <- g b ;; OK (if zlen b' =? zlen b then b' ++ t else b')) d ->
  exists e, gives g e /\ d = if zlen e =? 0 then t else e.
Proof.
  intros [[e Hg]|[c Hg]] H; [|specialize (H []); cbn beta in H; rewrite Hg in H; discriminate].
  exists e. split; [exact Hg|]. specialize (H []). cbn beta in H. rewrite Hg in H. cbn [rbind] in H. rewrite zlen_same in H. cbn [app] in H.
  destruct (Z.eqb_spec (zlen e) 0) as [E|E]; inversion H; [|reflexivity]. destruct e; [reflexivity|unfold zlen in E; cbn [length] in E; lia].
Qed.
Lemma gives_tail g t e : gives g e -> gives (fun b => b' <- g b ;; OK (if zlen b' =? zlen b then b' ++ t else b')) (if zlen e =? 0 then t else e).
Proof.
  intros H b. rewrite H. cbn [rbind]. rewrite zlen_same. destruct (Z.eqb_spec (zlen e) 0) as [E|E]; [|reflexivity].
  destruct e; [rewrite app_nil_r; reflexivity|unfold zlen in E; cbn [length] in E; lia].
Qed.
Lemma entry_gives tag kf vf k x d : gives (entry_enc look iget tag kf vf (k, x)) d <->
  exists a b p q, sz k (f_codec kf) (f_meta kf) = OK a /\ sz x (f_codec kf) (f_meta vf) = OK b /\
    gives (fun b => enc k b (f_codec kf) (f_meta kf)) p /\ gives (fun b => enc x b (f_codec vf) (f_meta vf)) q /\
    d = appendVarint (appendVarint [] tag) (u64 (a + b)) ++ p ++ q.
Proof.
  unfold entry_enc. split.
  - intros H. destruct (sz k (f_codec kf) (f_meta kf)) as [a|]; [|specialize (H []); discriminate]. cbn [rbind] in H.
    destruct (sz x (f_codec kf) (f_meta vf)) as [b|]; [|specialize (H []); discriminate]. cbn [rbind] in H. exists a, b.
    set (pre := appendVarint (appendVarint [] tag) (u64 (a + b))).
    assert (E : forall b0, appendVarint (b0 ++ appendVarint [] tag) (u64 (a + b)) = b0 ++ pre)
      by (intros b0; unfold pre; rewrite appendVarint_app, (appendVarint_app (appendVarint [] tag)), app_assoc; reflexivity).
    destruct (pre_gives pre (fun b => b0 <- enc k b (f_codec kf) (f_meta kf) ;; enc x b0 (f_codec vf) (f_meta vf)) d) as (r & G & ->).
    + apply (comp_appends (fun b => enc k b (f_codec kf) (f_meta kf))); apply enc_appends.
    + eapply gives_ext; [|exact H]. intros b0. cbn beta. rewrite E. reflexivity.
    + destruct (comp_gives (fun b => enc k b (f_codec kf) (f_meta kf)) _ r (enc_appends _ _ _ _ _) (enc_appends _ _ _ _ _) G) as (p & q & P & Q & ->).
      exists p, q. repeat split; auto.
  - intros (a & b & p & q & -> & -> & P & Q & ->). cbn [rbind]. intros b0. cbn beta.
    rewrite appendVarint_app, <- app_assoc, <- (appendVarint_app (appendVarint [] tag)).
    rewrite P. cbn [rbind]. rewrite Q, <- !app_assoc. reflexivity.
Qed.
Lemma subs_enc x j g : nth_error match x with VStruct fs => map (fun y => enc y) fs | _ => [] end j = Some g <-> exists y, get_field x j = Some y /\ g = enc y.
Proof.
  destruct x; try (split; [destruct j; discriminate|intros (y & H & _); discriminate]). cbn [get_field]. rewrite nth_error_map.
  destruct (nth_error fs j); cbn; split; try discriminate; try (intros (y & H & _); discriminate).
  - intros H. inversion H. eauto.
  - intros (y & H & ->). inversion H. reflexivity.
Qed.
Definition written (i : I) (x : val) (ds : list bytes) : Prop :=
  Forall2 (fun fl d => exists y, get_field x (f_idx fl) = Some y /\ gives (fun b => enc y b (f_codec fl) (f_meta fl)) d) (i_fields (iget i)) ds.
Lemma msg_gives x c f k i d : look c = BStruct k i -> gives (fun b => enc (VPtr (Some x)) b c f) d <->
  exists n ds, struct_size look iget i x = OK n /\ written i x ds /\ d = appendVarint (appendVarint [] (wiretag f)) (u64 n) ++ concat ds.
Proof.
  intros E. cbn [Codec.enc]. rewrite E. cbv zeta.
  assert (Ha : forall j g, nth_error match x with VStruct fs => map (fun y => enc y) fs | _ => [] end j = Some g -> forall c f, appends (fun b => g b c f)).
  { intros j g Hg. apply subs_enc in Hg. destruct Hg as (y & _ & ->). intros. apply enc_appends. }
  assert (Pre : forall b n, appendVarint (appendVarint b (wiretag f)) (u64 n) = b ++ appendVarint (appendVarint [] (wiretag f)) (u64 n)).
  { intros b n. rewrite appendVarint_app, (appendVarint_app b), (appendVarint_app (appendVarint [] _)), app_assoc. reflexivity. }
  split.
  - intros H. destruct (struct_size look iget i x) as [n|]; [|specialize (H []); discriminate]. cbn [rbind] in H. exists n.
    destruct (pre_gives (appendVarint (appendVarint [] (wiretag f)) (u64 n)) (fun b => fields_encode _ b (i_fields (iget i))) d (fields_appends _ _ Ha)) as (r & G & ->).
    { eapply gives_ext; [|exact H]. intros b. cbn beta. rewrite (Pre b n). reflexivity. }
    apply fields_gives in G; [|exact Ha]. destruct G as (ds & F & ->). exists ds. split; [reflexivity|]. split; [|reflexivity].
    eapply Forall2_impl; [|exact F]. cbn beta. intros fl d (g & G & X). apply subs_enc in G. destruct G as (y & Hy & ->). eauto.
  - intros (n & ds & -> & F & ->). cbn [rbind].
    assert (G : gives (fun b => fields_encode (nth_error match x with VStruct fs => map (fun y => enc y) fs | _ => [] end) b (i_fields (iget i))) (concat ds)).
    { apply gives_fields. eapply Forall2_impl; [|exact F]. cbn beta. intros fl d (y & Hy & X). exists (enc y). split; [apply subs_enc; eauto|exact X]. }
    intros b. cbn beta. rewrite (Pre b n), G, app_assoc. reflexivity.
Qed.
Lemma map_gives m c f tag kf vf e i d : look c = BMap tag kf vf e i -> gives (fun b => enc (VMap m) b c f) d <->
  exists ds, Forall2 (fun kv => gives (entry_enc look iget tag kf vf kv)) (entries m) ds /\
    d = if zlen (concat ds) =? 0 then appendVarint [] tag ++ [0%N] else concat ds.
Proof.
  intros E. cbn [Codec.enc]. rewrite E. cbv zeta.
  assert (Q : forall b, chain_res b match m with None => [] | Some l => map (entry_enc look iget tag kf vf) l end = chain_res b (map (entry_enc look iget tag kf vf) (entries m)))
    by (intros b; destruct m; reflexivity).
  assert (A : Forall appends (map (entry_enc look iget tag kf vf) (entries m)))
    by (rewrite Forall_map; apply Forall_forall; intros [k x] _; apply entry_appends; apply enc_appends).
  split.
  - intros H. destruct (tail_gives (fun b => chain_res b (map (entry_enc look iget tag kf vf) (entries m))) (appendVarint [] tag ++ [0%N]) d (chain_appends _ A)) as (e0 & G & ->).
    { eapply gives_ext; [|exact H]. intros b. cbn beta. rewrite <- Q. reflexivity. }
    apply chain_gives in G; [|exact A]. destruct G as (ds & F & ->). exists ds. split; [|reflexivity].
    clear -F. revert ds F. induction (entries m) as [|kv l IH]; intros ds F; inversion F; subst; constructor; auto.
  - intros (ds & F & ->). eapply gives_ext; [|apply (gives_tail (fun b => chain_res b (map (entry_enc look iget tag kf vf) (entries m))) (appendVarint [] tag ++ [0%N]) (concat ds))].
    + intros b. cbn beta. rewrite <- Q. reflexivity.
    + apply chain_of. clear -F. induction F; constructor; auto.
Qed.
Lemma slice_gives nn items spare c f t c' d : look c = BSlice t c' -> gives (fun b => enc (VSlice nn items spare) b c f) d <->
  exists ds, Forall2 (fun x => gives (fun b => enc x b c' f)) items ds /\ d = concat ds.
Proof.
  intros E. cbn [Codec.enc]. rewrite E. split.
  - intros H. apply chain_gives in H; [|rewrite Forall_map; apply Forall_forall; intros x _; apply enc_appends].
    destruct H as (ds & F & ->). exists ds. split; [|reflexivity]. clear -F. revert ds F. induction items as [|x l IH]; intros ds F; inversion F; subst; constructor; auto.
  - intros (ds & F & ->). apply chain_of. clear -F. induction F; constructor; auto.
Qed.

(** The order of the list is a possible order. *)
Lemma enc_nenc : forall v c f d, gives (fun b => enc v b c f) d -> nenc v c f d.
Proof.
  induction v as [v IH] using val_ind2; intros c f d H.
  assert (C : forall x, enc v [] c f = CR x -> False) by (intros x Hx; specialize (H []); cbn beta in H; rewrite Hx in H; discriminate).
  destruct (look c) as [|s|t c'|t c'|k i|tag kf vf e i] eqn:E.
  - destruct v; cbn [Codec.enc] in C; rewrite E in C; exfalso; eapply C; reflexivity.
  - eapply ne_static; [exact E|]. specialize (H []). cbn beta in H. etransitivity; [|exact H]. destruct v; cbn [Codec.enc]; rewrite E; reflexivity.
  - destruct v; try (cbn [Codec.enc] in C; rewrite E in C; exfalso; eapply C; reflexivity).
    cbn [Codec.enc] in H. rewrite E in H. destruct o as [x|].
    + eapply ne_ptr; [exact E|]. apply IH. exact H.
    + specialize (H []). inversion H. eapply ne_nilptr. exact E.
  - destruct v; try (cbn [Codec.enc] in C; rewrite E in C; exfalso; eapply C; reflexivity).
    apply (slice_gives _ _ _ _ _ _ _ _ E) in H. destruct H as (ds & F & ->). eapply ne_slice; [exact E|]. destruct IH as [IH _].
    clear C. induction F; inversion IH; subst; constructor; auto.
  - destruct v; try (cbn [Codec.enc] in C; rewrite E in C; exfalso; eapply C; reflexivity).
    destruct o as [x|]; [|cbn [Codec.enc] in H; rewrite E in H; specialize (H []); inversion H; eapply ne_nilmsg; exact E].
    apply (msg_gives _ _ _ _ _ _ E) in H. destruct H as (n & ds & S & F & ->). eapply ne_msg; [exact E|apply nstruct_sz; exact S|].
    eapply Forall2_impl; [|exact F]. cbn beta. intros fl d (y & Hy & X). exists y. split; [exact Hy|]. apply (below_fields _ _ IH _ _ Hy). exact X.
  - destruct v; try (cbn [Codec.enc] in C; rewrite E in C; exfalso; eapply C; reflexivity).
    apply (map_gives _ _ _ _ _ _ _ _ _ E) in H. destruct H as (ds & F & ->). eapply ne_map; [exact E|apply Permutation_refl|].
    destruct m as [l|]; [|inversion F; constructor]. cbn [entries] in *. clear C. induction F as [|[k x] d l ds G F IHF]; inversion IH as [|? ? [A B] IH']; subst; constructor; auto.
    apply entry_gives in G. destruct G as (a & b & p & q & Sa & Sb & P & Q & ->). exists a, b, p, q. cbn [fst snd] in *. repeat split; auto; apply nsz_sz; assumption.
Qed.

(** Any order of a rearranged value is an order of the value itself. *)
Lemma nsz_reorder v w : reorder v w -> forall c f n, nsz w c f n -> nsz v c f n.
Proof. intros H c f n. rewrite !nsz_sz. apply sz_reorder. apply reorder_sym. exact H. Qed.
Lemma nstruct_size_reorder i v w n : reorder v w -> nstruct_size look iget i w n -> nstruct_size look iget i v n.
Proof. intros H. rewrite !nstruct_sz. apply struct_size_reorder. apply reorder_sym. exact H. Qed.
Definition nfields (fs : list (sfield R)) (x : val) (ds : list bytes) : Prop :=
  Forall2 (fun fl d => exists y, get_field x (f_idx fl) = Some y /\ nenc y (f_codec fl) (f_meta fl) d) fs ds.
Lemma nenc_reorder : forall v w, reorder v w -> (forall c f d, nenc w c f d -> nenc v c f d) /\ (forall fs ds, nfields fs w ds -> nfields fs v ds).
Proof.
  assert (NF : forall v w fs ds, (forall j y, get_field w j = Some y -> exists x, get_field v j = Some x /\ (forall c f d, nenc y c f d -> nenc x c f d)) ->
    nfields fs w ds -> nfields fs v ds).
  { intros v w fs ds H. apply Forall2_impl. intros fl d (y & Hy & X). destruct (H _ _ Hy) as (x & Hx & G). exists x. auto. }
  apply reorder_ind'.
  - auto.
  - intros nn a b spare Hr H. split; [|intros fs ds; apply NF; discriminate]. intros c f d X. inversion X; subst.
    + eapply ne_static; [eassumption|]. rewrite encode_composite in H1; [discriminate|reflexivity].
    + eapply ne_slice; [eassumption|]. clear X Hr. revert ds H7. induction H as [|x y a b [Hx _] _ IH]; intros ds F; inversion F; subst; constructor; auto.
  - intros a b c0 Hp Hr H. split; [|intros fs ds; apply NF; discriminate]. intros c f d X. inversion X as [v0 c1 f0 s d0 E L| | | | | |m l c1 f0 tag kf vf e i ds E P F]; subst.
    + rewrite encode_composite in L; [discriminate|reflexivity].
    + cbn [entries] in P. assert (HB : Forall2 (fun p q => fst p = fst q /\ reorder (snd p) (snd q) /\ forall c f d, nenc (snd q) c f d -> nenc (snd p) c f d) b c0).
      { clear -Hr H. induction H as [|p q b c0 [A [B _]] _ IH]; constructor; inversion Hr as [|? ? ? ? [_ C] Hr']; subst; auto. }
      destruct (Permutation_Forall2 P (F2_flip _ _ _ HB)) as (l' & P' & F'). eapply ne_map; [exact E| |].
      { cbn [entries]. eapply Permutation_trans; [exact Hp|exact P']. }
      clear X HB P P' Hp Hr H. revert ds F. induction F' as [|q p l l' (A & B & C) _ IH]; intros ds F; inversion F as [|? ? ? ? (sa & sb & p0 & q0 & S1 & S2 & N1 & N2 & ->) F0]; subst; constructor; auto.
      exists sa, sb, p0, q0. rewrite A. repeat split; auto. eapply nsz_reorder; eassumption.
  - intros a b Hr [IH1 IH2]. split; [|intros fs ds; apply NF; discriminate]. intros c f d X. inversion X; subst.
    + eapply ne_static; [eassumption|]. rewrite encode_composite in H0; [discriminate|reflexivity].
    + eapply ne_ptr; [eassumption|]. auto.
    + eapply ne_msg; [eassumption| |apply IH2; assumption]. eapply nstruct_size_reorder; eassumption.
  - intros a b Hr H. split.
    + intros c f d X. inversion X; subst. rewrite encode_composite in H1; [discriminate|reflexivity].
    + intros fs ds. apply NF. intros j y Hy. cbn in *. pose proof (nth_F2 _ _ _ j H) as N. rewrite Hy in N. destruct (nth_error a j) as [x|]; [|contradiction].
      exists x. split; [reflexivity|apply N].
Qed.
Lemma enc_any v w c f d : reorder v w -> gives (fun b => enc w b c f) d -> nenc v c f d.
Proof. intros H G. apply (proj1 (nenc_reorder v w H)). apply enc_nenc. exact G. Qed.
Lemma struct_any i v w d : reorder v w -> gives (fun b => struct_encode look iget i b w) d -> nstruct_encode look iget i v d.
Proof.
  intros H G. unfold struct_encode in G. apply fields_gives in G.
  - destruct G as (ds & F & ->). exists ds. split; [|reflexivity]. apply (proj2 (nenc_reorder v w H)). eapply Forall2_impl; [|exact F]. cbn beta.
    intros fl d (g & Eg & X). destruct (get_field w (f_idx fl)) as [y|]; [|discriminate]. inversion Eg; subst. exists y. split; [reflexivity|]. apply enc_nenc. exact X.
  - intros j g Hg. destruct (get_field w j); inversion Hg. intros. apply enc_appends.
Qed.

(** Conversely, when each field of a struct is written once and keys of maps are
    scalars, the orders taken on the way are those of one rearranged value. *)
Section Closed.
Variable PC : R -> Prop.
Variable PI : I -> Prop.
Hypothesis HC : forall c, PC c -> match look c with
  | BPtr _ c' | BSlice _ c' => PC c'
  | BStruct _ i => PI i
  | BMap _ kf vf _ _ => (exists s, look (f_codec kf) = BStatic s) /\ PC (f_codec vf)
  | _ => True end.
Hypothesis HI : forall i, PI i -> NoDup (map f_idx (i_fields (iget i))) /\ Forall (fun fl => PC (f_codec fl)) (i_fields (iget i)).

Definition ok_at (v : val) : Prop := forall c f d, PC c -> nenc v c f d -> exists w, reorder v w /\ gives (fun b => enc w b c f) d.

Fixpoint put (l : list val) (j : nat) (w : val) : list val :=
  match l, j with [], _ => [] | _ :: l, O => w :: l | x :: l, S j => x :: put l j w end.
Lemma nth_put l w : forall j, (j < length l)%nat -> nth_error (put l j w) j = Some w.
Proof. induction l as [|x l IH]; intros [|j] H; cbn in *; try lia; [reflexivity|]. apply IH. lia. Qed.
Lemma nth_put_other l w : forall j k, j <> k -> nth_error (put l j w) k = nth_error l k.
Proof. induction l as [|x l IH]; intros [|j] [|k] H; cbn; auto; try congruence. Qed.
Lemma put_reorder xs w : forall ys j x, Forall2 reorder xs ys -> nth_error xs j = Some x -> reorder x w -> Forall2 reorder xs (put ys j w).
Proof.
  induction xs as [|a xs IH]; intros ys j x H; inversion H; subst; destruct j as [|j]; cbn; try discriminate; intros E Hr.
  - inversion E; subst. constructor; assumption.
  - constructor; [assumption|]. eapply IH; eassumption.
Qed.
Lemma fields_collect xs fs ds : Forall ok_at xs -> NoDup (map f_idx fs) -> Forall (fun fl => PC (f_codec fl)) fs -> nfields fs (VStruct xs) ds ->
  exists ys, Forall2 reorder xs ys /\ (forall j, ~ In j (map f_idx fs) -> nth_error ys j = nth_error xs j) /\
    Forall2 (fun fl d => exists y, nth_error ys (f_idx fl) = Some y /\ gives (fun b => enc y b (f_codec fl) (f_meta fl)) d) fs ds.
Proof.
  intros Hx. induction fs as [|fl fs IH] in ds |- *; intros HN HP F; inversion F as [|? d ? ds' (y & Hy & N) F']; subst.
  - exists xs. split; [apply Forall2_same; constructor|]. split; [reflexivity|constructor].
  - cbn [map] in HN. inversion HN as [|? ? Hni HN']; subst. inversion HP as [|? ? Hc HP']; subst.
    destruct (IH ds' HN' HP' F') as (ys & Hr & Hs & Hd). cbn [get_field] in Hy.
    pose proof (nth_error_In _ _ Hy) as Hin. rewrite Forall_forall in Hx. destruct (Hx _ Hin _ _ _ Hc N) as (w & Hw & G).
    exists (put ys (f_idx fl) w). split; [eapply put_reorder; eassumption|]. split.
    + intros j Hj. cbn [map] in Hj. rewrite nth_put_other by (intros E; apply Hj; left; exact E). apply Hs. intros X. apply Hj. right. exact X.
    + constructor.
      * exists w. split; [|exact G]. apply nth_put. apply nth_error_Some. rewrite (Hs _ Hni), Hy. discriminate.
      * assert (X : Forall (fun fl' => f_idx fl' <> f_idx fl) fs).
        { apply Forall_forall. intros fl' Hf' E. apply Hni. rewrite <- E. apply in_map. exact Hf'. }
        clear -Hd X. induction Hd as [|fl' d fs ds (y & Hy & G) _ IH]; inversion X; subst; constructor; auto.
        exists y. split; [|exact G]. rewrite nth_put_other by congruence. exact Hy.
Qed.
Lemma struct_collect x fs ds : field_of ok_at x -> NoDup (map f_idx fs) -> Forall (fun fl => PC (f_codec fl)) fs -> nfields fs x ds ->
  exists w, reorder x w /\ Forall2 (fun fl d => exists y, get_field w (f_idx fl) = Some y /\ gives (fun b => enc y b (f_codec fl) (f_meta fl)) d) fs ds.
Proof.
  intros Hx HN HP F. assert (X : fs = [] /\ ds = [] \/ exists xs, x = VStruct xs).
  { destruct F as [|fl d fs ds (y & Hy & _) _]; [left; auto|right]. destruct x; try discriminate. eauto. }
  destruct X as [[-> ->]|[xs ->]]; [exists x; split; constructor|].
  destruct (fields_collect xs fs ds) as (ys & Hr & _ & G); auto.
  { apply Forall_forall. intros y Hy. apply In_nth_error in Hy. destruct Hy as [j Hy]. apply (Hx j). exact Hy. }
  exists (VStruct ys). split; [constructor; exact Hr|exact G].
Qed.

Lemma nenc_enc : forall v, ok_at v.
Proof.
  induction v as [v IH] using val_ind2; intros c f d Hc H. pose proof (HC c Hc) as Hl.
  inversion H as [v0 c0 f0 s n0 E L|c0 f0 t c' E|x c0 f0 t c' n0 E X|nn items spare c0 f0 t c' ns E F|c0 f0 k i E|x c0 f0 k i n ds E S F|m l c0 f0 tag kf vf e i ds E P F]; subst; rewrite E in Hl.
  - exists v. split; [constructor|]. apply nil_gives; [apply enc_appends|]. rewrite <- L. destruct v; cbn [Codec.enc]; rewrite E; reflexivity.
  - exists (VPtr None). split; [constructor|]. intros b. cbn [Codec.enc]. rewrite E, app_nil_r. reflexivity.
  - destruct IH as [IH _]. destruct (IH _ _ _ Hl X) as (w & Hr & G). exists (VPtr (Some w)). split; [constructor; exact Hr|].
    intros b. cbn [Codec.enc]. rewrite E. apply G.
  - destruct IH as [IH _]. assert (Y : exists ws, Forall2 reorder items ws /\ Forall2 (fun x => gives (fun b => enc x b c' f)) ws ns).
    { clear H. induction F as [|x d items ns X F IHF]; [exists []; split; constructor|]. inversion IH as [|? ? Hx IH']; subst.
      destruct (IHF IH') as (ws & A & B). destruct (Hx _ _ _ Hl X) as (w & Hr & G). exists (w :: ws). split; constructor; auto. }
    destruct Y as (ws & A & B). exists (VSlice nn ws spare). split; [constructor; exact A|]. apply (slice_gives _ _ _ _ _ _ _ _ E). exists ns. auto.
  - exists (VPtr None). split; [constructor|]. intros b. cbn [Codec.enc]. rewrite E, app_nil_r. reflexivity.
  - destruct (HI _ Hl) as [HN HP]. apply below_fields in IH. destruct (struct_collect x _ ds IH HN HP F) as (w & Hr & G).
    exists (VPtr (Some w)). split; [constructor; exact Hr|]. apply (msg_gives _ _ _ _ _ _ E). exists n, ds. split; [|split; [exact G|reflexivity]].
    apply nstruct_sz in S. eapply struct_size_reorder; eassumption.
  - destruct Hl as [[s Es] Hv]. assert (IH' : Forall (fun kv => ok_at (snd kv)) l).
    { destruct m as [l0|]; cbn [entries] in P; [|apply Permutation_nil in P; subst; constructor].
      eapply Permutation_Forall; [exact P|]. eapply Forall_impl; [|exact IH]. intros kv [_ B]. exact B. }
    assert (Y : exists l', Forall2 (fun p q => fst p = fst q /\ reorder (snd p) (snd q)) l l' /\ Forall2 (fun kv => gives (entry_enc look iget tag kf vf kv)) l' ds).
    { clear -F IH' Es Hv. induction F as [|[k x] d l ds (a & b & p & q & Sa & Sb & N1 & N2 & ->) F IHF]; [exists []; split; constructor|].
      inversion IH' as [|? ? Hx IH'']; subst. destruct (IHF IH'') as (l' & A & B). cbn [fst snd] in *. destruct (Hx _ _ _ Hv N2) as (w & Hr & G).
      exists ((k, w) :: l'). split; constructor; auto. apply entry_gives. exists a, b, p, q. split; [apply nsz_sz; exact Sa|].
      split; [apply nsz_sz in Sb; eapply sz_reorder; eassumption|]. split; [|split; [exact G|reflexivity]].
      apply nil_gives; [apply enc_appends|]. inversion N1 as [v0 c0 f0 s' d0 E L| | | | | |]; subst; try congruence. rewrite <- L. destruct k; cbn [Codec.enc]; rewrite E; reflexivity. }
    destruct Y as (l' & A & B). destruct m as [l0|]; cbn [entries] in P.
    + exists (VMap (Some l')). split; [econstructor; eassumption|]. apply (map_gives _ _ _ _ _ _ _ _ _ E). exists ds. auto.
    + apply Permutation_nil in P. subst. inversion A; subst. exists (VMap None). split; [constructor|]. apply (map_gives _ _ _ _ _ _ _ _ _ E). exists ds. auto.
Qed.
Lemma nstruct_enc i x d : PI i -> nstruct_encode look iget i x d -> exists w, reorder x w /\ gives (fun b => struct_encode look iget i b w) d.
Proof.
  intros Hi (ds & F & ->). destruct (HI _ Hi) as [HN HP]. destruct (struct_collect x (i_fields (iget i)) ds) as (w & Hr & G); auto.
  { intros j y _. apply nenc_enc. }
  exists w. split; [exact Hr|]. unfold struct_encode. apply gives_fields. eapply Forall2_impl; [|exact G]. cbn beta.
  intros fl d (y & Hy & X). exists (enc y). rewrite Hy. split; [reflexivity|exact X].
Qed.
End Closed.
End Any.

(** ** Exported functions *)
Lemma nsize_proof D k x s s' n : nSize D k x s n s' <-> Size D (IPtr k (Some x)) s = (Returns n, s').
Proof.
  unfold nSize. cbn [Size]. unfold with_info. destruct (run (cachedStructInfoOf D (walk_fuel D) k) s) as [[i| |] t].
  - split.
    + intros (i' & E & H). inversion E; subst. apply nstruct_sz in H. cbn [info_size]. rewrite H. reflexivity.
    + cbn [info_size]. destruct (struct_size (hlook t) (higet t) i x) as [m|] eqn:Em; [|discriminate]. cbn. intros H. inversion H; subst.
      exists i. split; [reflexivity|]. apply nstruct_sz. exact Em.
  - split; [intros (i' & E & _); discriminate|discriminate].
  - split; [intros (i' & E & _); discriminate|discriminate].
Qed.
Lemma nmarshal_all D k x s s' b y : reorder x y -> Marshal D (IPtr k (Some y)) s = (Returns (Some b, None), s') -> nMarshal D k x s b s'.
Proof.
  intros Hr. cbn [Marshal]. unfold nMarshal, with_info. destruct (run (cachedStructInfoOf D (walk_fuel D) k) s) as [[i| |] t]; try discriminate.
  cbn [info_size info_encode]. destruct (struct_size (hlook t) (higet t) i y) as [n|] eqn:En; [|discriminate]. cbn [rbind].
  destruct (struct_encode (hlook t) (higet t) i [] y) as [d|] eqn:Ed; [|discriminate]. cbn. intros H. inversion H; subst.
  exists i, n. split; [reflexivity|]. split; [eapply nstruct_size_reorder; [exact Hr|]; apply nstruct_sz; exact En|].
  apply (struct_any _ _ i x y b Hr). apply nil_gives; [apply struct_encode_appends|exact Ed].
Qed.

(** Codecs of declared types write each field once, and keys of maps are scalars. *)
Fixpoint flat (p : pref) : bool :=
  match p with
  | PMap _ _ _ _ _ kp vp => match kp with PStatic _ => flat vp | _ => false end
  | PPtr _ p | PSlice _ p => flat p
  | _ => true
  end.
Lemma pcodec_flat t : forall z r p, pcodec t z r = Some p -> flat p = true.
Proof.
  induction t; intros z r p H; cbn in H; try discriminate; try (inversion H; reflexivity).
  destruct t; try (inversion H; reflexivity); try (destruct (pcodec _ z r) as [q|] eqn:E; [|discriminate]; inversion H; subst; cbn [flat]; eapply IHt; exact E).
Qed.
Lemma pfield_flat t f p : pfield t f = Some p -> flat p = true.
Proof.
  unfold pfield. destruct (static_choice t (gf_type f)); [intros H; inversion H; reflexivity|].
  assert (X : match baseTypeOf (gf_type f) with TSlice _ | TBytes | TMap _ _ => None | _ => pcodec (gf_type f) (t_zz t) false end = Some p -> flat p = true).
  { intros H. destruct (baseTypeOf (gf_type f)); try discriminate; eapply pcodec_flat; exact H. }
  destruct (gf_type f) eqn:E; try exact X.
  - intros H. inversion H. reflexivity.
  - match goal with |- option_map _ (pcodec ?e _ _) = _ -> _ => destruct (pcodec e (t_zz t) true) as [q|] eqn:Q; [|discriminate] end. intros H. inversion H; subst. cbn [flat]. eapply pcodec_flat; exact Q.
  - match goal with |- context [pcodec ?e (t_zz (fst (parseStructTag (gf_val f)))) true] => destruct (pcodec e (t_zz (fst (parseStructTag (gf_val f)))) true) as [q|] eqn:Q; [|discriminate] end. intros H. inversion H; subst. cbn [flat]. eapply pcodec_flat; exact Q.
Qed.
Lemma pfields_flat fs : forall i l, pfields i fs = Some l -> NoDup (map f_idx l) /\ Forall (fun fl => flat (f_codec fl) = true) l.
Proof.
  induction fs as [|f fs IH]; intros i l H; cbn [pfields] in H.
  - inversion H. split; constructor.
  - destruct (pfields (S i) fs) as [r|] eqn:E; [|discriminate]. destruct (IH _ _ E) as [A B].
    destruct (gf_exported f); [|inversion H; subst; auto]. destruct (gf_tag f) as [tag|]; [|inversion H; subst; auto].
    destruct (parseStructTag tag) as [t [e|]]; [discriminate|]. destruct (pfield t f) as [p|] eqn:P; [|discriminate]. inversion H; subst. split.
    + cbn [map mkfield f_idx]. constructor; [|exact A]. intros X. apply in_map_iff in X. destruct X as (fl & Ef & Hf).
      pose proof (pfields_idx _ _ _ _ E Hf) as L. change (f_idx {| f_idx := i; f_meta := f_meta fl; f_codec := p |}) with i in Ef. cbn in Ef. lia.
    + constructor; [|exact B]. cbn. eapply pfield_flat; exact P.
Qed.
Lemma piget_flat D k : NoDup (map f_idx (i_fields (piget D k))) /\ Forall (fun fl => flat (f_codec fl) = true) (i_fields (piget D k)).
Proof.
  unfold piget, pinfo. destruct (pfields 0 (struct_fields D k)) as [l|] eqn:E; cbn; [eapply pfields_flat; exact E|split; constructor].
Qed.

Lemma nmarshal_one D k x s s' b : supported D = true -> reachable D s -> user_key D k = true -> nMarshal D k x s b s' ->
  exists y, reorder x y /\ Marshal D (IPtr k (Some y)) s = (Returns (Some b, None), s').
Proof.
  intros HD Hs Hk (i & n & Er & Hn & Hb). apply (reachable_SInv D HD) in Hs. destruct Hs as (G & HI & HC).
  pose proof (cached_spec D HD alone (walk_fuel D) 0 k none G s HI) as W.
  assert (O : own_ok none s) by (split; intros j []).
  specialize (W O (kpre_user D HD k Hk)). assert (F : neark D alone 0 k) by (split; [apply Nat.le_refl|right; reflexivity]). specialize (W F).
  pose proof (seq_sound _ _ _ _ _ _ _ W HI HC) as S. rewrite Er in S.
  destruct S as (o' & G' & (-> & O' & R & Hr & _) & C'). pose proof (r_inv _ _ _ _ _ _ _ R) as HI'.
  destruct (nstruct_enc (hlook s') (higet s') (fun c => exists p, refp G' c p /\ flat p = true) (fun i => exists k, refi G' i k)) with (i := i) (x := x) (d := b) as (w & Hw & Gw); auto.
  - intros c (p & Hp & Fp). pose proof (look_rel _ _ _ HI' C' c p Hp) as B.
    destruct p as [q|t p|t p|k'|tag kt vt key val kp vp]; cbn [plook] in B; inversion B as [s0 E1 E2|t0 c1 c2 H E1 E2|t0 c1 c2 H E1 E2|k0 i1 i2 H E1 E2|tag0 kf1 vf1 kf2 vf2 e0 i1 i2 (_ & _ & Hk1) (_ & _ & Hv1) Hi1 E1 E2]; subst; auto; cbn [flat] in Fp.
    + exists p. auto.
    + exists p. auto.
    + exists k'. exact H.
    + destruct kp as [q| | | |]; try discriminate. split; [|exists vp; auto]. pose proof (look_rel _ _ _ HI' C' _ _ Hk1) as B2. cbn in B2. inversion B2. exists q. reflexivity.
  - intros i0 (k0 & H0). destruct (iget_rel _ _ _ HI' C' _ _ H0) as [FR _]. destruct (piget_flat D k0) as [A B].
    assert (Ei : map f_idx (i_fields (higet s' i0)) = map f_idx (i_fields (piget D k0))).
    { clear -FR. induction FR as [|a b l l' (E & _ & _) _ IH]; [reflexivity|]. cbn [map]. rewrite IH, E. reflexivity. }
    rewrite Ei. split; [exact A|]. clear -FR B. induction FR as [|a b l l' (_ & _ & E) _ IH]; inversion B; subst; constructor; auto. exists (f_codec b). auto.
  - exists k. exact Hr.
  - exists w. split; [exact Hw|]. cbn [Marshal]. unfold with_info. rewrite Er. cbn [info_size info_encode].
    apply nstruct_sz in Hn. rewrite (struct_size_reorder _ _ _ _ _ _ Hw Hn). cbn [rbind]. rewrite (Gw []). reflexivity.
Qed.

(** ** For all declarations: the bytes are the same up to their order *)
Section Perm.
Context {R I : Type}.
Variable look : R -> cbody R I.
Variable iget : I -> sinfo R.
Notation enc := (enc look iget).
Notation nenc := (nenc look iget).

Definition some_perm (v : val) : Prop := forall c f d, nenc v c f d -> exists e, gives (fun b => enc v b c f) e /\ Permutation d e.
Lemma F2_perm {A} (P Q : A -> bytes -> Prop) l ds : Forall2 P l ds -> Forall (fun x => forall d, P x d -> exists e, Q x e /\ Permutation d e) l ->
  exists es, Forall2 Q l es /\ Permutation (concat ds) (concat es).
Proof.
  induction 1 as [|x d l ds X _ IH]; intros H; [exists []; split; constructor|]. inversion H as [|? ? Hx Hl]; subst.
  destruct (Hx d X) as (e & E & Pe). destruct (IH Hl) as (es & Es & Pes). exists (e :: es). split; [constructor; assumption|]. cbn [concat]. apply Permutation_app; assumption.
Qed.
Lemma fields_perm x fs ds : field_of some_perm x -> nfields look iget fs x ds -> exists es,
  Forall2 (fun fl d => exists y, get_field x (f_idx fl) = Some y /\ gives (fun b => enc y b (f_codec fl) (f_meta fl)) d) fs es /\ Permutation (concat ds) (concat es).
Proof.
  intros Hx F. eapply F2_perm; [exact F|]. apply Forall_forall. intros fl _ d (y & Hy & N). destruct (Hx _ _ Hy _ _ _ N) as (e & E & Pe). exists e. split; [eauto|exact Pe].
Qed.
Lemma zlen_perm (a b : bytes) : Permutation a b -> zlen a = zlen b.
Proof. intros H. unfold zlen. f_equal. apply Permutation_length. exact H. Qed.
Lemma nenc_perm : forall v, some_perm v.
Proof.
  induction v as [v IH] using val_ind2; intros c f d H.
  inversion H as [v0 c0 f0 s n0 E L|c0 f0 t c' E|x c0 f0 t c' n0 E X|nn items spare c0 f0 t c' ns E F|c0 f0 k i E|x c0 f0 k i n ds E S F|m l c0 f0 tag kf vf e i ds E P F]; subst.
  - exists d. split; [|apply Permutation_refl]. apply nil_gives; [apply enc_appends|]. rewrite <- L. destruct v; cbn [Codec.enc]; rewrite E; reflexivity.
  - exists []. split; [|constructor]. intros b. cbn [Codec.enc]. rewrite E, app_nil_r. reflexivity.
  - destruct IH as [IH _]. destruct (IH _ _ _ X) as (e & G & P). exists e. split; [|exact P]. intros b. cbn [Codec.enc]. rewrite E. apply G.
  - destruct IH as [IH _]. destruct (F2_perm _ (fun x => gives (fun b => enc x b c' f)) _ _ F) as (es & G & P).
    { eapply Forall_impl; [|exact IH]. cbn beta. intros x Hx d. apply Hx. }
    exists (concat es). split; [|exact P]. apply (slice_gives _ _ _ _ _ _ _ _ _ _ E). exists es. auto.
  - exists []. split; [|constructor]. intros b. cbn [Codec.enc]. rewrite E, app_nil_r. reflexivity.
  - apply below_fields in IH. destruct (fields_perm x _ ds IH F) as (es & G & P).
    exists (appendVarint (appendVarint [] (wiretag f)) (u64 n) ++ concat es). split; [|apply Permutation_app_head; exact P].
    apply (msg_gives _ _ _ _ _ _ _ _ E). exists n, es. split; [apply nstruct_sz; exact S|]. split; [exact G|reflexivity].
  - destruct (perm_F2 _ _ _ _ P F) as (ds' & F' & P').
    destruct (F2_perm _ (fun kv => gives (entry_enc look iget tag kf vf kv)) _ _ F') as (es & G & Pe).
    { destruct m as [l0|]; [|constructor]. cbn [entries]. eapply Forall_impl; [|exact IH]. intros [k x] [A B] d (a & b & p & q & Sa & Sb & N1 & N2 & ->). cbn [fst snd] in *.
      destruct (A _ _ _ N1) as (p' & Gp & Pp). destruct (B _ _ _ N2) as (q' & Gq & Pq). exists (appendVarint (appendVarint [] tag) (u64 (a + b)) ++ p' ++ q'). split.
      - apply entry_gives. exists a, b, p', q'. repeat split; auto; apply nsz_sz; assumption.
      - apply Permutation_app_head. apply Permutation_app; assumption. }
    assert (Pc : Permutation (concat ds) (concat es)) by (eapply Permutation_trans; [eapply concat_perm; exact P'|exact Pe]).
    exists (if zlen (concat es) =? 0 then appendVarint [] tag ++ [0%N] else concat es). split.
    + apply (map_gives _ _ _ _ _ _ _ _ _ _ _ E). exists es. auto.
    + rewrite (zlen_perm _ _ Pc). destruct (zlen (concat es) =? 0); [apply Permutation_refl|exact Pc].
Qed.
End Perm.
Lemma nmarshal_perm_proof D k x s s' b : nMarshal D k x s b s' -> exists b', Marshal D (IPtr k (Some x)) s = (Returns (Some b', None), s') /\ Permutation b b'.
Proof.
  intros (i & n & Er & Hn & ds & F & ->). destruct (fields_perm (hlook s') (higet s') x (i_fields (higet s' i)) ds) as (es & G & P); [|exact F|].
  { intros j y _. apply nenc_perm. }
  exists (concat es). split; [|exact P]. cbn [Marshal]. unfold with_info. rewrite Er. cbn [info_size info_encode]. apply nstruct_sz in Hn. rewrite Hn. cbn [rbind].
  assert (X : gives (fun b => struct_encode (hlook s') (higet s') i b x) (concat es)).
  { unfold struct_encode. apply gives_fields. eapply Forall2_impl; [|exact G]. cbn beta. intros fl d (y & Hy & Y). rewrite Hy. eexists. split; [reflexivity|exact Y]. }
  rewrite (X []). reflexivity.
Qed.

(** ** Rearranging twice *)
Lemma F2_trans {A} (P Q T : A -> A -> Prop) l1 l2 l3 : Forall2 P l1 l2 -> Forall2 Q l2 l3 -> (forall a b c, P a b -> Q b c -> T a c) -> Forall2 T l1 l3.
Proof. intros H. revert l3. induction H; intros l3 H3 X; inversion H3; subst; constructor; eauto. Qed.
Lemma reorder_trans v w : reorder v w -> forall u, reorder w u -> reorder v u.
Proof.
  revert v w. apply (reorder_ind' (fun v w => forall u, reorder w u -> reorder v u)).
  - auto.
  - intros nn a b spare Hr H u Hu. inversion Hu; subst; constructor; auto. eapply F2_trans; [exact H|eassumption|]. cbn beta. auto.
  - intros a b c Hp Hr H u Hu. inversion Hu as [|?|c1 d e Pd Fd| |]; subst.
    + econstructor; eassumption.
    + destruct (perm_F2 (fun q p => fst p = fst q /\ (forall u, reorder (snd q) u -> reorder (snd p) u)) d c b) as (b' & Fb & Pb); [apply Permutation_sym; exact Pd|apply F2_flip; exact H|].
      eapply ro_map; [eapply Permutation_trans; [exact Hp|exact Pb]|]. apply F2_flip in Fb. eapply F2_trans; [exact Fb|exact Fd|].
      intros p q r [A B] [A' B']. split; [congruence|auto].
  - intros a b Hr H u Hu. inversion Hu; subst; constructor; auto.
  - intros a b Hr H u Hu. inversion Hu; subst; constructor; auto. eapply F2_trans; [exact H|eassumption|]. cbn beta. auto.
Qed.
