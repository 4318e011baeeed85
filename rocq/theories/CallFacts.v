(** Proofs about the number of calls of size and encode functions. *)
From Coq Require Import String ZifyBool ZifyNat ZifyN.
From Verif Require Import Base Wire GoType Leaf Codec Tag Walker Api Typing SpecCost CodecSim CostFacts Calls WalkSeq AnyWalk AnyApi.
Local Open Scope Z_scope.

Lemma largest_cons a l : largest (a :: l) = Z.max a (largest l).
Proof. reflexivity. Qed.
Lemma largest_pos l : 0 <= largest l.
Proof. induction l as [|a l IH]; [reflexivity|]. rewrite largest_cons. lia. Qed.
Lemma values_pos v : 1 <= values v.
Proof.
  induction v as [v IH] using val_ind2.
  assert (T : forall l, Forall (fun v => 1 <= values v) l -> 0 <= total (map values l)).
  { induction 1 as [|x l H _ IHl]; [reflexivity|]. cbn [map]. rewrite total_cons. lia. }
  destruct v; cbn [values]; try lia; try (apply T in IH; lia).
  - destruct IH as [IH _]. apply T in IH. lia.
  - destruct m as [l|]; [|lia]. assert (0 <= total (map (fun kv => match kv with (k, x) => values k + values x end) l)); [|lia].
    induction IH as [|[k x] l [H1 H2] _ IHl]; [reflexivity|]. cbn [map fst snd] in *. rewrite total_cons. lia.
  - destruct o; [|lia]. destruct IH as [IH _]. lia.
Qed.
Lemma values_sum l : 0 <= total (map values l).
Proof. induction l as [|v l IH]; [reflexivity|]. cbn [map]. rewrite total_cons. pose proof (values_pos v). lia. Qed.
Lemma nesting_pos v : 0 <= nesting v.
Proof.
  induction v as [v IH] using val_ind2. destruct v; cbn [nesting]; try lia; try apply largest_pos.
  - destruct m as [l|]; [|lia]. pose proof (largest_pos (map (fun kv => match kv with (k, x) => Z.max (nesting k) (nesting x) end) l)). lia.
  - destruct o; [|lia]. apply IH.
  - pose proof (largest_pos (map nesting fs)). lia.
Qed.
Lemma nesting_in v l : In v l -> nesting v <= largest (map nesting l).
Proof. induction l as [|x l IH]; intros H; [destruct H|]. cbn [map]. rewrite largest_cons. destruct H as [->|H]; [|apply IH in H]; lia. Qed.

(** Adding up over distinct positions. *)
Lemma total_le {A} (f g : A -> Z) l : (forall x, In x l -> f x <= g x) -> total (map f l) <= total (map g l).
Proof.
  induction l as [|x l IH]; intros H; [reflexivity|]. cbn [map]. rewrite !total_cons.
  pose proof (H x (or_introl eq_refl)). assert (total (map f l) <= total (map g l)) by (apply IH; intros y Hy; apply H; right; exact Hy). lia.
Qed.
Lemma total_scale {A} (f : A -> Z) c l : total (map (fun x => c * f x) l) = c * total (map f l).
Proof. induction l as [|x l IH]; [cbn; lia|]. cbn [map]. rewrite !total_cons, IH. lia. Qed.
Definition pick (fs : list val) (i : nat) : Z := match nth_error fs i with Some y => values y | None => 0 end.
Lemma total_remove (f : nat -> Z) i l : In i l -> total (map f l) = f i + total (map f (remove Nat.eq_dec i l)) + (Z.of_nat (count_occ Nat.eq_dec l i) - 1) * f i.
Proof.
  induction l as [|j l IH]; intros H; [destruct H|]. cbn [map remove count_occ]. rewrite total_cons. destruct (Nat.eq_dec i j) as [->|N].
  - destruct (Nat.eq_dec j j) as [_|X]; [|contradiction]. destruct (in_dec Nat.eq_dec j l) as [Hi|Hi].
    + rewrite (IH Hi). lia.
    + rewrite notin_remove by exact Hi. apply (count_occ_not_In Nat.eq_dec) in Hi. rewrite Hi. lia.
  - destruct H as [->|H]; [contradiction|]. destruct (Nat.eq_dec j i) as [->|_]; [contradiction|]. cbn [map]. rewrite total_cons, (IH H). lia.
Qed.
Lemma pick_shift y fs l : total (map (pick (y :: fs)) (map S l)) = total (map (pick fs) l).
Proof. rewrite map_map. reflexivity. Qed.
Lemma pick_sum fs : forall l, NoDup l -> total (map (pick fs) l) <= total (map values fs).
Proof.
  induction fs as [|y fs IH]; intros l N.
  - assert (E : total (map (pick []) l) = 0); [|rewrite E; reflexivity]. clear N. induction l as [|i l IHl]; [reflexivity|]. cbn [map]. rewrite total_cons, IHl. destruct i; reflexivity.
  - cbn [map]. rewrite total_cons. set (l0 := remove Nat.eq_dec 0%nat l).
    assert (N0 : NoDup l0).
    { unfold l0. clear IH. induction N as [|i l Hi N IHl]; [constructor|]. cbn [remove]. destruct (Nat.eq_dec 0 i); [exact IHl|].
      constructor; [|exact IHl]. intros H. apply in_remove in H. tauto. }
    assert (P0 : forall i, In i l0 -> i <> 0%nat) by (intros i H; apply in_remove in H; tauto).
    assert (E0 : l0 = map S (map pred l0)).
    { rewrite map_map. symmetry. rewrite <- (map_id l0) at 2. apply map_ext_in. intros i H. apply P0 in H. lia. }
    assert (T0 : total (map (pick (y :: fs)) l0) <= total (map values fs)).
    { rewrite E0, pick_shift. apply IH. rewrite E0 in N0. apply NoDup_map_inv in N0. exact N0. }
    destruct (in_dec Nat.eq_dec 0%nat l) as [Hi|Hi].
    + rewrite (total_remove _ 0%nat l Hi). fold l0. replace (count_occ Nat.eq_dec l 0%nat) with 1%nat.
      * change (pick (y :: fs) 0%nat) with (values y). lia.
      * symmetry. apply NoDup_count_occ'; assumption.
    + replace l with l0 by (apply notin_remove; exact Hi). pose proof (values_pos y). lia.
Qed.

Section Calls.
Context {R I : Type}.
Variable look : R -> cbody R I.
Variable iget : I -> sinfo R.

(** The number of calls of [csz v c] and [cenc v c] if nothing crashes. *)
Fixpoint size_calls (v : val) (c : R) {struct v} : Z :=
  1 + match look c with
  | BPtr _ c' => match v with VPtr (Some x) => size_calls x c' | _ => 0 end
  | BSlice _ c' => match v with VSlice _ items _ => total (map (fun x => size_calls x c') items) | _ => 0 end
  | BStruct _ i =>
    match v with
    | VPtr (Some x) =>
      let subs := match x with VStruct fs => map (fun y => size_calls y) fs | _ => [] end in
      total (map (fun f => match nth_error subs (f_idx f) with Some g => g (f_codec f) | None => 0 end) (i_fields (iget i)))
    | _ => 0
    end
  | BMap _ kf vf _ _ =>
    match v with
    | VMap (Some l) => total (map (fun kv => match kv with (k, x) => size_calls k (f_codec kf) + size_calls x (f_codec vf) end) l)
    | _ => 0
    end
  | _ => 0
  end.
Definition sizes_calls (i : I) (x : val) : Z :=
  total (map (fun f => match get_field x (f_idx f) with Some y => size_calls y (f_codec f) | None => 0 end) (i_fields (iget i))).
Fixpoint enc_calls (v : val) (c : R) {struct v} : Z :=
  1 + match look c with
  | BPtr _ c' => match v with VPtr (Some x) => enc_calls x c' | _ => 0 end
  | BSlice _ c' => match v with VSlice _ items _ => total (map (fun x => enc_calls x c') items) | _ => 0 end
  | BStruct _ i =>
    match v with
    | VPtr (Some x) =>
      let subs := match x with VStruct fs => map (fun y => enc_calls y) fs | _ => [] end in
      sizes_calls i x +
      total (map (fun f => match nth_error subs (f_idx f) with Some g => g (f_codec f) | None => 0 end) (i_fields (iget i)))
    | _ => 0
    end
  | BMap _ kf vf _ _ =>
    match v with
    | VMap (Some l) =>
      total (map (fun kv => match kv with (k, x) =>
        size_calls k (f_codec kf) + size_calls x (f_codec kf) + (enc_calls k (f_codec kf) + enc_calls x (f_codec vf)) end) l)
    | _ => 0
    end
  | _ => 0
  end.
Definition encs_calls (i : I) (x : val) : Z :=
  total (map (fun f => match get_field x (f_idx f) with Some y => enc_calls y (f_codec f) | None => 0 end) (i_fields (iget i))).

(** [x] makes at most [n] calls, and that many if it does not crash; it computes [r]. *)
Definition counts {A} (x : cnt A) (n : Z) (r : res A) : Prop :=
  snd x = r /\ 0 <= fst x <= n /\ match r with OK _ => fst x = n | CR _ => True end.
Lemma counts_ret {A} (r : res A) : counts (cret r) 0 r.
Proof. split; [reflexivity|]. cbn. destruct r; auto with zarith. Qed.
Lemma counts_crash {A} n c : 0 <= n -> counts (cret (CR c : res A)) n (CR c).
Proof. intros H. split; [reflexivity|]. cbn. auto with zarith. Qed.
Lemma counts_call {A} (x : cnt A) n r : counts x n r -> counts (call x) (1 + n) r.
Proof. destruct x as [m r']. intros (H1 & H2 & H3). cbn [fst snd call] in *. split; [exact H1|]. cbn [fst]. split; [lia|]. destruct r; [lia|exact Logic.I]. Qed.
Lemma counts_bind {A B} (x : cnt A) n r (k : A -> cnt B) m (h : A -> res B) : counts x n r -> 0 <= m -> (forall a, r = OK a -> counts (k a) m (h a)) ->
  counts (cbind x k) (n + m) (rbind r h).
Proof.
  destruct x as [n' r']. intros (H1 & H2 & H3) M K. cbn [fst snd] in *. subst r'. unfold cbind. destruct r as [a|c]; cbn [rbind].
  - specialize (K a eq_refl). destruct (k a) as [m' r2]. destruct K as (K1 & K2 & K3). cbn [fst snd] in *. split; [exact K1|]. cbn [fst]. split; [lia|]. destruct (h a); [lia|exact Logic.I].
  - split; [reflexivity|]. cbn [fst]. split; [lia|exact Logic.I].
Qed.
Lemma counts_eq {A} (x : cnt A) n n' r : counts x n r -> n = n' -> counts x n' r.
Proof. intros H <-. exact H. Qed.
Lemma counts_pos {A} (x : cnt A) n r : counts x n r -> 0 <= n.
Proof. intros (_ & H & _). lia. Qed.

Lemma csum_counts {B} (g : B -> cnt Z) (h : B -> res Z) (w : B -> Z) l : Forall (fun x => counts (g x) (w x) (h x)) l -> counts (csum (map g l)) (total (map w l)) (sum_res (map h l)).
Proof.
  induction 1 as [|x l H Hl IH]; [apply counts_ret|]. cbn [map csum sum_res]. rewrite total_cons. apply counts_bind; [exact H|apply (counts_pos _ _ _ IH)|].
  intros n _. eapply counts_eq; [apply counts_bind; [exact IH|apply Z.le_refl|]|apply Z.add_0_r]. intros m _. apply counts_ret.
Qed.
Lemma cchain_counts {B} (g : B -> bytes -> cnt bytes) (h : B -> bytes -> res bytes) (w : B -> Z) l : Forall (fun x => forall b, counts (g x b) (w x) (h x b)) l ->
  forall b, counts (cchain b (map g l)) (total (map w l)) (chain_res b (map h l)).
Proof.
  induction 1 as [|x l H Hl IH]; intros b; [apply counts_ret|]. cbn [map cchain chain_res]. rewrite total_cons. apply counts_bind; [apply H|apply (counts_pos _ _ _ (IH b))|].
  intros b' _. apply IH.
Qed.
Lemma cfields_size_counts (sub : nat -> option (R -> fmeta -> cnt Z)) (sub' : nat -> option (R -> fmeta -> res Z)) (w : nat -> option (R -> Z)) fs :
  (forall j, match sub j, sub' j, w j with Some g, Some h, Some u => forall c f, counts (g c f) (u c) (h c f) | None, None, None => True | _, _, _ => False end) ->
  counts (cfields_size sub fs) (total (map (fun f => match w (f_idx f) with Some u => u (f_codec f) | None => 0 end) fs)) (fields_size sub' fs).
Proof.
  intros H. induction fs as [|f fs IH]; [apply counts_ret|]. cbn [map cfields_size fields_size]. rewrite total_cons. apply counts_bind; [|apply (counts_pos _ _ _ IH)|].
  - specialize (H (f_idx f)). destruct (sub (f_idx f)), (sub' (f_idx f)), (w (f_idx f)); try destruct H; [apply H|apply counts_crash; lia].
  - intros n _. eapply counts_eq; [apply counts_bind; [exact IH|apply Z.le_refl|]|apply Z.add_0_r]. intros m _. apply counts_ret.
Qed.
Lemma cfields_encode_counts (sub : nat -> option (bytes -> R -> fmeta -> cnt bytes)) (sub' : nat -> option (bytes -> R -> fmeta -> res bytes)) (w : nat -> option (R -> Z)) fs :
  (forall j, match sub j, sub' j, w j with Some g, Some h, Some u => forall b c f, counts (g b c f) (u c) (h b c f) | None, None, None => True | _, _, _ => False end) -> forall b,
  counts (cfields_encode sub b fs) (total (map (fun f => match w (f_idx f) with Some u => u (f_codec f) | None => 0 end) fs)) (fields_encode sub' b fs).
Proof.
  intros H. induction fs as [|f fs IH]; intros b; [apply counts_ret|]. cbn [map cfields_encode fields_encode]. rewrite total_cons. apply counts_bind; [|apply (counts_pos _ _ _ (IH b))|].
  - specialize (H (f_idx f)). destruct (sub (f_idx f)), (sub' (f_idx f)), (w (f_idx f)); try destruct H; [apply H|apply counts_crash; lia].
  - intros n _. apply IH.
Qed.

Lemma csz_counts : forall v c f, counts (csz look iget v c f) (size_calls v c) (sz look iget v c f).
Proof.
  induction v as [v IH] using val_ind2; intros c f.
  destruct v; cbn [csz size_calls sz]; apply counts_call; destruct (look c) as [|s|t c'|t c'|k i|tag kf vf k i]; try apply counts_ret.
  - apply csum_counts. destruct IH as [IH _]. eapply Forall_impl; [|exact IH]. intros x H. apply H.
  - destruct m as [l|].
    + eapply counts_eq; [apply counts_bind; [|apply Z.le_refl|intros n _; apply counts_ret]|apply Z.add_0_r].
      apply (csum_counts (fun kv : val * val => match kv with (k0, x) => _ end)). eapply Forall_impl; [|exact IH]. intros [a x] [H1 H2]. cbn [fst snd] in *.
      apply counts_bind; [apply H1|apply (counts_pos _ _ _ (H2 _ (f_meta vf)))|]. intros n1 _. eapply counts_eq; [apply counts_bind; [apply H2|apply Z.le_refl|intros n2 _; apply counts_ret]|apply Z.add_0_r].
    + apply counts_ret.
  - destruct o as [x|]; [|apply counts_ret]. apply IH.
  - destruct o as [x|]; [|apply counts_ret]. cbv zeta. eapply counts_eq; [apply counts_bind; [|apply Z.le_refl|intros n _; apply counts_ret]|apply Z.add_0_r].
    apply cfields_size_counts. intros j. destruct x; try (destruct j; exact Logic.I). rewrite !nth_error_map. destruct (nth_error fs j) as [y|] eqn:E; [|exact Logic.I]. cbn [option_map].
    destruct IH as [_ IH]. rewrite Forall_forall in IH. apply IH. eapply nth_error_In, E.
Qed.
Lemma cstruct_size_counts i x : counts (cstruct_size look iget i x) (sizes_calls i x) (struct_size look iget i x).
Proof.
  unfold cstruct_size, sizes_calls, struct_size.
  eapply counts_eq; [apply (cfields_size_counts _ _ (fun j => option_map size_calls (get_field x j)))|].
  - intros j. destruct (get_field x j); [|exact Logic.I]. cbn. intros. apply csz_counts.
  - f_equal. apply map_ext. intros f. destruct (get_field x (f_idx f)); reflexivity.
Qed.
Lemma cenc_counts : forall v b c f, counts (cenc look iget v b c f) (enc_calls v c) (enc look iget v b c f).
Proof.
  induction v as [v IH] using val_ind2; intros b c f.
  destruct v; cbn [cenc enc_calls enc]; apply counts_call; destruct (look c) as [|s|t c'|t c'|k i|tag kf vf k i]; try apply counts_ret.
  - apply (cchain_counts (fun x b => cenc look iget x b c' f) (fun x b => enc look iget x b c' f) (fun x => enc_calls x c')). destruct IH as [IH _]. eapply Forall_impl; [|exact IH]. intros x H b0. apply H.
  - destruct m as [l|].
    + eapply counts_eq; [apply counts_bind; [|apply Z.le_refl|intros n _; apply counts_ret]|apply Z.add_0_r].
      apply (cchain_counts (fun (kv : val * val) b0 => match kv with (k0, x) => _ end) (fun (kv : val * val) b0 => match kv with (k0, x) => _ end)).
      eapply Forall_impl; [|exact IH]. intros [a x] [H1 H2] b0. cbn [fst snd] in *.
      pose proof (csz_counts a (f_codec kf) (f_meta kf)) as S1. pose proof (csz_counts x (f_codec kf) (f_meta vf)) as S2.
      pose proof (counts_pos _ _ _ S1). pose proof (counts_pos _ _ _ S2). pose proof (counts_pos _ _ _ (H1 b0 (f_codec kf) (f_meta kf))). pose proof (counts_pos _ _ _ (H2 b0 (f_codec vf) (f_meta vf))).
      eapply counts_eq; [apply counts_bind; [exact S1| |]|].
      3: rewrite <- Z.add_assoc; reflexivity.
      { lia. }
      intros n1 _. apply counts_bind; [exact S2|lia|]. intros n2 _. apply counts_bind; [apply H1|lia|]. intros b1 _. apply H2.
    + apply counts_ret.
  - destruct o as [x|]; [|apply counts_ret]. apply IH.
  - destruct o as [x|]; [|apply counts_ret]. cbv zeta.
    assert (Q : forall b0, counts (cfields_encode (nth_error match x with VStruct fs => map (fun y => cenc look iget y) fs | _ => [] end) b0 (i_fields (iget i)))
      (total (map (fun f0 => match nth_error match x with VStruct fs => map (fun y => enc_calls y) fs | _ => [] end (f_idx f0) with Some g => g (f_codec f0) | None => 0 end) (i_fields (iget i))))
      (fields_encode (nth_error match x with VStruct fs => map (fun y => enc look iget y) fs | _ => [] end) b0 (i_fields (iget i)))).
    { apply (cfields_encode_counts _ _ (nth_error match x with VStruct fs => map (fun y => enc_calls y) fs | _ => [] end)). intros j. destruct x; try (destruct j; exact Logic.I). rewrite !nth_error_map. destruct (nth_error fs j) as [y|] eqn:E; [|exact Logic.I]. cbn [option_map].
      destruct IH as [_ IH]. rewrite Forall_forall in IH. intros. apply IH. eapply nth_error_In, E. }
    apply counts_bind; [apply cstruct_size_counts|apply (counts_pos _ _ _ (Q b))|]. intros n _. apply Q.
Qed.
Lemma cstruct_encode_counts i b x : counts (cstruct_encode look iget i b x) (encs_calls i x) (struct_encode look iget i b x).
Proof.
  unfold cstruct_encode, encs_calls, struct_encode.
  eapply counts_eq; [apply (cfields_encode_counts _ _ (fun j => option_map enc_calls (get_field x j)))|].
  - intros j. destruct (get_field x j); [|exact Logic.I]. cbn. intros. apply cenc_counts.
  - f_equal. apply map_ext. intros f. destruct (get_field x (f_idx f)); reflexivity.
Qed.
Lemma marshal_counts i x : counts (n <~ cstruct_size look iget i x ;; b <~ cstruct_encode look iget i [] x ;; cret (OK (Some b, @None err)))
  (sizes_calls i x + encs_calls i x) (n <- struct_size look iget i x ;; b <- struct_encode look iget i [] x ;; OK (Some b, None)).
Proof.
  pose proof (cstruct_encode_counts i [] x) as E. apply counts_bind; [apply cstruct_size_counts|apply (counts_pos _ _ _ E)|]. intros n _.
  eapply counts_eq; [apply counts_bind; [exact E|apply Z.le_refl|intros b _; apply counts_ret]|apply Z.add_0_r].
Qed.

(** ** Bounds *)
Hypothesis distinct : forall i, NoDup (map f_idx (i_fields (iget i))).
Notation scalls := size_calls.
Notation ecalls := enc_calls.

Lemma fields_le (g : val -> R -> Z) (m : Z) fs i : 0 <= m -> (forall y c, In y fs -> g y c <= m * values y) ->
  total (map (fun f => match nth_error (map g fs) (f_idx f) with Some h => h (f_codec f) | None => 0 end) (i_fields (iget i))) <= m * total (map values fs).
Proof.
  intros M H. etransitivity; [apply (total_le _ (fun f => m * pick fs (f_idx f)))|].
  - intros f _. unfold pick. rewrite nth_error_map. destruct (nth_error fs (f_idx f)) as [y|] eqn:E; cbn [option_map]; [|lia]. apply H. eapply nth_error_In, E.
  - rewrite total_scale, <- (map_map f_idx (pick fs)). apply Z.mul_le_mono_nonneg_l; [exact M|]. apply pick_sum, distinct.
Qed.
Lemma fields_none (g : list (R -> Z)) i : g = [] ->
  total (map (fun f => match nth_error g (f_idx f) with Some h => h (f_codec f) | None => 0 end) (i_fields (iget i))) = 0.
Proof. intros ->. induction (i_fields (iget i)) as [|f l IH]; [reflexivity|]. cbn [map]. rewrite total_cons, IH. destruct (f_idx f); reflexivity. Qed.
Lemma sizes_subs i x : sizes_calls i x =
  total (map (fun f => match nth_error match x with VStruct fs => map scalls fs | _ => [] end (f_idx f) with Some h => h (f_codec f) | None => 0 end) (i_fields (iget i))).
Proof. unfold sizes_calls. f_equal. apply map_ext. intros f. destruct x; cbn [get_field]; try (destruct (f_idx f); reflexivity). rewrite nth_error_map. destruct (nth_error fs (f_idx f)); reflexivity. Qed.
Lemma encs_subs i x : encs_calls i x =
  total (map (fun f => match nth_error match x with VStruct fs => map ecalls fs | _ => [] end (f_idx f) with Some h => h (f_codec f) | None => 0 end) (i_fields (iget i))).
Proof. unfold encs_calls. f_equal. apply map_ext. intros f. destruct x; cbn [get_field]; try (destruct (f_idx f); reflexivity). rewrite nth_error_map. destruct (nth_error fs (f_idx f)); reflexivity. Qed.

Lemma size_bound : forall v c, scalls v c <= values v.
Proof.
  induction v as [v IH] using val_ind2; intros c. pose proof (values_pos v) as P.
  destruct v; cbn [size_calls]; destruct (look c) as [|s|t c'|t c'|k i|tag kf vf k i]; try lia; cbn [values].
  - apply Z.add_le_mono_l. apply total_le. intros x H. destruct IH as [IH _]. rewrite Forall_forall in IH. apply IH. exact H.
  - destruct m as [l|]; [|lia]. apply Z.add_le_mono_l. apply total_le. intros [a x] H. rewrite Forall_forall in IH. apply IH in H. destruct H as [H1 H2]. cbn [fst snd] in *.
    specialize (H1 (f_codec kf)). specialize (H2 (f_codec vf)). lia.
  - destruct o as [x|]; [|lia]. destruct IH as [IH _]. specialize (IH c'). lia.
  - destruct o as [x|]; [|lia]. cbv zeta. pose proof (values_pos x). destruct x; try (rewrite fields_none by reflexivity; cbn [values] in *; lia).
    destruct IH as [_ IH]. rewrite Forall_forall in IH. cbn [values]. pose proof (fields_le scalls 1 fs i ltac:(lia)) as Q.
    assert (Q' := Q ltac:(intros y c0 Hy; specialize (IH y Hy c0); lia)).
    match goal with |- 1 + ?T <= _ => assert (T <= 1 * total (map values fs)) by exact Q' end. lia.
Qed.
Lemma sizes_bound i x : sizes_calls i x <= values x - 1.
Proof.
  rewrite sizes_subs. pose proof (values_pos x). destruct x; try (rewrite fields_none by reflexivity; lia). cbn [values].
  pose proof (fields_le scalls 1 fs i ltac:(lia)) as Q. assert (Q' := Q ltac:(intros y c0 Hy; pose proof (size_bound y c0); lia)). lia.
Qed.
Lemma scale a b v : 0 <= a <= b -> (1 + a) * values v <= (1 + b) * values v.
Proof. intros H. pose proof (values_pos v). nia. Qed.
Lemma enc_bound : forall v c, ecalls v c <= (1 + nesting v) * values v.
Proof.
  induction v as [v IH] using val_ind2; intros c. pose proof (values_pos v) as P. pose proof (nesting_pos v) as N.
  assert (B : 1 <= (1 + nesting v) * values v) by nia.
  destruct v; cbn [enc_calls]; destruct (look c) as [|s|t c'|t c'|k i|tag kf vf k i]; try lia.
  - cbn [nesting values]. set (m := largest (map nesting items)). assert (M : 0 <= m) by apply largest_pos.
    assert (T : total (map (fun x => ecalls x c') items) <= (1 + m) * total (map values items)).
    { rewrite <- total_scale. apply total_le. intros x H. destruct IH as [IH _]. rewrite Forall_forall in IH. specialize (IH x H c'). pose proof (nesting_in x items H).
      pose proof (scale (nesting x) m x). pose proof (nesting_pos x). lia. }
    pose proof (values_sum items). lia.
  - destruct m as [l|]; [|lia]. cbn [nesting values]. set (m := largest (map (fun kv => match kv with (k, x) => Z.max (nesting k) (nesting x) end) l)).
    assert (M : 0 <= m) by apply largest_pos.
    assert (T : total (map (fun kv => match kv with (k, x) => scalls k (f_codec kf) + scalls x (f_codec kf) + (ecalls k (f_codec kf) + ecalls x (f_codec vf)) end) l) <=
      (2 + m) * total (map (fun kv => match kv with (k, x) => values k + values x end) l)).
    { rewrite <- total_scale. apply total_le. intros [a x] H. rewrite Forall_forall in IH. destruct (IH _ H) as [H1 H2]. cbn [fst snd] in *.
      specialize (H1 (f_codec kf)). specialize (H2 (f_codec vf)). pose proof (size_bound a (f_codec kf)). pose proof (size_bound x (f_codec kf)).
      assert (L : Z.max (nesting a) (nesting x) <= m).
      { unfold m. clear - H. induction l as [|z l IHl]; [destruct H|]. cbn [map]. rewrite largest_cons. destruct H as [->|H]; [|apply IHl in H]; lia. }
      pose proof (nesting_pos a). pose proof (nesting_pos x). pose proof (scale (nesting a) m a). pose proof (scale (nesting x) m x). lia. }
    assert (0 <= total (map (fun kv => match kv with (k, x) => values k + values x end) l)).
    { clear. induction l as [|[a x] l IHl]; [reflexivity|]. cbn [map]. rewrite total_cons. pose proof (values_pos a). pose proof (values_pos x). lia. }
    lia.
  - destruct o as [x|]; [|lia]. destruct IH as [IH _]. specialize (IH c'). cbn [nesting values]. pose proof (nesting_pos x). pose proof (values_pos x). lia.
  - destruct o as [x|]; [|lia]. cbv zeta. cbn [nesting values]. pose proof (values_pos x). pose proof (nesting_pos x). pose proof (sizes_bound i x) as S.
    destruct x; try (rewrite fields_none by reflexivity; nia).
    destruct IH as [_ IH]. rewrite Forall_forall in IH. cbn [values nesting] in *. set (m := largest (map nesting fs)) in *. assert (M : 0 <= m) by apply largest_pos.
    pose proof (fields_le ecalls (1 + m) fs i ltac:(lia)) as Q.
    assert (Q' := Q ltac:(intros y c0 Hy; specialize (IH y Hy c0); pose proof (nesting_in y fs Hy); pose proof (nesting_pos y); pose proof (scale (nesting y) m y); lia)).
    pose proof (values_sum fs). match goal with |- 1 + (_ + ?T) <= _ => assert (T <= (1 + m) * total (map values fs)) by exact Q' end. lia.
Qed.
Lemma encs_bound i x : encs_calls i x <= nesting x * (values x - 1).
Proof.
  rewrite encs_subs. pose proof (values_pos x). pose proof (nesting_pos x). destruct x; try (rewrite fields_none by reflexivity; nia). cbn [values nesting].
  set (m := largest (map nesting fs)). assert (M : 0 <= m) by apply largest_pos.
  pose proof (fields_le ecalls (1 + m) fs i ltac:(lia)) as Q.
  assert (Q' := Q ltac:(intros y c0 Hy; pose proof (enc_bound y c0); pose proof (nesting_in y fs Hy); pose proof (nesting_pos y); pose proof (scale (nesting y) m y); lia)).
  lia.
Qed.
End Calls.

Lemma heap_distinct D G s : AI D G s -> forall i, NoDup (map f_idx (i_fields (higet s i))).
Proof.
  intros HA i. unfold higet. destruct (nth_error (g_infos s) i) as [x|] eqn:E; [|constructor]. apply (a_infos _ _ _ HA i x E).
Qed.
Lemma size_same_proof D s k x : snd (Size_counted D k x s) = fst (Size D (IPtr k (Some x)) s).
Proof.
  unfold Size_counted, with_count. cbn [Size]. unfold with_info. destruct (run _ s) as [[i| |] s']; try reflexivity. cbn [fst info_size].
  destruct (cstruct_size_counts (hlook s') (higet s') i x) as [H _]. destruct (cstruct_size _ _ _ _) as [n r]. cbn [snd] in *. rewrite H. reflexivity.
Qed.
Lemma marshal_same_proof D s k x : snd (Marshal_counted D k x s) = fst (Marshal D (IPtr k (Some x)) s).
Proof.
  unfold Marshal_counted, with_count. cbn [Marshal]. unfold with_info. destruct (run _ s) as [[i| |] s']; try reflexivity. cbn [fst info_size info_encode].
  destruct (marshal_counts (hlook s') (higet s') i x) as [H _]. destruct (cbind _ _) as [n r]. cbn [snd] in *. rewrite H. reflexivity.
Qed.
Lemma size_calls_proof D s k x : reachable D s -> user_key D k = true -> 0 <= fst (Size_counted D k x s) < values x.
Proof.
  intros Hr Hk. destruct (reachable_AI D s Hr) as [G HA]. pose proof (values_pos x). unfold Size_counted, with_count.
  pose proof (info_any D k G s Hk HA) as T. destruct (run (cachedStructInfoOf D (walk_fuel D) k) s) as [[i| |] s']; cbn [fst]; [|lia..].
  destruct T as (G' & A1 & _). pose proof (heap_distinct D G' s' A1) as Hd.
  pose proof (sizes_bound (hlook s') (higet s') Hd i x). destruct (cstruct_size_counts (hlook s') (higet s') i x) as (_ & C & _). destruct (cstruct_size _ _ _ _) as [n r]. cbn [fst] in *. lia.
Qed.
Lemma marshal_calls_proof D s k x : reachable D s -> user_key D k = true -> 0 <= fst (Marshal_counted D k x s) <= (1 + nesting x) * (values x - 1).
Proof.
  intros Hr Hk. destruct (reachable_AI D s Hr) as [G HA]. pose proof (values_pos x). pose proof (nesting_pos x). unfold Marshal_counted, with_count.
  pose proof (info_any D k G s Hk HA) as T. destruct (run (cachedStructInfoOf D (walk_fuel D) k) s) as [[i| |] s']; cbn [fst]; [|nia..].
  destruct T as (G' & A1 & _). pose proof (heap_distinct D G' s' A1) as Hd.
  pose proof (sizes_bound (hlook s') (higet s') Hd i x). pose proof (encs_bound (hlook s') (higet s') Hd i x).
  destruct (marshal_counts (hlook s') (higet s') i x) as (_ & C & _). destruct (cbind _ _) as [n r]. cbn [fst] in *. nia.
Qed.
