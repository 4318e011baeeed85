(** Every value of a message type has a place in memory. *)
From Coq Require Import ZifyBool ZifyNat ZifyN.
From Verif Require Import Base Wire GoType Leaf Codec Resolve Typing TypingFacts CodecSim
  Unsafe SpecUnsafe UnsafeMem UnsafeRep UnsafeLeaf UnsafeEnc UnsafeDec.
Local Open Scope nat_scope.

Section Build.
Variable D : decls.
Variable other : nat -> nat -> nat * nat.
Notation rep := (rep D other true).
Notation box := (box D other true).
Notation rep_struct := (rep_struct D other true).

(** A new object for the value. *)
Definition can (v : val) : Prop := forall t, wt D v t = true -> forall H, exists H' x S,
  touch none H H' /\ rep H' t (x, 0) v S /\ disjoint (range (x, 0) (tsize t)) S /\ subset (union (range (x, 0) (tsize t)) S) (unborn H).

Lemma fresh_range H n : subset (range (length H, 0) n) (unborn H).
Proof. intros b o [-> _]. unfold unborn. cbn. lia. Qed.
Lemma one_object H H1 c S t v : touch none H H1 -> subset S (unborn H) -> subset S (born H1) ->
  (forall H2, extends H1 H2 -> same_on S H1 H2 -> holds H2 (length H1, 0) c -> rep H2 t (length H1, 0) v S) ->
  exists H' x S, touch none H H' /\ rep H' t (x, 0) v S /\ disjoint (range (x, 0) (tsize t)) S /\ subset (union (range (x, 0) (tsize t)) S) (unborn H).
Proof.
  intros T QS BS F. pose proof (alloc_touch none H1 (OMem c)) as T1. pose proof (touch_len _ _ _ T) as L.
  assert (Q : subset (range (length H1, 0) (tsize t)) (unborn H1)) by apply fresh_range.
  exists (H1 ++ [OMem c]), (length H1), S. split; [eapply touch_trans; [exact T|exact T1|intros b o []]|].
  split; [|split].
  - apply F; [exact (touch_ext _ _ _ T1)|eapply touch_same; [exact T1|exact BS|apply disjoint_none_r]|apply alloc_holds].
  - apply disjoint_sym. eapply disjoint_sub; [apply born_unborn; exact BS|apply subset_refl|exact Q].
  - apply subset_union; [|exact QS]. eapply subset_trans; [exact Q|apply unborn_mono; exact L].
Qed.
Lemma none_sub A : subset none A. Proof. intros b o []. Qed.

(** Values in objects of their own. *)
Lemma scatter vs : Forall can vs -> forall ts, all2 (wt D) vs ts = true -> forall H, exists H' xs S,
  touch none H H' /\ length xs = length ts /\ box H' (combine ts (map (fun x => (x, 0)) xs)) vs S /\ subset S (unborn H).
Proof.
  induction 1 as [|v vs Hv _ IH]; intros [|t ts] W H; try discriminate.
  - exists H, [], none. split; [apply touch_refl|]. split; [reflexivity|]. split; [constructor|apply none_sub].
  - cbn [all2] in W. apply andb_prop in W as [W1 W2].
    destruct (Hv t W1 H) as (H1 & x & S1 & T1 & R1 & D1 & Q1).
    destruct (IH ts W2 H1) as (H2 & xs & S2 & T2 & L2 & B2 & Q2).
    assert (B1 : subset (union (range (x, 0) (tsize t)) S1) (born H1)).
    { apply subset_union; [eapply rep_range; exact R1|eapply rep_born; exact R1]. }
    exists H2, (x :: xs), (union (union (range (x, 0) (tsize t)) S1) S2).
    split; [eapply touch_trans; [exact T1|exact T2|apply none_sub]|]. split; [cbn; lia|]. split.
    + cbn [map combine]. apply box_cons; [|exact B2|intros _; exact D1|].
      * eapply frame_rep; [exact R1|exact T2|apply disjoint_none_r].
      * intros _. eapply disjoint_sub; [apply born_unborn; exact B1|apply subset_refl|exact Q2].
    + apply subset_union; [exact Q1|]. eapply subset_trans; [exact Q2|apply unborn_mono; eapply touch_len; exact T1].
Qed.
(** Values copied into one object. *)
Lemma gather H ts : forall xs vs S lay o, box H (combine ts (map (fun x => (x, 0)) xs)) vs S -> length xs = length ts ->
  Forall2 (fun t l => tsize t <= fst l) ts lay -> exists c, length c = fields_end o lay - o /\
  forall H2 x, extends H H2 -> same_on S H H2 -> length H <= x -> holds H2 (x, o) c ->
    exists S', box H2 (combine ts (map (shift (x, 0)) (offsets o lay))) vs S' /\ subset S' (union (range (x, o) (length c)) S).
Proof.
  induction ts as [|t ts IH]; intros [|y xs] vs S lay o Bx Ll F; try discriminate Ll.
  - inversion F; subst. apply box_inv_nil in Bx as [-> ->]. exists []. cbn [fields_end length]. split; [lia|].
    intros H2 x _ _ _ _. exists none. split; [constructor|apply none_sub].
  - inversion F as [|? [sz al] ? lay' Hle F']; subst. cbn [map combine] in Bx. cbn [fst] in Hle.
    apply box_inv in Bx as (v & vs' & S1 & S2 & -> & R & Bx & A1 & A2 & ->). specialize (A1 eq_refl). specialize (A2 eq_refl).
    set (o1 := round_up al o). pose proof (round_up_le other al o) as Lo. fold o1 in Lo.
    destruct (IH xs vs' S2 lay' (o1 + sz) Bx ltac:(cbn in Ll; lia) F') as (c2 & Lc2 & F2).
    destruct (rep_load _ _ _ _ _ _ _ _ R) as [c1 L1]. pose proof (load_length _ _ _ _ L1) as Lc1.
    pose proof (fields_end_le other lay' (o1 + sz)) as Le.
    exists (zeros (o1 - o) ++ c1 ++ zeros (sz - tsize t) ++ c2). cbn [fields_end]. fold o1.
    split; [rewrite !app_length, !zeros_length; lia|].
    intros H2 x X Sa Lx K. apply holds_app in K as [_ K]. rewrite zeros_length in K. apply holds_app in K as [K1 K].
    apply holds_app in K as [_ K2]. rewrite zeros_length, Lc1 in K2.
    replace (shift (shift (shift (x, o) (o1 - o)) (tsize t)) (sz - tsize t)) with (x, o1 + sz) in K2 by (unfold shift; cbn; f_equal; lia).
    replace (shift (x, o) (o1 - o)) with (x, o1) in K1 by (unfold shift; cbn; f_equal; lia).
    destruct (F2 H2 x X) as (S3 & B3 & Q3); [eapply same_on_sub; [exact Sa|intros b o0 Hb; right; exact Hb]|exact Lx|exact K2|].
    assert (R' : rep H2 t (x, o1) v S1).
    { eapply rep_move; [exact R|exact X|rewrite L1; unfold holds in K1; rewrite Lc1 in K1; exact K1|].
      eapply same_on_sub; [exact Sa|]. intros b o0 Hb. left. right. exact Hb. }
    pose proof (rep_born _ _ _ _ _ _ _ _ R) as B1. pose proof (box_born _ _ _ _ _ _ _ Bx) as B2.
    assert (U : forall o0 n, subset (range (x, o0) n) (unborn H)) by (intros o0 n b oo [-> _]; exact Lx).
    exists (union (union (range (x, o1) (tsize t)) S1) S3). split.
    + cbn [offsets map combine]. fold o1. replace (shift (x, 0) o1) with (x, o1) by (unfold shift; cbn; f_equal; lia).
      apply box_cons; [exact R'|exact B3| |].
      * intros _. apply disjoint_sym. eapply disjoint_sub; [apply born_unborn; exact B1|apply subset_refl|apply U].
      * intros _ b oo [Hb|Hb] Hs; apply Q3 in Hs as [Hs|Hs].
        -- destruct Hb as [_ Hb], Hs as [_ Hs]. cbn [fst snd] in *. lia.
        -- eapply born_unborn; [exact B2|exact Hs|eapply U; exact Hb].
        -- eapply born_unborn; [exact B1|exact Hb|eapply U; exact Hs].
        -- eapply A2; [right; exact Hb|exact Hs].
    + rewrite !app_length, !zeros_length. intros b oo [[Hb|Hb]|Hb].
      * left. destruct Hb as [-> Hb]. split; [reflexivity|]. cbn [fst snd] in *. lia.
      * right. left. right. exact Hb.
      * apply Q3 in Hb as [Hb|Hb]; [|right; right; exact Hb]. left. destruct Hb as [-> Hb]. split; [reflexivity|]. cbn [fst snd] in *. lia.
Qed.
(** Both: a new object with several values. *)
Lemma together vs ts lay : Forall can vs -> all2 (wt D) vs ts = true -> Forall2 (fun t l => tsize t <= fst l) ts lay -> forall H, exists H' x S,
  touch none H H' /\ box H' (combine ts (map (shift (x, 0)) (offsets 0 lay))) vs S /\ subset S (unborn H).
Proof.
  intros Hc W F H. destruct (scatter vs Hc ts W H) as (H1 & xs & S & T1 & Ll & Bx & Q).
  destruct (gather H1 ts xs vs S lay 0 Bx Ll F) as (c & Lc & G).
  pose proof (alloc_touch none H1 (OMem c)) as T2.
  destruct (G (H1 ++ [OMem c]) (length H1)) as (S' & B' & Q').
  - exact (touch_ext _ _ _ T2).
  - eapply touch_same; [exact T2|eapply box_born; exact Bx|apply disjoint_none_r].
  - lia.
  - apply alloc_holds.
  - exists (H1 ++ [OMem c]), (length H1), S'. split; [eapply touch_trans; [exact T1|exact T2|apply none_sub]|]. split; [exact B'|].
    intros b o Hb. apply Q' in Hb as [Hb|Hb]; [|apply Q, Hb]. pose proof (touch_len _ _ _ T1). destruct Hb as [-> _]. unfold unborn. cbn. lia.
Qed.

Lemma elems_combine e p n : forall o, combine (repeat e n) (map (shift p) (offsets o (repeat (tsize e, 1) n))) = map (fun i => (e, shift p (o + i * tsize e))) (seq 0 n).
Proof.
  induction n as [|n IH]; intros o; [reflexivity|]. cbn [repeat offsets map combine seq].
  replace (round_up 1 o) with o by (unfold round_up; cbn [Nat.eqb]; rewrite Nat.div_1_r; lia).
  f_equal; [f_equal; f_equal; lia|]. rewrite IH. rewrite <- seq_shift, map_map. apply map_ext. intros i. do 2 f_equal. cbn [Nat.mul]. lia.
Qed.
Lemma repeat_fits e n : Forall2 (fun t l => tsize t <= fst l) (repeat e n) (repeat (tsize e, 1) n).
Proof. induction n; cbn; constructor; auto. Qed.
Lemma all2_repeat e vs : forallb (fun x => wt D x e) vs = true -> all2 (wt D) vs (repeat e (length vs)) = true.
Proof. induction vs as [|v vs IH]; cbn; [reflexivity|]. intros H. apply andb_prop in H as [-> H]. rewrite IH; auto. Qed.
Lemma array vs e : Forall can vs -> forallb (fun x => wt D x e) vs = true -> forall H, exists H' x S,
  touch none H H' /\ box H' (elems e (x, 0) (length vs)) vs S /\ subset S (unborn H).
Proof.
  intros Hc W H. destruct (together vs _ _ Hc (all2_repeat _ _ W) (repeat_fits e (length vs)) H) as (H' & x & S & T & Bx & Q).
  exists H', x, S. split; [exact T|]. split; [|exact Q]. rewrite elems_combine in Bx. exact Bx.
Qed.
Lemma slots_combine k e l : combine (flat_map (fun _ => [TScalar k; e]) l) (map (fun x => (x, 0)) (flat_map (fun xy => [fst xy; snd xy]) l)) = slots k e l.
Proof. induction l as [|[x y] l IH]; [reflexivity|]. cbn. f_equal. f_equal. exact IH. Qed.
Lemma pairs n : forall xs : list nat, length xs = n + n -> exists l, length l = n /\ xs = flat_map (fun xy => [fst xy; snd xy]) l.
Proof.
  induction n as [|n IH]; intros xs E.
  - destruct xs; [|discriminate]. exists []. auto.
  - destruct xs as [|x [|y xs]]; cbn in E; try lia. destruct (IH xs ltac:(lia)) as (l & L & ->). exists ((x, y) :: l). cbn. auto.
Qed.
Lemma flat_types k e (l : list (val * val)) (l' : list (nat * nat)) : length l' = length l ->
  flat_map (fun _ => [TScalar k; e]) l' = flat_map (fun _ => [TScalar k; e]) l.
Proof. revert l'. induction l as [|x l IH]; intros [|y l'] E; try discriminate; [reflexivity|]. cbn. do 2 f_equal. apply IH. cbn in E. lia. Qed.
Lemma entries_build l k e : Forall (fun kv => can (fst kv) /\ can (snd kv)) l ->
  forallb (fun kv => match kv with (a, x) => wt D a (TScalar k) && wt D x e end) l = true -> forall H, exists H' xs S,
  touch none H H' /\ length xs = length l /\ box H' (slots k e xs) (flat l) S /\ subset S (unborn H).
Proof.
  intros Hc W H.
  assert (F : Forall can (flat l)).
  { clear W. induction Hc as [|[a x] l [H1 H2] _ IH]; [constructor|]. cbn. constructor; [exact H1|]. constructor; [exact H2|exact IH]. }
  assert (W' : all2 (wt D) (flat l) (flat_map (fun _ => [TScalar k; e]) l) = true).
  { clear Hc F. induction l as [|[a x] l IH]; [reflexivity|]. cbn in W |- *. apply andb_prop in W as [W1 W2]. apply andb_prop in W1 as [-> ->]. cbn. auto. }
  destruct (scatter _ F _ W' H) as (H' & xs & S & T & L & Bx & Q).
  assert (Lx : length xs = length l + length l).
  { rewrite L. clear. induction l as [|a l IH]; [reflexivity|]. cbn. rewrite IH. lia. }
  destruct (pairs _ _ Lx) as (l' & Ll & ->). exists H', l', S. split; [exact T|]. split; [exact Ll|]. split; [|exact Q].
  rewrite <- slots_combine. rewrite (flat_types k e l l' Ll). exact Bx.
Qed.

Theorem build : forall v, can v.
Proof.
  induction v as [v IH] using val_ind2. intros t W H.
  assert (Num : forall cs k, t = TScalar k -> k_cells v = Some cs ->
    exists H' x S, touch none H H' /\ rep H' t (x, 0) v S /\ disjoint (range (x, 0) (tsize t)) S /\ subset (union (range (x, 0) (tsize t)) S) (unborn H)).
  { intros cs k -> E. eapply (one_object H H cs none); [apply touch_refl|apply none_sub|apply none_sub|]. intros H2 _ _ K. eapply rep_num; eassumption. }
  destruct v as [b|z|z|n|n|n|n|s|[d|]|f x|nn items spare|[l|]|[x|]|fs|n]; destruct t as [k| |k|t|k t|t|sid|]; try discriminate W; try (destruct x; discriminate W);
    try (eapply Num; reflexivity).
  - (* strings *) destruct k; try discriminate. cbn [wt] in W.
    eapply (one_object H (H ++ [OStr s]) (str_hdr (Some (length H, 0)) (length s)) none); [apply alloc_touch|apply none_sub|apply none_sub|].
    intros H2 X _ K. eapply rep_str; [exact W| |exact K]. eapply extends_text; [exact X|].
    pose proof (text_some (H ++ [OStr s]) (length H) 0 s (length s) (alloc_nth _ _) (le_n _)) as Tx.
    rewrite skipn_O, firstn_all in Tx. exact Tx.
  - (* bytes *) cbn [wt] in W.
    eapply (one_object H (H ++ [OMem (map MB d)]) (hdr (Some (length H, 0)) (length d) (length d + 0)) (range (length H, 0) (length d + 0)));
      [apply alloc_touch|apply fresh_range| |].
    + intros b o [-> _]. unfold born. rewrite app_length. cbn. lia.
    + intros H2 X Sa K. change 0 with (length (@nil mv)). eapply rep_bytes; [exact W|exact K| |constructor]. rewrite app_nil_r.
      eapply holds_move; [apply alloc_holds|]. eapply same_load; [exact Sa|]. rewrite map_length. cbn [length]. rewrite Nat.add_0_r. apply subset_refl.
  - eapply (one_object H H (hdr None 0 0) none); [apply touch_refl|apply none_sub|apply none_sub|]. intros H2 _ _ K. constructor. exact K.
  - (* options *) cbn [wt] in W. destruct (IH (TScalar k) W H) as (H1 & y & S & T & R & _ & _).
    apply scalar_set in R as E. subst S. destruct (rep_load _ _ _ _ _ _ _ _ R) as [c L]. cbn [tsize] in L. pose proof (load_length _ _ _ _ L) as Lc.
    eapply (one_object H H1 ([MB (if f then 1 else 0)%N] ++ zeros (opt_value k - 1) ++ c) none); [exact T|apply none_sub|apply none_sub|].
    intros H2 X _ K. apply holds_app in K as [K1 K]. apply holds_app in K as [_ K]. rewrite zeros_length in K. cbn [length] in K.
    pose proof (opt_value_pos k) as Op. rewrite shift_shift in K. replace (1 + (opt_value k - 1)) with (opt_value k) in K by lia.
    apply rep_opt; [exact K1|]. eapply rep_move; [exact R|exact X| |intros b o []]. cbn [tsize]. rewrite L. unfold holds in K. rewrite Lc in K. exact K.
  - (* slices *) cbn [wt] in W. apply andb_prop in W as [W W3]. apply andb_prop in W as [W1 W2]. destruct IH as [I1 I2]. destruct nn.
    + destruct (array (items ++ spare) t) with (H := H) as (H1 & y & S & T & Bx & Q).
      { apply Forall_app. auto. }
      { rewrite forallb_app, W2, W3. reflexivity. }
      rewrite app_length in Bx.
      eapply (one_object H H1 (hdr (Some (y, 0)) (length items) (length items + length spare)) S); [exact T|exact Q|eapply box_born; exact Bx|].
      intros H2 X Sa K. eapply rep_slice; [exact K|]. eapply box_frame; [exact Bx|exact X|exact Sa].
    + destruct items, spare; try discriminate.
      eapply (one_object H H (hdr None 0 0) none); [apply touch_refl|apply none_sub|apply none_sub|]. intros H2 _ _ K. constructor. exact K.
  - (* maps *) cbn [wt] in W. apply andb_prop in W as [W _].
    destruct (entries_build l k t IH W H) as (H1 & xs & S & T & Ll & Bx & Q).
    pose proof (alloc_touch none H1 (OMap xs)) as T2. pose proof (touch_len _ _ _ T) as Len.
    assert (Dm : disjoint (whole (length H1)) S).
    { intros b o -> Hs. apply (box_born _ _ _ _ _ _ _ Bx) in Hs. unfold born in Hs. lia. }
    eapply (one_object H (H1 ++ [OMap xs]) (ptr_cells (Some (length H1, 0))) (union (whole (length H1)) S)).
    + eapply touch_trans; [exact T|exact T2|apply none_sub].
    + apply subset_union; [|exact Q]. intros b o ->. unfold unborn. lia.
    + apply subset_union; [intros b o ->; unfold born; rewrite app_length; cbn; lia|].
      eapply box_born. eapply frame_box; [exact Bx|exact T2|apply disjoint_none_r].
    + intros H2 X Sa K.
      assert (Em : nth_error H2 (length H1) = Some (OMap xs)).
      { specialize (Sa (length H1) 0 (or_introl eq_refl)). unfold spot in Sa. rewrite alloc_nth in Sa.
        destruct (nth_error H2 (length H1)) as [[c|s|l']|]; try discriminate.
        - destruct (nth_error c 0); discriminate.
        - inversion Sa. reflexivity. }
      eapply rep_map; [exact K|exact Em|exact Ll| |intros _; exact Dm].
      eapply box_frame; [|exact X|eapply same_on_sub; [exact Sa|intros b o Hb; right; exact Hb]].
      eapply frame_box; [exact Bx|exact T2|apply disjoint_none_r].
  - eapply (one_object H H (ptr_cells None) none); [apply touch_refl|apply none_sub|apply none_sub|]. intros H2 _ _ K. constructor. exact K.
  - (* pointers *) assert (W0 : wt D x t = true) by (destruct x; exact W). destruct IH as [IH _]. destruct (IH t W0 H) as (H1 & y & S & T & R & Dj & Q).
    eapply (one_object H H1 (ptr_cells (Some (y, 0))) (union (union (range (y, 0) (tsize t)) S) none)); [exact T| | |].
    + apply subset_union; [exact Q|apply none_sub].
    + apply subset_union; [apply subset_union; [eapply rep_range; exact R|eapply rep_born; exact R]|apply none_sub].
    + intros H2 X Sa K. eapply rep_ptr; [exact K|].
      apply box_cons; [|constructor|intros _; exact Dj|intros _; apply disjoint_none_r].
      eapply rep_frame; [exact R|exact X|]. eapply same_on_sub; [exact Sa|]. intros b o Hb. left. exact Hb.
  - (* pointers to messages *) destruct x as [| | | | | | | | | | | | |fs|]; try discriminate. cbn [wt] in W.
    destruct (nth_error D sid) as [gf|] eqn:Es; [|discriminate].
    destruct IH as [_ IH]. cbn beta iota in IH.
    destruct (together fs (field_types D sid) (layout D other (SNamed sid)) IH W) with (H := H) as (H1 & y & S & T & Bx & Q).
    { apply (layout_fits D other (SNamed sid)). discriminate. }
    eapply (one_object H H1 (ptr_cells (Some (y, 0))) S); [exact T|exact Q|eapply box_born; exact Bx|].
    intros H2 X Sa K. eapply rep_msg; [apply nth_error_Some; congruence|exact K|]. eapply box_frame; [exact Bx|exact X|exact Sa].
  - eapply (one_object H H (ptr_cells None) none); [apply touch_refl|apply none_sub|apply none_sub|]. intros H2 _ _ K. constructor. exact K.
  - eapply (one_object H H (ptr_cells None) none); [apply touch_refl|apply none_sub|apply none_sub|]. intros H2 _ _ K. constructor. exact K.
  - eapply (one_object H H [] none); [apply touch_refl|apply none_sub|apply none_sub|]. intros H2 _ _ _. constructor.
Qed.

Theorem build_struct k x : key_ok D k -> wts D x k = true -> forall H, exists H' y S,
  touch none H H' /\ rep_struct H' k (y, 0) x S /\ subset S (unborn H).
Proof.
  intros Hk W H. destruct k as [sid|k v kt vt|q].
  - cbn [wts] in W. destruct x as [| | | | | | | | | | | | |fs|]; try discriminate. cbn [wt] in W. destruct (nth_error D sid) eqn:Es; [|discriminate].
    destruct (together fs (field_types D sid) (layout D other (SNamed sid))) with (H := H) as (H1 & y & S & T & Bx & Q).
    { apply Forall_forall. intros; apply build. }
    { exact W. }
    { apply (layout_fits D other (SNamed sid)). discriminate. }
    exists H1, y, S. split; [exact T|]. split; [|exact Q]. exists fs. split; [reflexivity|exact Bx].
  - cbn [wts] in W. destruct x as [| | | | | | | | | | | | |fs|]; try discriminate.
    destruct (together fs [TScalar k; v] (layout D other (SEntry k v kt vt))) with (H := H) as (H1 & y & S & T & Bx & Q).
    { apply Forall_forall. intros; apply build. }
    { exact W. }
    { apply (layout_fits D other (SEntry k v kt vt)). discriminate. }
    exists H1, y, S. split; [exact T|]. split; [|exact Q]. exists fs. split; [reflexivity|exact Bx].
  - cbn [wts] in W. destruct (build x _ W H) as (H1 & y & S & T & R & Dj & Q).
    exists H1, y, (union (union (range (y, 0) (tsize (TOption q))) S) none). split; [exact T|]. split.
    + cbn. apply box_cons; [exact R|constructor|intros _; exact Dj|intros _; apply disjoint_none_r].
    + apply subset_union; [exact Q|apply none_sub].
Qed.
End Build.
