(** Decoding into typed memory: whatever is shared or points back, memory stays
    typed, and the number of bytes read and the error are those of decoding into
    any other value. *)
From Coq Require Import ZifyBool ZifyNat ZifyN.
From Verif Require Import Base Wire GoType Leaf Codec Tag Walker Resolve Api Typing SpecWire WireFacts DecodeFacts TypingFacts CodecSim
  Unsafe SpecUnsafe UnsafeMem UnsafeRep UnsafeLeaf UnsafeEqs UnsafeEnc UnsafeDec SpecTyped TypedFacts.
Local Open Scope nat_scope.

Section Leafs.
Variable D : decls.
Variable other : nat -> nat -> nat * nat.
Notation shaped := (shaped D other).
Notation typed := (typed D other).
Notation step := (step D other).

(** The value that is there before does not matter for bytes read and error. *)
Lemma leaf_any s t b v v0 v' n e : static_fits s t = true -> wt D v t = true -> wt D v0 t = true -> bytes_okb b = true -> small b ->
  l_decode (static s) b v = DRet v' n e -> exists v0', l_decode (static s) b v0 = DRet v0' n e.
Proof.
  intros Hf V V0 B Sm E.
  assert (Base : forall w m v v0 v', m <> Optional -> wt D v (TScalar (mem_kind w)) = true -> wt D v0 (TScalar (mem_kind w)) = true ->
    l_decode (static (SC w m)) b v = DRet v' n e -> exists v0', l_decode (static (SC w m)) b v0 = DRet v0' n e).
  { clear - B Sm. intros w m v v0 v' Hm V V0 E.
    assert (N : forall u, l_decode (static (SC w m)) b u = l_decode (static (SC w Normal)) b u).
    { intros u. destruct m; [reflexivity|apply req_decode|contradiction]. }
    rewrite N in E. rewrite N.
    destruct (static_dec_ok D (SC w Normal) (TScalar (mem_kind w)) b v0) as (v2 & n2 & e2 & E2 & _); try assumption.
    { cbn [static_fits]. apply gotype_eqb_eq. destruct w; reflexivity. }
    pose proof (decode_any D w b v _ n e v' V eq_refl E) as Q. pose proof (decode_any D w b v0 _ n2 e2 v2 V0 eq_refl E2) as Q2.
    rewrite E2. exists v2. destruct w; try (rewrite Q in Q2; inversion Q2; reflexivity).
    destruct b; [|rewrite Q in Q2; inversion Q2; reflexivity]. destruct Q as (_ & -> & ->), Q2 as (_ & -> & ->). reflexivity. }
  destruct s as [w m|].
  - assert (Hm : m <> Optional -> t = TScalar (mem_kind w)).
    { intros N. destruct m; cbn [static_fits] in Hf; try contradiction; apply gotype_eqb_eq in Hf; subst; destruct w; reflexivity. }
    destruct m; [rewrite Hm in * by discriminate; eapply Base; [| | |exact E]; [discriminate|assumption..]|
      rewrite Hm in * by discriminate; eapply Base; [| | |exact E]; [discriminate|assumption..]|].
    cbn [static_fits] in Hf. apply gotype_eqb_eq in Hf. assert (t = TOption (mem_kind w)) as -> by (rewrite Hf; destruct w; reflexivity).
    destruct v as [| | | | | | | |[]|fl x| |[]|[[]|]| |]; try discriminate V. destruct v0 as [| | | | | | | |[]|fl0 x0| |[]|[[]|]| |]; try discriminate V0.
    cbn [wt] in V, V0.
    assert (X : forall u, l_decode (static (SC w Optional)) b u = decodeOption (l_decode (static (SC w Required))) b u) by (destruct w; reflexivity).
    rewrite X in E |- *. cbn [decodeOption] in *. destruct (l_decode (static (SC w Required)) b x) as [x' n' e'|c|] eqn:Ex; try discriminate.
    cbn [dmap] in E. inversion E; subst.
    destruct (Base w Required x x0 x') as [x2 ->]; [discriminate|assumption..|]. cbn [dmap]. eauto.
  - cbn in Hf. apply gotype_eqb_eq in Hf. subst t. destruct v as [| | | | | | | |o| | |[]|[[]|]| |]; try discriminate V.
    destruct v0 as [| | | | | | | |o0| | |[]|[[]|]| |]; try discriminate V0. exists v'. exact E.
Qed.
Lemma rep_wt H t a v S : rep D other true H t a v S -> match t with TScalar _ | TOption _ => wt D v t = true | _ => True end.
Proof.
  intros R. destruct t; auto.
  - inversion R; subst; [assumption|]. cbn. assumption.
  - inversion R; subst. cbn [wt]. match goal with R : SpecUnsafe.rep _ _ _ _ (TScalar _) _ _ _ |- _ => inversion R; subst end; [assumption|]. cbn. assumption.
Qed.

Lemma okb_nth d i x : bytes_okb d = true -> nth_error d i = Some x -> (x < 256)%N.
Proof. intros B E. unfold bytes_okb in B. rewrite forallb_forall in B. apply nth_error_In in E. apply B in E. lia. Qed.

Variable grow : nat -> nat.
Lemma store_hdr W H a p n c : typed W H -> wval W TBytes a -> n <= c -> (forall i, i < c -> wbyte W (shift p i)) ->
  exists H', store H a (hdr (Some p) n c) = Some H' /\ step W H W H'.
Proof.
  intros T V L P. destruct (shaped_load D other _ _ _ _ (ty_val _ _ _ _ T _ _ V)) as [l Ll].
  destruct (store_spec (hdr (Some p) n c) H a) as (H' & E & X & _ & K); rewrite hdr_length in *; [eauto|].
  exists H'. split; [exact E|]. eapply step_store; [exact T|exact V|exact X|apply subset_refl| |exact Logic.I].
  exists (Some p), n, c. split; [exact K|]. split; [exact L|exact P].
Qed.
Lemma typed_bytes_decode W H b a n e v v' : typed W H -> wval W TBytes a -> bytes_okb b = true -> small b ->
  l_decode (static SCBytes) b v = DRet v' n e ->
  exists H' W', u_decode_bytes grow H b a = DRet H' n e /\ step W H W' H'.
Proof.
  intros T V B Sm E. cbn [static bytesCodec l_decode] in E. unfold decodeBytes in E. unfold u_decode_bytes.
  destruct (decodeVarlen_ok b Sm B) as (y & n0 & e0 & Ev & Hy). rewrite Ev in *.
  set (d := match y with Some d => d | None => [] end) in *.
  assert (n0 = n /\ e0 = e) as [-> ->] by (destruct v; try discriminate; inversion E; auto). clear E Ev.
  destruct (ty_val _ _ _ _ T _ _ V) as (p & l & c & K & Lc & P). apply holds_hdr in K as (-> & _ & ->).
  assert (Nb : forall i, i < length d -> exists x, (x < 256)%N /\ nth_error (map MB d) i = Some (MB x)).
  { intros i Hi. destruct (nth_error d i) as [x|] eqn:Ex; [|apply nth_error_None in Ex; lia].
    exists x. split; [eapply okb_nth; eassumption|]. rewrite nth_error_map, Ex. reflexivity. }
  (* an existing array *)
  assert (Old : forall W0 H0 p c, step W H W0 H0 -> (forall i, i < c -> wbyte W0 (shift p i)) -> length d <= c ->
    exists H' W', match store H0 p (map MB d) with
               | Some H2 => dopt (store H2 a (hdr (Some p) (length d) c)) n e
               | None => DCrash Confused end = DRet H' n e /\ step W H W' H').
  { clear P Lc. intros W0 H0 p0 c0 S0 P Le. pose proof (s_typed _ _ _ _ _ _ S0) as T0.
    destruct (store_spec (map MB d) H0 p0) as (H2 & -> & X2 & _ & K2).
    { rewrite map_length. apply load_some. intros i Hi. destruct (ty_byte _ _ _ _ T0 _ (P i ltac:(lia))) as (x & _ & C).
      cbn [shift fst snd] in C. congruence. }
    rewrite map_length in X2.
    assert (S2 : step W0 H0 W0 H2).
    { eapply step_bytes; [exact T0| |exact X2|]; [intros i Hi; apply P; lia|].
      intros i Hi. destruct (Nb i Hi) as (x & Lx & Ex). exists x. split; [exact Lx|]. eapply holds_cell; eassumption. }
    destruct (store_hdr W0 H2 a p0 (length d) c0) as (H3 & -> & S3).
    { exact (s_typed _ _ _ _ _ _ S2). }
    { apply (gr_val _ _ _ (s_grows _ _ _ _ _ _ S0)), V. }
    { exact Le. }
    { exact P. }
    exists H3, W0. split; [reflexivity|]. eapply step_trans; [exact S0|]. eapply step_trans; eassumption. }
  destruct p as [p|].
  - destruct (length d <=? c) eqn:Ele.
    + destruct (Old W H p c (step_refl _ _ _ _ T) P ltac:(lia)) as (H' & W' & E' & S). eauto.
    + cbn [alloc]. set (m := length d + grow (length d)).
      destruct (new_bytes D other W H m (map MB d ++ zeros (grow (length d))) T) as [T1 G1].
      { intros i Hi. destruct (le_lt_dec (length d) i) as [Ge|Lt].
        - exists 0%N. split; [lia|]. rewrite nth_error_app2 by (rewrite map_length; exact Ge). rewrite map_length. unfold zeros.
          apply nth_error_repeat. lia.
        - rewrite nth_error_app1 by (rewrite map_length; exact Lt). apply Nb, Lt. }
      pose proof (step_new _ _ _ _ _ _ T (conj T1 G1)) as S1.
      destruct (store_hdr _ _ a (length H, 0) (length d) m T1) as (H2 & E2 & S2).
      { left. exact V. }
      { unfold m. lia. }
      { intros i Hi. right. exists i. split; [exact Hi|reflexivity]. }
      eexists. eexists. split; [exact (f_equal (fun o => dopt o n e) E2)|]. eapply step_trans; eassumption.
  - cbn [alloc]. rewrite Nat.leb_refl.
    destruct (new_bytes D other W H (length d) (zeros (length d)) T) as [T1 G1].
    { intros i Hi. exists 0%N. split; [lia|]. unfold zeros. apply nth_error_repeat. exact Hi. }
    pose proof (step_new _ _ _ _ _ _ T (conj T1 G1)) as S1.
    eapply Old; [exact S1| |lia]. intros i Hi. right. exists i. split; [exact Hi|reflexivity].
Qed.

Lemma typed_leaf s t W H b a v n e v' : static_fits s t = true -> wt D v t = true -> typed W H -> wval W t a -> bytes_okb b = true -> small b ->
  l_decode (static s) b v = DRet v' n e ->
  exists H' W', u_decode grow s H b a = DRet H' n e /\ step W H W' H'.
Proof.
  intros Hf Hv T V B Sm E.
  assert (C : s = SCBytes \/ match t with TScalar _ | TOption _ => True | _ => False end).
  { destruct s as [w m|]; [right|left; reflexivity]. destruct m; cbn in Hf; apply gotype_eqb_eq in Hf; subst; exact Logic.I. }
  destruct C as [->|C].
  - cbn [static_fits] in Hf. apply gotype_eqb_eq in Hf. subst t. eapply typed_bytes_decode; eassumption.
  - assert (R : exists v0, rep D other true H t a v0 none) by (pose proof (ty_val _ _ _ _ T _ _ V) as R; destruct t; try contradiction; exact R).
    destruct R as [v0 R]. assert (V0 : wt D v0 t = true) by (pose proof (rep_wt _ _ _ _ _ R) as Q; destruct t; try contradiction; exact Q).
    destruct (leaf_any s t b v v0 v' n e Hf Hv V0 B Sm E) as [v1 E1].
    destruct (leaf_decode D other grow s t H b a v0 none n e v1 Hf R (disjoint_none_r _) B Sm E1) as (H' & S' & -> & R' & _ & Q & X).
    exists H', W. split; [reflexivity|].
    assert (X' : touch (range a (tsize t)) H H').
    { eapply touch_weaken; [exact X|]. intros b0 o0 [Hb|[]]. left. exact Hb. }
    eapply step_store; [exact T|exact V|exact X'|apply subset_refl| |destruct t; try contradiction; exact Logic.I].
    assert (S' = none) as ->.
    { destruct t; try contradiction; [eapply scalar_none; exact R'|]. apply rep_opt_inv in R' as (f & x & _ & _ & R' & _). eapply scalar_none; exact R'. }
    destruct t; try contradiction; exists v1; exact R'.
Qed.
End Leafs.

Section Dec.
Variable D : decls.
Hypothesis HD : decls_fit D = true.
Variable other : nat -> nat -> nat * nat.
Variable grow : nat -> nat.
Variable pick : ust -> skey -> option nat.
Notation shaped := (shaped D other).
Notation typed := (typed D other).
Notation struct_at := (struct_at D other).
Notation step := (step D other).
Notation ssize := (ssize D other).
Notation placed := (placed D other).
Notation udec := (udec grow pick plook (piget D) D other).
Notation udecs := (udecs grow pick plook (piget D) D other).
Notation dec := (dec plook (piget D) D).
Notation decs := (decs plook (piget D) D).

Lemma pooled_grows H W W' l : grows H W W' -> pooled W l -> pooled W' l.
Proof. intros G P k a I. apply (gr_entry _ _ _ G), P, I. Qed.
Lemma step_pooled W H W' H' l : step W H W' H' -> pooled W l -> pooled W' l.
Proof. intros S. eapply pooled_grows. exact (s_grows _ _ _ _ _ _ S). Qed.
Lemma step_val W H W' H' t a : step W H W' H' -> wval W t a -> wval W' t a.
Proof. intros S. apply (gr_val _ _ _ (s_grows _ _ _ _ _ _ S)). Qed.

(** ** Pointers *)
Definition points (t : gotype) (W : world) (q : addr) : Prop :=
  match t with
  | TPtr e => wval W e q
  | TMsg sid => struct_at W (SNamed sid) q
  | TMap k e => snd q = 0 /\ wmap W (fst q) k e
  | _ => False
  end.
Lemma store_to W H t a q : typed W H -> wval W t a -> points t W q ->
  exists H', store H a (ptr_cells (Some q)) = Some H' /\ step W H W H' /\ holds H' a (ptr_cells (Some q)).
Proof.
  intros T V P. assert (Ht : tsize t = 8) by (destruct t; try contradiction; reflexivity).
  destruct (shaped_load D other _ _ _ _ (ty_val _ _ _ _ T _ _ V)) as [l Ll]. rewrite Ht in Ll.
  destruct (store_spec (ptr_cells (Some q)) H a) as (H' & E & X & _ & K); rewrite ptr_cells_length in *; [eauto|].
  exists H'. split; [exact E|]. split; [|exact K]. eapply step_store; [exact T|exact V|exact X|rewrite Ht; apply subset_refl| |].
  - destruct t; try contradiction; exists (Some q); (split; [exact K|exact P]).
  - destruct t; try contradiction; try exact Logic.I. intros p _. exists q. exact K.
Qed.

Definition tcodec_ok (fuel : nat) : Prop := forall p t W st b a v v' n e,
  codec_fits D p t = true -> type_depth t <= Nat.max 1 (decls_depth D) -> wt D v t = true ->
  typed W (hp st) -> pooled W (pl st) -> wval W t a -> bytes_okb b = true -> small b ->
  dec fuel p b v = DRet v' n e ->
  exists st' W', udec fuel p st b a = DRet st' n e /\ step W (hp st) W' (hp st') /\ pooled W' (pl st').
Definition tstruct_ok (fuel : nat) : Prop := forall k W st b off a x x' n e,
  key_ok D k -> wts D x k = true -> typed W (hp st) -> pooled W (pl st) -> struct_at W k a -> bytes_okb b = true -> small b ->
  decs fuel k b off x = DRet x' n e ->
  exists st' W', udecs fuel k k st b off a = DRet st' n e /\ step W (hp st) W' (hp st') /\ pooled W' (pl st').

Section Step.
Variable fuel : nat.
Hypothesis IH1 : tcodec_ok fuel.
Hypothesis IH2 : tstruct_ok fuel.

Lemma t_static s t W st b a v v' n e : static_fits s t = true -> wt D v t = true ->
  typed W (hp st) -> pooled W (pl st) -> wval W t a -> bytes_okb b = true -> small b ->
  l_decode (static s) b v = DRet v' n e ->
  exists st' W', lift st (u_decode grow s (hp st) b a) = DRet st' n e /\ step W (hp st) W' (hp st') /\ pooled W' (pl st').
Proof.
  intros Hf Hv T P V B Sm E. destruct (typed_leaf D other grow s t W (hp st) b a v n e v' Hf Hv T V B Sm E) as (H' & W' & -> & S).
  exists (with_hp st H'), W'. split; [reflexivity|]. split; [exact S|]. eapply step_pooled; eassumption.
Qed.

Lemma t_ptr e q W st b a v v' n er : flat_fits D q e = true -> type_depth (TPtr e) <= Nat.max 1 (decls_depth D) -> wt D v (TPtr e) = true ->
  typed W (hp st) -> pooled W (pl st) -> wval W (TPtr e) a -> bytes_okb b = true -> small b ->
  dec (S fuel) (PPtr e q) b v = DRet v' n er ->
  exists st' W', udec (S fuel) (PPtr e q) st b a = DRet st' n er /\ step W (hp st) W' (hp st') /\ pooled W' (pl st').
Proof.
  intros Hf Hd Hv T P V B Sm E. cbn [type_depth] in Hd. rewrite dec_S in E. cbn [plook] in E. rewrite udec_S. cbn [plook].
  assert (Ex : exists x x', wt D x e = true /\ dec fuel q b x = DRet x' n er).
  { assert (exists o, v = VPtr o) as [o ->] by (destruct v as [| | | | | | | |[]| | |[]|o| |]; try discriminate Hv; eauto). cbv zeta in E.
    exists (match o with Some x => x | None => zero e end).
    destruct (dec fuel q b _) as [x' n' er'|c|]; try discriminate. cbn [dmap] in E. inversion E; subst. exists x'. split; [|reflexivity].
    destruct o as [x|]; [destruct x; exact Hv|apply zero_wt]. }
  destruct Ex as (x & x' & Hx & Ex). clear E.
  destruct (ty_val _ _ _ _ T _ _ V) as (p & K & Pp). rewrite (holds_ptr _ _ _ K). cbn [dbind].
  destruct p as [p|].
  - eapply IH1; [exact (flat_codec_fits _ _ _ Hf)|lia|exact Hx|eassumption..].
  - cbn [alloc].
    destruct (new_val D other W (hp st) e (zeros (tsize e)) T) as [T1 G1].
    { apply shaped_zero, alloc_holds. }
    pose proof (step_new _ _ _ _ _ _ T (conj T1 G1)) as S1.
    destruct (store_to _ _ (TPtr e) a (length (hp st), 0) T1) as (H2 & E2 & S2 & K2).
    { left. exact V. }
    { right. split; reflexivity. }
    match goal with |- context [store ?x ?y ?z] => replace (store x y z) with (Some H2) by (symmetry; exact E2) end. cbn [dbind].
    destruct (IH1 q e _ (with_hp st H2) b (length (hp st), 0) x x' n er (flat_codec_fits _ _ _ Hf) ltac:(lia) Hx (s_typed _ _ _ _ _ _ S2)) as (st' & W' & Eu & S3 & P3);
      try assumption.
    { eapply step_pooled; [exact S1|exact P]. }
    { right. split; reflexivity. }
    exists st', W'. split; [exact Eu|]. split; [|exact P3]. eapply step_trans; [exact S1|]. eapply step_trans; [exact S2|exact S3].
Qed.

Lemma t_struct k t W st b a v v' n er : flat_fits D (PStruct k) t = true -> wt D v t = true ->
  typed W (hp st) -> pooled W (pl st) -> wval W t a -> bytes_okb b = true -> small b ->
  dec (S fuel) (PStruct k) b v = DRet v' n er ->
  exists st' W', udec (S fuel) (PStruct k) st b a = DRet st' n er /\ step W (hp st) W' (hp st') /\ pooled W' (pl st').
Proof.
  intros Hf Hv T P V B Sm E. rewrite dec_S in E. cbn [plook] in E. rewrite udec_S. cbn [plook].
  assert (Hk : key_ok D k).
  { destruct k as [sid|? ? ? ?|q], t as [| | | | |[]| |]; try discriminate; cbn [flat_fits] in Hf; btrue; cbn; [assumption|exact Logic.I]. }
  assert (Ex : exists x, wts D x k = true /\
     (let '(_, n, e) := decodeVarint b in
     match e with
     | Some e => DRet (VPtr (Some x)) n (Some e)
     | None => match from_ b n with
               | None => DCrash Bounds
               | Some b' => match decs fuel k b' 0 x with DRet x l e => DRet (VPtr (Some x)) (n + l)%Z e | DCrash c => DCrash c | DFuel => DFuel end
               end
     end) = DRet v' n er).
  { assert (exists o, v = VPtr o) as [o ->].
    { destruct k as [sid|? ? ? ?|q], t as [| | | | |[]| |]; try discriminate Hf; destruct v as [| | | | | | | |[]| | |[]|o| |]; try discriminate Hv; eauto. }
    cbv zeta in E.
    exists (match o with Some x => x | None => zero_struct D k end). split; [|destruct o; exact E].
    destruct o as [x|]; [|apply zero_struct_wts; exact Hk].
    destruct k as [sid|? ? ? ?|q], t as [| | | | |[]| |]; try discriminate; cbn [flat_fits] in Hf; btrue; destruct x; exact Hv. }
  destruct Ex as (x & Hx & Ex). clear E.
  assert (Sh : exists p, holds (hp st) a (ptr_cells p) /\ match p with None => True | Some p => struct_at W k p end).
  { pose proof (ty_val _ _ _ _ T _ _ V) as Sh. destruct k as [sid|? ? ? ?|q], t as [| | | | |[]| |]; try discriminate; cbn [flat_fits] in Hf; btrue.
    - exact Sh.
    - destruct Sh as (p & K & Q). exists p. split; [exact K|]. destruct p; [|exact Logic.I]. intros t' p' [I|[]]. inversion I; subst. exact Q. }
  assert (Go : forall st2 W2 p, step W (hp st) W2 (hp st2) -> pooled W2 (pl st2) -> struct_at W2 k p ->
    exists st' W', (let '(_, n, e) := decodeVarint b in
      match e with
      | Some e => DRet st2 n (Some e)
      | None => match from_ b n with
                | None => DCrash Bounds
                | Some b' => match udecs fuel k k st2 b' 0 p with DRet s l e => DRet s (n + l)%Z e | DCrash c => DCrash c | DFuel => DFuel end
                end
      end) = DRet st' n er /\ step W (hp st) W' (hp st') /\ pooled W' (pl st')).
  { intros st2 W2 p S2 P2 A2. destruct (decodeVarint b) as [[w m] [ev|]].
    - inversion Ex; subst. exists st2, W2. auto.
    - destruct (from_ b m) as [b'|] eqn:Eb; [|discriminate]. destruct (from_sub _ _ _ Eb B Sm) as [B' Sm'].
      destruct (decs fuel k b' 0 x) as [x' l e'|c|] eqn:Ed; try discriminate. inversion Ex; subst; clear Ex.
      destruct (IH2 k W2 st2 b' 0%Z p x x' l er Hk Hx (s_typed _ _ _ _ _ _ S2) P2 A2 B' Sm' Ed) as (st' & W' & -> & S' & P').
      exists st', W'. split; [reflexivity|]. split; [eapply step_trans; eassumption|exact P']. }
  destruct Sh as (p & K & Q). rewrite (holds_ptr _ _ _ K). cbn [dbind]. destruct p as [p|].
  - destruct st as [hh pp]. apply (Go {| hp := hh; pl := pp |} W p); [apply step_refl; exact T|exact P|exact Q].
  - cbn [alloc].
    destruct (new_struct D other W (hp st) k false T) as [T1 G1].
    pose proof (step_new _ _ _ _ _ _ T (conj T1 G1)) as S1.
    destruct (store_to _ _ t a (length (hp st), 0) T1) as (H2 & E2 & S2 & K2).
    { left. exact V. }
    { destruct k as [sid|? ? ? ?|q], t as [| | | | |[]| |]; try discriminate; cbn [flat_fits] in Hf; btrue.
      - intros t' p' I. right. exact I.
      - right. left. reflexivity. }
    match goal with |- context [store ?x ?y ?z] => replace (store x y z) with (Some H2) by (symmetry; exact E2) end.
    cbn [option_map dbind]. eapply (Go (with_hp st H2)).
    + eapply step_trans; eassumption.
    + cbn. eapply step_pooled; [exact S1|exact P].
    + intros t' p' I. right. exact I.
Qed.

Lemma t_structs k W st b off a x x' n er :
  key_ok D k -> wts D x k = true -> typed W (hp st) -> pooled W (pl st) -> struct_at W k a -> bytes_okb b = true -> small b ->
  decs (S fuel) k b off x = DRet x' n er ->
  exists st' W', udecs (S fuel) k k st b off a = DRet st' n er /\ step W (hp st) W' (hp st') /\ pooled W' (pl st').
Proof.
  intros Hk Hx T P A B Sm E. rewrite decs_S in E. rewrite udecs_S.
  assert (Same : step W (hp st) W (hp st) /\ pooled W (pl st)) by (split; [apply step_refl; exact T|exact P]).
  destruct (off <? zlen b)%Z; [|inversion E; subst; exists st, W; split; [reflexivity|exact Same]].
  destruct (from_ b off) as [tl|]; [|discriminate].
  destruct (decodeTag tl) as [[[fn wt0] m] [et|]]; [inversion E; subst; exists st, W; split; [reflexivity|exact Same]|].
  cbv zeta in E |- *. destruct (lookup_field (piget D k) fn) as [f|] eqn:Ef.
  2:{ destruct (skip_unknown b (off + m) wt0) as [[o' [es|]]|c]; try discriminate.
      - inversion E; subst; exists st, W; split; [reflexivity|exact Same].
      - eapply IH2; eassumption. }
  destruct (negb (wt0 =? wireType f)%N); [inversion E; subst; exists st, W; split; [reflexivity|exact Same]|].
  destruct (field_data b (off + m) wt0) as [d|o' es|] eqn:Ed; [|inversion E; subst; exists st, W; split; [reflexivity|exact Same]|discriminate].
  destruct (field_data_sub _ _ _ _ Ed B Sm) as [Bd Smd].
  apply lookup_in in Ef. destruct (piget_field D k f HD Hk Ef) as (t & Et & C & Hd).
  assert (N : forall q, k <> SOpt q) by (intros q ->; cbn in Ef; contradiction).
  destruct (wts_struct _ _ _ N Hx) as (xs & -> & Hxs). destruct (all2_nth _ _ _ _ _ Hxs Et) as (y & Ey & Hy).
  cbn [get_field] in E. rewrite Ey in E.
  destruct (dec fuel (f_codec f) d y) as [y' m' e'|c|] eqn:Edy; try discriminate.
  pose proof (proj1 (dec_ok D HD fuel) (f_codec f) t d y C Hd Hy Bd Smd) as Hy'. rewrite Edy in Hy'.
  assert (Va : wval W t (field_addr D other k a f)).
  { unfold field_addr. apply A. eapply nth_error_In. apply placed_nth; [exact N|]. rewrite struct_types_key. exact Et. }
  destruct (IH1 (f_codec f) t W st d _ y y' m' e' C Hd Hy T P Va Bd Smd Edy) as (st1 & W1 & -> & S1 & P1).
  cbn [set_field] in E. destruct e' as [e'|].
  - inversion E; subst. exists st1, W1. auto.
  - destruct (IH2 k W1 st1 b (off + m + m')%Z a (VStruct (list_set xs (f_idx f) y')) x' n er Hk) as (st' & W' & -> & S' & P'); try assumption.
    + apply struct_wts; [exact N|exact Hk|]. eapply all2_set; eassumption.
    + exact (s_typed _ _ _ _ _ _ S1).
    + eapply struct_mono; [exact (s_grows _ _ _ _ _ _ S1)|exact A].
    + exists st', W'. split; [reflexivity|]. split; [eapply step_trans; eassumption|exact P'].
Qed.

(** *** Slices *)
Lemma hdr_inj H a p n c p' n' c' : holds H a (hdr p n c) -> holds H a (hdr p' n' c') -> p = p' /\ n = n' /\ c = c'.
Proof. intros K K'. apply hdr_ld in K. apply hdr_ld in K'. rewrite K in K'. inversion K'. auto. Qed.
Lemma set_len W H e a i p n c : typed W H -> wval W (TSlice e) a -> holds H a (hdr p n c) -> i + 1 <= c ->
  exists H', store H (shift a 8) (len_cells (i + 1)) = Some H' /\ step W H W H'.
Proof.
  intros T V K L. destruct (ty_val _ _ _ _ T _ _ V) as (p1 & n1 & c1 & K1 & _ & Q). destruct (hdr_inj _ _ _ _ _ _ _ _ K K1) as (<- & _ & <-).
  clear K1. unfold hdr in K. apply holds_app in K as [Kp K]. rewrite ptr_cells_length in K. apply holds_app in K as [Kl Kc].
  rewrite len_cells_length, shift_shift in Kc.
  destruct (store_spec (len_cells (i + 1)) H (shift a 8)) as (H3 & E3 & T3 & _ & K3).
  { rewrite len_cells_length. apply holds_load in Kl. rewrite len_cells_length in Kl. eauto. }
  rewrite len_cells_length in T3. exists H3. split; [exact E3|].
  assert (Kh : holds H3 a (hdr p (i + 1) c)).
  { unfold hdr. apply holds_app. rewrite ptr_cells_length. split.
    - eapply frame_holds; [exact Kp|apply ptr_cells_length|exact T3|].
      destruct a as [x o]. intros b0 o0 [_ H1] [_ H2]. cbn [shift fst snd] in *. lia.
    - apply holds_app. split; [exact K3|]. rewrite len_cells_length, shift_shift.
      eapply frame_holds; [exact Kc|apply len_cells_length|exact T3|].
      destruct a as [x o]. intros b0 o0 [_ H1] [_ H2]. cbn [shift fst snd] in *. lia. }
  eapply step_store; [exact T|exact V|exact T3| | |].
  - intros b0 o0 [-> Hb]. split; [reflexivity|]. destruct a; cbn [shift fst snd tsize] in *. lia.
  - exists p, (i + 1), c. split; [exact Kh|]. split; [exact L|exact Q].
  - intros p2 n2 c2 K2. apply hdr_ld in K2.
    assert (K0 : holds H a (hdr p n c)).
    { unfold hdr. apply holds_app. rewrite ptr_cells_length. split; [exact Kp|]. apply holds_app. split; [exact Kl|].
      rewrite len_cells_length, shift_shift. exact Kc. }
    apply hdr_ld in K0. rewrite K0 in K2. inversion K2; subst. exists p2, (i + 1), c2. split; [exact Kh|lia].
Qed.

Lemma grow_typed W H e p i : typed W H -> (i = 0 \/ exists p', p = Some p' /\ forall j, j < i -> wval W e (shift p' (j * tsize e))) ->
  exists H2 cap' W2, growSlice e H p i i = Some ((length H, 0), cap', H2) /\ step W H W2 H2 /\ touch none H H2 /\ i + 1 <= cap' /\
    forall j, j < cap' -> wval W2 e (length H, j * tsize e).
Proof.
  intros T Hp. set (cap' := match 2 * i with O => 10 | c => c end).
  assert (Hc : i + 1 <= cap') by (unfold cap'; destruct i; cbn; lia).
  set (X := length H). set (H1 := H ++ [OMem (zeros (cap' * tsize e))]).
  assert (X1 : touch none H H1) by apply alloc_touch.
  assert (Z1 : holds H1 (X, 0) (zeros (cap' * tsize e))) by apply alloc_holds.
  destruct (new_array D other W H e cap' (zeros (cap' * tsize e)) T) as [T1 G1].
  { intros j Hj. apply shaped_zero. change (length H, j * tsize e) with (shift (length H, 0) (j * tsize e)).
    eapply (holds_zeros other); [exact Z1|]. nia. }
  set (W1 := plus W (arrayw e (length H, 0) cap')) in *. fold H1 in T1.
  assert (In1 : forall j, j < cap' -> wval W1 e (length H, j * tsize e)).
  { intros j Hj. right. split; [reflexivity|]. exists j. split; [exact Hj|reflexivity]. }
  unfold growSlice. fold cap'. cbn [alloc]. fold X H1.
  destruct Hp as [->|(p' & -> & Hp)].
  { exists H1, cap', W1. split; [reflexivity|]. split; [apply step_new; [exact T|split; assumption]|]. split; [exact X1|]. split; assumption. }
  (* the copy *)
  assert (L0 : exists l, load H p' (i * tsize e) = Some l).
  { clear - Hp T. induction i as [|i IH]; [exists []; destruct p'; reflexivity|].
    destruct IH as [l L]; [intros j Hj; apply Hp; lia|].
    destruct (shaped_load D other _ _ _ _ (ty_val _ _ _ _ T _ _ (Hp i ltac:(lia)))) as [l2 L2].
    exists (l ++ l2). replace (S i * tsize e) with (i * tsize e + tsize e) by lia. apply load_app; assumption. }
  destruct L0 as [l0 L0]. set (M := i * tsize e) in *. pose proof (load_length _ _ _ _ L0) as Ll.
  assert (L1 : load H1 p' M = Some l0) by (eapply frame_load; [exact L0|exact X1|apply disjoint_none_r]).
  assert (LM : M <= cap' * tsize e) by (unfold M; nia).
  destruct (store_spec l0 H1 (X, 0)) as (H2 & E2 & X2 & _ & K2).
  { rewrite Ll. apply holds_load in Z1. rewrite zeros_length in Z1. eexists. rewrite <- (shift_0 (X, 0)). eapply load_part; [exact Z1|]. lia. }
  rewrite Ll in X2.
  assert (X12 : touch none H H2).
  { eapply touch_trans; [exact X1|exact X2|]. intros b0 o0 [-> _]. right. unfold unborn. cbn. lia. }
  assert (T2 : typed W1 H2).
  { apply (typed_write D other (range (X, 0) M) _ _ _ T1 X2).
    - intros t a [V|[-> (j & Hj & ->)]].
      + right. intros b0 o0 R [-> _]. apply (typed_born D other _ _ _ _ T V) in R. unfold born in R. cbn in R. unfold X in R. lia.
      + destruct (le_lt_dec i j) as [Ge|Lt].
        * right. intros b0 o0 [_ R] [_ R']. cbn [shift fst snd] in *. unfold M in R'. nia.
        * left. eapply shaped_mono; [exact G1|]. eapply shaped_move; [apply (ty_val _ _ _ _ T _ _ (Hp j Lt))|exact (touch_ext _ _ _ X12)|].
          apply load_eq_part with (n := M); [eauto| |unfold M; nia]. rewrite L0. unfold holds in K2. rewrite Ll in K2. exact K2.
    - intros q [V|[]]. right. intros [E _]. apply (byte_born D other _ _ _ T) in V. cbn in E. unfold X in E. lia.
    - intros m k0 e0 _. apply (range_out other). }
  exists H2, cap', W1. split.
  { unfold move. fold M. rewrite L1, E2. cbn [option_map]. destruct i; [|reflexivity].
    assert (M = 0) as M0 by reflexivity. rewrite M0 in Ll. apply length_zero_iff_nil in Ll. subst l0. cbn in E2. inversion E2. reflexivity. }
  split; [|split; [exact X12|split; [exact Hc|exact In1]]]. constructor; [exact T2|exact G1| |apply (keep_none D other); assumption].
  eapply touch_weaken; [exact X12|intros b0 o0 []].
Qed.

Lemma t_slice e q W st b a v v' n er : flat_fits D q e = true -> type_depth (TSlice e) <= Nat.max 1 (decls_depth D) -> wt D v (TSlice e) = true ->
  typed W (hp st) -> pooled W (pl st) -> wval W (TSlice e) a -> bytes_okb b = true -> small b ->
  dec (S fuel) (PSlice e q) b v = DRet v' n er ->
  exists st' W', udec (S fuel) (PSlice e q) st b a = DRet st' n er /\ step W (hp st) W' (hp st') /\ pooled W' (pl st').
Proof.
  intros Hf Hd Hv T P V B Sm E. cbn [type_depth] in Hd. rewrite dec_S in E. cbn [plook] in E. rewrite udec_S. cbn [plook].
  assert (Ex : exists x x', wt D x e = true /\ dec fuel q b x = DRet x' n er).
  { assert (exists nn items spare, v = VSlice nn items spare) as (nn & items & spare & ->)
      by (destruct v as [| | | | | | | |[]| | |[]|[[]|]| |]; try discriminate Hv; do 3 eexists; reflexivity).
    cbv zeta in E. destruct (match spare with [] => grow_spare e (length items) | _ => spare end) as [|slot sp] eqn:Es; [destruct spare; discriminate|].
    assert (Hs : wt D slot e = true).
    { cbn [wt] in Hv. btrue. destruct spare as [|s0 spare].
      - unfold grow_spare in Es. assert (In slot (slot :: sp)) as I by (left; reflexivity). rewrite <- Es in I. apply repeat_spec in I as ->. apply zero_wt.
      - inversion Es; subst. match goal with H : forallb _ (slot :: sp) = true |- _ => cbn [forallb] in H; btrue end. assumption. }
    exists slot. destruct (dec fuel q b slot) as [x n' [er'|]|c|] eqn:Eq; try discriminate; exists x; (split; [exact Hs|]); inversion E; subst; reflexivity. }
  destruct Ex as (x & x' & Hx & Ex). clear E.
  destruct (ty_val _ _ _ _ T _ _ V) as (p & i & c & K & Lc & Q). rewrite (hdr_ld _ _ _ _ _ K). cbn [dbind].
  (* decoding into the next element *)
  assert (Go : forall st2 W2 p c, step W (hp st) W2 (hp st2) -> pooled W2 (pl st2) -> holds (hp st2) a (hdr (Some p) i c) -> i + 1 <= c ->
    wval W2 e (shift p (i * tsize e)) ->
    exists st' W', match udec fuel q st2 b (shift p (i * tsize e)) with
        | DRet s n None => dbind (store (hp s) (shift a 8) (len_cells (i + 1))) (fun H => DRet (with_hp s H) n None)
        | r => r
        end = DRet st' n er /\ step W (hp st) W' (hp st') /\ pooled W' (pl st')).
  { clear p c K Lc Q. intros st2 W2 p c S2 P2 K2 L2 V2.
    destruct (IH1 q e W2 st2 b _ x x' n er (flat_codec_fits _ _ _ Hf) ltac:(lia) Hx (s_typed _ _ _ _ _ _ S2) P2 V2 B Sm Ex) as (st3 & W3 & -> & S3 & P3).
    assert (S03 : step W (hp st) W3 (hp st3)) by (eapply step_trans; eassumption).
    destruct er as [er|]; [exists st3, W3; auto|].
    pose proof (s_keep _ _ _ _ _ _ S3 _ _ (step_val _ _ _ _ _ _ S2 V)) as Kp. destruct (Kp _ _ _ K2) as (p3 & n3 & c3 & K3 & L3).
    destruct (set_len W3 (hp st3) e a i p3 n3 c3 (s_typed _ _ _ _ _ _ S3) (step_val _ _ _ _ _ _ S03 V) K3 ltac:(lia)) as (H4 & -> & S4).
    cbn [dbind]. exists (with_hp st3 H4), W3. split; [reflexivity|]. split; [eapply step_trans; eassumption|exact P3]. }
  cbv zeta. destruct (i =? c) eqn:Ei.
  - assert (c = i) as -> by lia.
    destruct (grow_typed W (hp st) e p i T) as (H2 & cap' & W2 & -> & S2 & X2 & L2 & V2).
    { destruct p as [p|]; [right; exists p; split; [reflexivity|exact Q]|left; exact Q]. }
    pose proof (s_typed _ _ _ _ _ _ S2) as T2. pose proof (step_val _ _ _ _ _ _ S2 V) as Va.
    destruct (shaped_load D other _ _ _ _ (ty_val _ _ _ _ T2 _ _ Va)) as [l Ll]. cbn [tsize] in Ll.
    destruct (store_spec (hdr (@Some addr (length (hp st), 0)) i cap') H2 a) as (H3 & E3 & T3 & _ & K3); rewrite hdr_length in *; [eauto|].
    assert (S3 : step W2 H2 W2 H3).
    { eapply step_store; [exact T2|exact Va|exact T3|apply subset_refl| |].
      - exists (Some (length (hp st), 0)), i, cap'. split; [exact K3|]. split; [lia|exact V2].
      - intros p2 n2 c2 K2. exists (Some (length (hp st), 0)), i, cap'. split; [exact K3|].
        assert (K5 : holds H2 a (hdr p i i)) by (eapply frame_holds; [exact K|apply hdr_length|exact X2|apply disjoint_none_r]).
        destruct (hdr_inj _ _ _ _ _ _ _ _ K2 K5) as (_ & _ & ->). lia. }
    match goal with |- context [store ?x ?y ?z] => replace (store x y z) with (Some H3) by (symmetry; exact E3) end.
    cbn [option_map dbind index]. rewrite aligned.
    apply (Go (with_hp st H3) W2 (length (hp st), 0) cap').
    + eapply step_trans; eassumption.
    + cbn. eapply step_pooled; [exact S2|exact P].
    + exact K3.
    + exact L2.
    + apply V2. lia.
  - cbn [dbind]. destruct p as [p|]; [|lia]. cbn [index dbind]. rewrite aligned. destruct st as [hh pp].
    apply (Go {| hp := hh; pl := pp |} W p c); [apply step_refl; exact T|exact P|exact K|lia|apply Q; lia].
Qed.

(** *** Maps *)
Lemma map_hole W H m k e t a : typed W H -> wmap W m k e -> wval W t a -> disjoint (range a (tsize t)) (whole m).
Proof.
  intros T M V b o R E. unfold whole in E. subst b. destruct (ty_map _ _ _ _ T _ _ _ M) as (l & El & _).
  destruct (shaped_load D other _ _ _ _ (ty_val _ _ _ _ T _ _ V)) as [c L].
  destruct R as [Ea R]. pose proof (load_cells _ _ _ _ (o - snd a) L ltac:(lia)) as C. rewrite <- Ea in C.
  apply C. unfold cell. rewrite El. reflexivity.
Qed.
Lemma step_map_set W H m k e l x y : typed W H -> wmap W m k e -> nth_error H m = Some (OMap l) ->
  wval W (TScalar k) (x, 0) -> wval W e (y, 0) -> step W H W (list_set H m (OMap (l ++ [(x, y)]))).
Proof.
  intros T M E Vx Vy. set (H' := list_set H m (OMap (l ++ [(x, y)]))).
  assert (X : touch (whole m) H H') by (eapply set_map_touch; [exact E|apply subset_refl]).
  assert (Lm : m < length H) by (apply nth_error_Some; congruence).
  constructor; [|apply grows_refl| |].
  - constructor.
    + intros t a V. eapply shaped_frame; [apply (ty_val _ _ _ _ T _ _ V)|exact X|]. eapply map_hole; eassumption.
    + intros p V. destruct (ty_byte _ _ _ _ T _ V) as (n & Ln & C). exists n. split; [exact Ln|].
      destruct X as [_ X]. rewrite cell_spot, X; [rewrite <- cell_spot; exact C|eapply byte_born; eassumption|].
      intros Em. unfold whole in Em. rewrite Em in C. unfold cell in C. rewrite E in C. discriminate.
    + intros m' k' e' M'. destruct (Nat.eq_dec m m') as [<-|N].
      * destruct (ty_map_one _ _ _ _ T _ _ _ _ _ M M') as [<- <-]. exists (l ++ [(x, y)]). split; [apply nth_set_same; exact Lm|].
        destruct (ty_map _ _ _ _ T _ _ _ M) as (l' & E' & P'). rewrite E in E'. inversion E'; subst l'.
        intros x' y' I. apply in_app_or in I as [I|[I|[]]]; [apply P', I|]. inversion I; subst. split; assumption.
      * destruct (ty_map _ _ _ _ T _ _ _ M') as (l' & E' & P'). exists l'. split; [|exact P'].
        unfold H'. rewrite nth_set_other by exact N. exact E'.
    + apply (ty_map_one _ _ _ _ T).
    + intros k' a V. destruct (ty_entry _ _ _ _ T _ _ V) as (S & c & L). split; [exact S|].
      eapply extends_load; [exact (touch_ext _ _ _ X)|exact L].
    + apply (ty_val_val _ _ _ _ T).
    + apply (ty_val_byte _ _ _ _ T).
    + apply (ty_entry_val _ _ _ _ T).
    + apply (ty_entry_byte _ _ _ _ T).
  - eapply touch_weaken; [exact X|]. intros b o Eb. unfold whole in Eb. subst b. left. right. right. left. eauto.
  - apply (keep_touch D other _ _ _ _ T X). intros t a V. right. eapply map_hole; eassumption.
Qed.
Lemma find_typed W H k e key l : typed W H -> (forall x y, In (x, y) l -> wval W (TScalar k) (x, 0) /\ wval W e (y, 0)) ->
  find_key H k key l = Some None \/ exists x y, In (x, y) l /\ find_key H k key l = Some (Some (x, y)).
Proof.
  intros T. induction l as [|[x y] l IH]; intros P; [left; reflexivity|]. cbn [find_key].
  destruct (P x y (or_introl eq_refl)) as [Vx _]. destruct (ty_val _ _ _ _ T _ _ Vx) as [v R]. rewrite (rep_ld_k _ _ _ _ _ _ _ _ R).
  destruct (key_eqb v key); [right; exists x, y; split; [left; reflexivity|reflexivity]|].
  destruct IH as [F|(x' & y' & I & F)]; [intros x' y' I; apply P; right; exact I|left; exact F|].
  right. exists x', y'. split; [right; exact I|exact F].
Qed.
Definition plain_type (t : gotype) : Prop := match t with TSlice _ | TMap _ _ => False | _ => True end.
Lemma plain_keeps H H' t a : plain_type t -> keeps_at H H' t a.
Proof. destruct t; cbn; auto; contradiction. Qed.
Lemma flat_plain q t : flat_fits D q t = true -> plain_type t.
Proof.
  destruct q as [s|? ?|? ?|k|]; destruct t; cbn; auto; try discriminate.
  - destruct s as [w []|]; discriminate.
  - destruct s as [w []|]; discriminate.
  - destruct k; discriminate.
  - destruct k; discriminate.
Qed.
Lemma entry_plain key val kt vt : entry_fits D key val kt vt = true -> plain_type val.
Proof.
  unfold entry_fits. destruct (pfields 0 _) as [[|fk [|fv [|]]]|]; try discriminate. intros E. btrue. eapply flat_plain. eassumption.
Qed.
(** Writing a value that is already somewhere else in memory. *)
Lemma step_copy W H t a src cs : typed W H -> wval W t a -> plain_type t -> shaped W H t src -> load H src (tsize t) = Some cs ->
  exists H', store H a cs = Some H' /\ step W H W H'.
Proof.
  intros T V Pl Sh L. pose proof (load_length _ _ _ _ L) as Ll.
  destruct (store_spec cs H a) as (H' & E & X & _ & K).
  { rewrite Ll. eapply (shaped_load D other), (ty_val _ _ _ _ T _ _ V). }
  rewrite Ll in X. exists H'. split; [exact E|]. eapply step_store; [exact T|exact V|exact X|apply subset_refl| |apply plain_keeps; exact Pl].
  eapply shaped_move; [exact Sh|exact (touch_ext _ _ _ X)|]. rewrite L. unfold holds in K. rewrite Ll in K. exact K.
Qed.
Lemma assign_typed W H k e m ka va : typed W H -> wmap W m k e -> plain_type e -> wval W (TScalar k) ka -> wval W e va ->
  exists y H5 H6 W', mapassign k e H m ka = Some (y, H5) /\ move H5 (y, 0) va (tsize e) = Some H6 /\ step W H W' H6.
Proof.
  intros T M Pl Vk Vv. unfold mapassign. destruct (ty_map _ _ _ _ T _ _ _ M) as (l & El & Pm). rewrite El.
  pose proof (ty_val _ _ _ _ T _ _ Vk) as Shk. pose proof Shk as [kv Rk]. rewrite (rep_ld_k _ _ _ _ _ _ _ _ Rk).
  destruct (shaped_load D other _ _ _ _ Shk) as [cs Lk]. cbn [tsize] in Lk. rewrite Lk.
  (* storing the value *)
  assert (Fin : forall W5 H5 y, step W H W5 H5 -> wval W5 e (y, 0) -> exists H6, move H5 (y, 0) va (tsize e) = Some H6 /\ step W H W5 H6).
  { intros W5 H5 y S5 Vy. pose proof (s_typed _ _ _ _ _ _ S5) as T5. pose proof (step_val _ _ _ _ _ _ S5 Vv) as Vv5.
    pose proof (ty_val _ _ _ _ T5 _ _ Vv5) as Sv. destruct (shaped_load D other _ _ _ _ Sv) as [cv Lv].
    unfold move. rewrite Lv. destruct (step_copy W5 H5 e (y, 0) va cv T5 Vy Pl Sv Lv) as (H6 & E6 & S6).
    exists H6. split; [exact E6|]. eapply step_trans; eassumption. }
  destruct (find_typed W H k e kv l T Pm) as [->|(x & y & I & ->)].
  - cbn [alloc]. set (H1 := H ++ [OMem cs]).
    destruct (new_val D other W H (TScalar k) cs T) as [T1 G1].
    { eapply shaped_move with (a := ka); [eapply (shaped_mono D other H); [|exact Shk]|apply (touch_ext none), alloc_touch|].
      - apply plus_grows; cbn [one objw wval wbyte wmap wentry]; try contradiction. intros t a [-> ->]. cbn. lia.
      - cbn [tsize]. rewrite Lk. pose proof (alloc_holds H cs) as K. unfold holds in K. rewrite (load_length _ _ _ _ Lk) in K. exact K. }
    pose proof (step_new _ _ _ _ _ _ T (conj T1 G1)) as S1. fold H1 in T1, S1. set (W1 := plus W (one (TScalar k) (length H, 0))) in *.
    destruct (new_val D other W1 H1 e (zeros (tsize e)) T1) as [T2 G2]; [apply shaped_zero, alloc_holds|].
    pose proof (step_new _ _ _ _ _ _ T1 (conj T2 G2)) as S2. set (H2 := H1 ++ [OMem (zeros (tsize e))]) in *. set (W2 := plus W1 (one e (length H1, 0))) in *.
    assert (E2 : nth_error H2 m = Some (OMap l)).
    { assert (Lm : m < length H) by (apply nth_error_Some; congruence). unfold H2, H1. rewrite !nth_error_app1; rewrite ?app_length; cbn [length]; try lia. exact El. }
    pose proof (step_map_set W2 H2 m k e l (length H) (length H1) T2) as S3.
    destruct (Fin W2 (list_set H2 m (OMap (l ++ [(length H, length H1)]))) (length H1)) as (H6 & E6 & S6).
    { eapply step_trans; [exact S1|]. eapply step_trans; [exact S2|]. apply S3.
      - left. left. exact M.
      - exact E2.
      - left. right. split; reflexivity.
      - right. split; reflexivity. }
    { right. split; reflexivity. }
    eexists. eexists. exists H6, W2. split; [reflexivity|]. split; [exact E6|exact S6].
  - destruct (Pm _ _ I) as [Vx Vy].
    destruct (step_copy W H (TScalar k) (x, 0) ka cs T Vx Logic.I Shk Lk) as (H5 & -> & S5). cbn [option_map].
    destruct (Fin W H5 y S5 Vy) as (H6 & E6 & S6). exists y, H5, H6, W. auto.
Qed.
Lemma get_typed W st k : typed W (hp st) -> pooled W (pl st) -> exists en st3 W3, get_entry pick D other st k = (en, st3) /\
  step W (hp st) W3 (hp st3) /\ pooled W3 (pl st3) /\ wentry W3 k en.
Proof.
  intros T P.
  assert (New : exists en st3 W3, (let '(x, H) := alloc (hp st) (OMem (zeros (ssize k))) in ((x, 0), with_hp st H)) = (en, st3) /\
    step W (hp st) W3 (hp st3) /\ pooled W3 (pl st3) /\ wentry W3 k en).
  { destruct (new_struct D other W (hp st) k true T) as [T1 G1]. pose proof (step_new _ _ _ _ _ _ T (conj T1 G1)) as S1.
    eexists. eexists. exists (plus W (structw D other k (length (hp st), 0) true)). split; [reflexivity|]. split; [exact S1|].
    split; [cbn; eapply step_pooled; eassumption|]. right. split; [reflexivity|split; reflexivity]. }
  unfold get_entry. destruct (pick st k) as [j|]; [|exact New].
  destruct (nth_error (pl st) j) as [[k' a]|] eqn:En; [|exact New].
  destruct (skey_eq_dec k k') as [<-|]; [|exact New].
  exists a, {| hp := hp st; pl := remove_at j (pl st) |}, W. split; [reflexivity|]. cbn [hp pl]. split; [apply step_refl; exact T|]. split.
  - intros k1 a1 I. apply P. revert I. clear. revert j. induction (pl st) as [|x l IH]; intros [|j]; cbn; auto. intros [I|I]; [auto|right; eapply IH; exact I].
  - apply P. eapply nth_error_In. exact En.
Qed.
Lemma zero_entry W H key val kt vt en : plain_type val -> typed W H -> wentry W (SEntry key val kt vt) en ->
  exists H', store H en (zeros (ssize (SEntry key val kt vt))) = Some H' /\ step W H W H'.
Proof.
  set (ek := SEntry key val kt vt). intros Pl T V. destruct (ty_entry _ _ _ _ T _ _ V) as (A & l & L).
  destruct (store_spec (zeros (ssize ek)) H en) as (H' & E & X & _ & K); rewrite zeros_length in *; [eauto|].
  exists H'. split; [exact E|]. constructor; [|apply grows_refl| |].
  - apply (typed_write D other _ _ _ _ T X).
    + intros t p Vp. destruct (ty_entry_val _ _ _ _ T _ _ _ _ V Vp) as [I|Dj]; [left|right; apply disjoint_sym, Dj].
      apply placed_in in I as (q & -> & Lq). apply shaped_zero. eapply (holds_zeros other); [exact K|exact Lq].
    + intros p Vp. right. apply (ty_entry_byte _ _ _ _ T _ _ _ V Vp).
    + intros m k0 e0 _. apply (range_out other).
  - eapply touch_weaken; [exact X|]. intros b o R. left. right. right. right. eauto.
  - apply (keep_touch D other _ _ _ _ T X). intros t p Vp.
    destruct (ty_entry_val _ _ _ _ T _ _ _ _ V Vp) as [I|Dj]; [left|right; apply disjoint_sym, Dj].
    unfold ek in I. rewrite entry_placed in I. destruct I as [I|[I|[]]]; inversion I; subst; apply plain_keeps; [exact Logic.I|exact Pl].
Qed.

Lemma t_map tag kt vt key val kp vp W st b a v v' n er : entry_fits D key val kt vt = true ->
  type_depth (TMap key val) <= Nat.max 1 (decls_depth D) -> wt D v (TMap key val) = true ->
  typed W (hp st) -> pooled W (pl st) -> wval W (TMap key val) a -> bytes_okb b = true -> small b ->
  dec (S fuel) (PMap tag kt vt key val kp vp) b v = DRet v' n er ->
  exists st' W', udec (S fuel) (PMap tag kt vt key val kp vp) st b a = DRet st' n er /\ step W (hp st) W' (hp st') /\ pooled W' (pl st').
Proof.
  intros Hf Hd Hv T P V B Sm E. cbn [type_depth] in Hd. rewrite dec_S in E. cbn [plook] in E. rewrite udec_S. cbn [plook].
  set (ek := SEntry key val kt vt) in *. pose proof (entry_plain _ _ _ _ Hf) as Pl.
  assert (Hk : key_ok D ek) by (split; [exact Hf|lia]).
  assert (Ex : exists kxs,
    (if (zlen b =? 0)%Z then DRet (VMap (Some kxs)) 0%Z None
     else let '(_, nl, e) := decodeVarint b in
      match e with
      | Some e => DRet (VMap (Some kxs)) 0%Z (Some e)
      | None => match from_ b nl with
        | None => DCrash Bounds
        | Some b' => match decs fuel ek b' 0 (zero_struct D ek) with
          | DRet (VStruct [key; x]) n None => DRet (VMap (Some (map_assign kxs key x))) (n + nl)%Z None
          | DRet _ n None => DCrash Confused
          | DRet _ n (Some e) => DRet (VMap (Some kxs)) (n + nl)%Z (Some e)
          | r => r
          end
        end
      end) = DRet v' n er).
  { assert (exists o, v = VMap o) as [o ->] by (destruct v as [| | | | | | | |[]| | |o|[[]|]| |]; try discriminate Hv; eauto).
    exists (match o with Some l => l | None => [] end). destruct o; exact E. }
  destruct Ex as [kxs Ex]. clear E.
  assert (Go : forall st2 W2 p, step W (hp st) W2 (hp st2) -> pooled W2 (pl st2) -> holds (hp st2) a (ptr_cells (Some p)) ->
    exists st' W', (if (zlen b =? 0)%Z then DRet st2 0%Z None
      else let '(en, s) := get_entry pick D other st2 ek in let '(_, nl, e) := decodeVarint b in
          match e with
          | Some e => DRet s 0%Z (Some e)
          | None =>
            match from_ b nl with
            | None => DCrash Bounds
            | Some b' =>
              match udecs fuel ek ek s b' 0 en with
              | DRet s n e =>
                dbind (match e with
                  | Some _ => Some (hp s)
                  | None =>
                    match ld_ptr (hp s) a with
                    | Some (Some (m, O)) =>
                      match mapassign key val (hp s) m en with
                      | Some (v, H) => move H (v, O) (shift en (foffset D other ek 1)) (tsize val)
                      | None => None
                      end
                    | _ => None
                    end
                  end) (fun H =>
                dbind (store H en (zeros (ssize ek))) (fun H =>
                DRet {| hp := H; pl := (ek, en) :: pl s |} (n + nl)%Z e))
              | r => r
              end
            end
          end) = DRet st' n er /\ step W (hp st) W' (hp st') /\ pooled W' (pl st')).
  { intros st2 W2 p S2 P2 K2. destruct (zlen b =? 0)%Z.
    { inversion Ex; subst. exists st2, W2. auto. }
    destruct (get_typed W2 st2 ek (s_typed _ _ _ _ _ _ S2) P2) as (en & st3 & W3 & -> & S3 & P3 & Ve3).
    assert (S03 : step W (hp st) W3 (hp st3)) by (eapply step_trans; eassumption).
    destruct (decodeVarint b) as [[w nl] [ev|]].
    { inversion Ex; subst. exists st3, W3. auto. }
    destruct (from_ b nl) as [b'|] eqn:Eb; [|discriminate]. destruct (from_sub _ _ _ Eb B Sm) as [B' Sm'].
    destruct (decs fuel ek b' 0 (zero_struct D ek)) as [x' n' e'|c|] eqn:Ed; try discriminate.
    assert (n = (n' + nl)%Z /\ er = e') as [-> ->].
    { destruct e', x' as [| | | | | | | | | | | | |[|k0 [|x0 [|]]]|]; try discriminate; inversion Ex; auto. }
    clear Ex.
    destruct (ty_entry _ _ _ _ (s_typed _ _ _ _ _ _ S3) _ _ Ve3) as [A3 _].
    destruct (IH2 ek W3 st3 b' 0%Z en (zero_struct D ek) x' n' e' Hk (zero_struct_wts _ _ Hk) (s_typed _ _ _ _ _ _ S3) P3 A3 B' Sm' Ed)
      as (st4 & W4 & -> & S4 & P4).
    assert (S24 : step W2 (hp st2) W4 (hp st4)) by (eapply step_trans; eassumption).
    assert (S04 : step W (hp st) W4 (hp st4)) by (eapply step_trans; eassumption).
    pose proof (gr_entry _ _ _ (s_grows _ _ _ _ _ _ S4) _ _ Ve3) as Ve4.
    assert (Fin : forall W5 H5, step W4 (hp st4) W5 H5 -> exists st' W',
      dbind (store H5 en (zeros (ssize ek))) (fun H => DRet {| hp := H; pl := (ek, en) :: pl st4 |} (n' + nl)%Z e') = DRet st' (n' + nl)%Z e' /\
      step W (hp st) W' (hp st') /\ pooled W' (pl st')).
    { intros W5 H5 S5. pose proof (gr_entry _ _ _ (s_grows _ _ _ _ _ _ S5) _ _ Ve4) as Ve5.
      destruct (zero_entry W5 H5 key val kt vt en Pl (s_typed _ _ _ _ _ _ S5) Ve5) as (H6 & E6 & S6). fold ek in E6. rewrite E6. cbn [dbind].
      exists {| hp := H6; pl := (ek, en) :: pl st4 |}, W5. split; [reflexivity|]. cbn [hp pl]. split.
      - eapply step_trans; [exact S04|]. eapply step_trans; eassumption.
      - intros k0 a0 [I|I]; [inversion I; subst; exact Ve5|]. eapply step_pooled; [exact S5|exact P4|exact I]. }
    destruct e' as [e'|].
    { cbn [dbind]. eapply Fin. apply step_refl. exact (s_typed _ _ _ _ _ _ S4). }
    pose proof (s_typed _ _ _ _ _ _ S4) as T4.
    destruct (s_keep _ _ _ _ _ _ S24 _ _ (step_val _ _ _ _ _ _ S2 V) _ K2) as [p4 K4].
    destruct (ty_val _ _ _ _ T4 _ _ (step_val _ _ _ _ _ _ S04 V)) as (p5 & K5 & Q5).
    apply holds_ptr in K4. apply holds_ptr in K5 as K5'. rewrite K4 in K5'. inversion K5'; subst p5. destruct Q5 as [Q5 M5].
    rewrite K4. destruct p4 as [m o]. cbn [fst snd] in Q5, M5. subst o.
    assert (A4 : struct_at W4 ek en) by (eapply struct_mono; [exact (s_grows _ _ _ _ _ _ S4)|exact A3]).
    unfold struct_at, SpecTyped.struct_at in A4. unfold ek in A4. rewrite entry_placed in A4. fold ek in A4.
    destruct (assign_typed W4 (hp st4) key val m en (shift en (foffset D other ek 1)) T4 M5 Pl) as (y & H5 & H6 & W6 & -> & E6 & S6).
    { apply A4. left. reflexivity. }
    { apply A4. right. left. reflexivity. }
    match goal with |- context [move ?w ?x ?y ?z] => replace (move w x y z) with (Some H6) by (symmetry; exact E6) end.
    cbn [dbind]. eapply Fin. exact S6. }
  destruct (ty_val _ _ _ _ T _ _ V) as (p & K & Q). rewrite (holds_ptr _ _ _ K). cbn [dbind]. destruct p as [p|].
  - cbn [dbind]. destruct st as [hh pp]. apply (Go {| hp := hh; pl := pp |} W p); [apply step_refl; exact T|exact P|exact K].
  - cbn [alloc].
    destruct (new_map D other W (hp st) key val T) as [T1 G1].
    pose proof (step_new _ _ _ _ _ _ T (conj T1 G1)) as S1.
    destruct (store_to _ _ (TMap key val) a (length (hp st), 0) T1) as (H2 & E2 & S2 & K2).
    { left. exact V. }
    { split; [reflexivity|]. right. split; [reflexivity|split; reflexivity]. }
    match goal with |- context [store ?x ?y ?z] => replace (store x y z) with (Some H2) by (symmetry; exact E2) end. cbn [dbind].
    eapply (Go (with_hp st H2)).
    + eapply step_trans; eassumption.
    + cbn. eapply step_pooled; [exact S1|exact P].
    + exact K2.
Qed.
End Step.

Theorem typed_dec fuel : tcodec_ok fuel /\ tstruct_ok fuel.
Proof.
  induction fuel as [|fuel [IH1 IH2]]; (split; [intros p t W st b a v v' n e C Hd Hv T P V B Sm E|
    intros k W st b off a x x' n e Hk Hx T P A B Sm E]); try discriminate.
  2:{ eapply t_structs; eassumption. }
  destruct p as [s|et q|et q|k|tag kt vt key val kp vp].
  - rewrite udec_S. rewrite dec_S in E. cbn [plook] in *. eapply t_static; try eassumption.
  - destruct t as [| | | | |e'| |]; try discriminate. cbn [codec_fits flat_fits] in C. btrue. eapply t_ptr; try eassumption.
  - destruct t as [| | |e'| | | |]; try discriminate. cbn [codec_fits flat_fits] in C. btrue. eapply t_slice; try eassumption.
  - eapply t_struct; try eassumption.
  - destruct t as [| | | |k' v0| | |]; try discriminate. cbn [codec_fits flat_fits] in C. btrue. eapply t_map; try eassumption.
Qed.
End Dec.
