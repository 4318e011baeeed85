(** Sequences of calls: there is one choice of codecs for the lists with which
    all calls have computed. *)
From Coq Require Import ZifyBool ZifyNat ZifyN String.
From Verif Require Import Base Wire GoType Leaf Codec Tag Walker Api Resolve Typing SpecMsg SpecOut SpecIn SpecZig
  DecodeFacts TypingFacts CodecSim WalkInv WalkFuel WalkSeq ZigWalk.
Local Close Scope string_scope.

(** ** Declarations that differ in their tags only *)
Section Types.
Variables D E : decls.
Hypothesis HT : map (map gf_type) D = map (map gf_type) E.
Lemma types_nth m : match nth_error D m, nth_error E m with Some a, Some b => map gf_type a = map gf_type b | None, None => True | _, _ => False end.
Proof.
  pose proof (f_equal (fun l => nth_error l m) HT) as H. cbn beta in H. rewrite !nth_error_map in H.
  destruct (nth_error D m), (nth_error E m); cbn in H; try discriminate; [inversion H; reflexivity|exact Logic.I].
Qed.
Lemma types_length : length D = length E.
Proof. apply (f_equal (@length _)) in HT. rewrite !map_length in HT. exact HT. Qed.
Lemma types_zero k : zero_struct D k = zero_struct E k.
Proof.
  destruct k as [m| |]; try reflexivity. cbn [zero_struct]. pose proof (types_nth m) as H. destruct (nth_error D m), (nth_error E m); try contradiction; try reflexivity.
  f_equal. rewrite <- !(map_map gf_type zero). congruence.
Qed.
Lemma types_field m : field_types D m = field_types E m.
Proof. unfold field_types. pose proof (types_nth m) as H. destruct (nth_error D m), (nth_error E m); try contradiction; try reflexivity. exact H. Qed.
Lemma types_wt : forall v t, wt D v t = wt E v t.
Proof.
  induction v as [v IH] using val_ind2. intros t.
  assert (FA : forall l, Forall (fun x => forall t, wt D x t = wt E x t) l -> forall e, forallb (fun x => wt D x e) l = forallb (fun x => wt E x e) l).
  { induction 1 as [|x l Hx _ IHl]; intros e; [reflexivity|]. cbn [forallb]. rewrite Hx, IHl. reflexivity. }
  assert (A2 : forall l, Forall (fun x => forall t, wt D x t = wt E x t) l -> forall ts, all2 (wt D) l ts = all2 (wt E) l ts).
  { induction 1 as [|x l Hx _ IHl]; intros [|e ts]; try reflexivity. cbn [all2]. rewrite Hx, IHl. reflexivity. }
  destruct v as [b|z|z|n|n|n|n|b|o|s x|nn items spare|[l|]|[x|]|fs|n]; try reflexivity.
  - destruct t; try reflexivity. cbn [wt]. apply IH.
  - destruct t; try reflexivity. cbn [wt]. destruct IH as [H1 H2]. rewrite (FA _ H1), (FA _ H2). reflexivity.
  - destruct t; try reflexivity. cbn [wt]. f_equal. induction IH as [|[a x] l [Ha Hx] _ IHl]; [reflexivity|]. cbn [forallb fst snd] in *. rewrite Ha, Hx, IHl. reflexivity.
  - destruct IH as [H1 H2]. destruct t; try reflexivity.
    + cbn [wt]. destruct x; apply H1.
    + cbn [wt]. destruct x; try reflexivity. pose proof (types_nth sid) as H. rewrite types_field. destruct (nth_error D sid), (nth_error E sid); try contradiction; try reflexivity. apply A2. exact H2.
Qed.
Lemma types_wts v k : wts D v k = wts E v k.
Proof.
  destruct k; cbn [wts]; try apply types_wt. destruct v as [| | | | | | | | | | | | |fs|]; try reflexivity.
  match goal with |- all2 _ _ ?ts = _ => generalize ts end. induction fs as [|x l IH]; intros [|t ts]; try reflexivity. cbn [all2]. rewrite types_wt, IH. reflexivity.
Qed.
Lemma types_depth : decls_depth D = decls_depth E.
Proof.
  revert HT. revert E. induction D as [|d D0 IH]; intros [|e E0] H; try discriminate; [reflexivity|]. cbn [map] in H. injection H as Hd H.
  unfold decls_depth in *. cbn [fold_right]. rewrite (IH E0 H). f_equal. revert e Hd. clear. induction d as [|f d IH]; intros [|g e] H; try discriminate; [reflexivity|].
  cbn [map] in H. injection H as Hf H. unfold fields_depth in *. cbn [fold_right]. rewrite Hf, (IH e H). reflexivity.
Qed.
Lemma types_dec {R I} (look : R -> cbody R I) iget f :
  (forall c b v, dec look iget D f c b v = dec look iget E f c b v) /\ (forall i b o x, decs look iget D f i b o x = decs look iget E f i b o x).
Proof.
  induction f as [|f [IH1 IH2]]; [split; reflexivity|]. split.
  - intros c b v. rewrite !dec_S. destruct (look c); try reflexivity.
    + destruct v; try reflexivity. cbv zeta. rewrite IH1. reflexivity.
    + destruct v; try reflexivity. cbv zeta. destruct (match spare with [] => _ | _ => _ end); [reflexivity|]. rewrite IH1. reflexivity.
    + destruct v; try reflexivity. cbv zeta. rewrite !types_zero. destruct (decodeVarint b) as [[u q] [e|]]; [reflexivity|].
      destruct (from_ b q); [|reflexivity]. rewrite IH2. reflexivity.
    + destruct v; try reflexivity. cbv zeta. rewrite ?types_zero. destruct (zlen b =? 0)%Z; [reflexivity|].
      destruct (decodeVarint b) as [[u q] [e'|]]; [reflexivity|]. destruct (from_ b q); [|reflexivity]. rewrite IH2. reflexivity.
  - intros i b o x. rewrite !decs_S. destruct (o <? zlen b)%Z; try reflexivity. destruct (from_ b o) as [b1|]; try reflexivity.
    destruct (decodeTag b1) as [[[fn w] n] [e|]]; try reflexivity. cbv zeta. destruct (lookup_field (iget i) fn) as [g|].
    + destruct (negb (w =? wireType g)%N); try reflexivity. destruct (field_data b (o + n) w) as [dt| |]; try reflexivity. destruct (get_field x (f_idx g)) as [y|]; try reflexivity.
      rewrite IH1. destruct (dec look iget E f (f_codec g) dt y) as [z k [e|]| |]; try reflexivity. apply IH2.
    + destruct (skip_unknown b (o + n) w) as [[o' [e|]]|]; try reflexivity. apply IH2.
Qed.
End Types.

Section Calls.
Variable D : decls.
Variable VV : list (gotype * pref).
Hypothesis Hfun : forall t p q, In (t, p) VV -> In (t, q) VV -> (forall e, t <> TSlice e) -> p = q.
Variable vk : skey -> Prop.
Hypothesis Hvk : forall k f tag, vk k -> In f (struct_fields D k) -> gf_exported f = true -> gf_tag f = Some tag ->
  exists t p, parseStructTag tag = (t, None) /\ pfield t f = Some p /\ incl (pref_visits (gf_type f) p) VV /\
    match p with PMap _ kt vt key val _ _ => vk (SEntry key val kt vt) | _ => True end.
Hypothesis Hvl : forall k, vk k -> pfields 0 (struct_fields D k) <> None.
Hypothesis Hvn : forall m, vk (SNamed m).
Hypothesis Hvo : forall k, vk (SOpt k).
Hypothesis HVV : forall t p, In (t, p) VV -> struct_ptr t = None.
Hypothesis HVm : forall key val p, ~ In (TMap key val, p) VV.

Definition CS (G : zgh) (s : gstate) : Prop := CI D VV vk (length (g_infos s)) [] [] G s.
Lemma CS_empty : CS {| hc := []; hi := [] |} g_empty.
Proof.
  split; cbn; auto; try (intros [|n]; discriminate); try (intros ? ? []); unfold iref_is; cbn.
Qed.
(** What came later does not touch what was there. *)
Definition grown (G : zgh) (s : gstate) (G' : zgh) (s' : gstate) : Prop :=
  cext G G' /\ forall i x, nth_error (g_infos s) i = Some x -> nth_error (g_infos s') i = Some x.
Lemma grown_refl G s : grown G s G s.
Proof. split; [apply cext_refl|auto]. Qed.
Lemma grown_trans G s G1 s1 G2 s2 : grown G s G1 s1 -> grown G1 s1 G2 s2 -> grown G s G2 s2.
Proof. intros [A B] [A' B']. split; [eapply cext_trans; eassumption|auto]. Qed.
Lemma info_grown k G s : CS G s -> is_entry k = false ->
  exists i s' G', run (cachedStructInfoOf D (walk_fuel D) k) s = (Done i, s') /\ CS G' s' /\ grown G s G' s' /\ iref_is G' i k.
Proof.
  intros HC Hk. pose proof (cached_tc D VV Hfun vk Hvk Hvl Hvn Hvo HVV HVm (length (g_infos s)) k G s) as T.
  assert (Hv : vk k) by (destruct k; try discriminate; auto). specialize (T Hv HC). unfold tc in T.
  assert (NF : fst (run (cachedStructInfoOf D (walk_fuel D) k) s) <> OutOfFuel).
  { eapply nof_run. apply cached_nof. destruct k; try discriminate; reflexivity. }
  destruct (run (cachedStructInfoOf D (walk_fuel D) k) s) as [[i| |] s']; cbn [fst] in NF; try contradiction.
  destruct T as (G' & X & K & C & R). exists i, s', G'. split; [reflexivity|]. split; [|split; [|exact R]].
  - destruct C as [L1 L2 B I C1 C2 C3 C4 C5 C6 C7]. split; auto.
  - split; [exact X|]. intros j x Hj. apply K; [apply nth_error_Some; congruence|intros []|exact Hj].
Qed.

(** [E] lists for every type in use the codecs it uses. *)
Definition fit (E : decls) (G : zgh) (s : gstate) : Prop :=
  forall i x k, iref_is G i k -> nth_error (g_infos s) i = Some x -> Forall2 (field_rel (cref_is G)) (i_fields x) (i_fields (piget E k)).
Lemma fit_back E G s G' s' : CS G s -> grown G s G' s' -> fit E G' s' -> fit E G s.
Proof.
  intros HC [X K] F i x k Hi Hx. specialize (F i x k (iref_ext _ _ _ _ X Hi) (K _ _ Hx)).
  destruct (c_infos _ _ _ _ _ _ _ _ HC i x k Hx Hi) as [[]|[(l & _ & A) _]]. revert A F. generalize (i_fields x) l (i_fields (piget E k)). clear - X.
  induction l as [|a l IH]; intros m n A F; inversion A; inversion F; subst; constructor; [|eapply IH; eassumption].
  match goal with H : field_rel _ a _, H' : field_rel _ a _ |- _ => destruct H as (_ & _ & H); destruct H' as (P1 & P2 & P3) end.
  split; [exact P1|]. split; [exact P2|]. first [eapply cref_back; [exact X|eapply cref_cin; eassumption|assumption]].
Qed.
Lemma index_fields E k : i_index (piget E k) = i_fields (piget E k).
Proof. unfold piget, pinfo. destruct (pfields 0 (struct_fields E k)); reflexivity. Qed.
Lemma fit_rel E G s : CS G s -> fit E G s ->
  (forall c p, cref_is G c p -> body_sim (cref_is G) (iref_is G) (hlook s c) (plook p)) /\
  (forall i k, iref_is G i k -> info_rel (cref_is G) (higet s i) (piget E k)).
Proof.
  intros HC HF. split.
  - intros c p Hc. apply bs_rel. destruct c as [x|n]; cbn [hlook]; [cbn in Hc; subst p; constructor|].
    assert (L : n < length (hc G)) by (apply nth_error_Some; cbn in Hc; congruence). rewrite (c_lc _ _ _ _ _ _ _ _ HC) in L.
    apply nth_error_Some in L. destruct (nth_error (g_cells s) n) as [b|] eqn:En; [|contradiction].
    destruct (c_cells _ _ _ _ _ _ _ _ HC _ _ _ En Hc) as [[]|B]. exact B.
  - intros i k Hi. assert (L : i < length (hi G)) by (apply nth_error_Some; unfold iref_is in Hi; congruence).
    rewrite (c_li _ _ _ _ _ _ _ _ HC) in L. apply nth_error_Some in L. destruct (nth_error (g_infos s) i) as [x|] eqn:Ex; [|contradiction].
    unfold higet. rewrite Ex. unfold info_rel. rewrite index_fields.
    destruct (c_infos _ _ _ _ _ _ _ _ HC _ _ _ Ex Hi) as [[]|[_ ->]]. split; eapply HF; eassumption.
Qed.

(** The answers, computed with the codecs of [E]. *)
Definition pure_answer (E : decls) (r : request) : answer -> Prop :=
  match r with
  | AskSize (IPtr k (Some x)) => eq (IsSize (api_res (struct_size plook (piget E) k x)))
  | AskMarshal (IPtr k (Some x)) => eq (IsMarshal (api_res (_ <- struct_size plook (piget E) k x ;; b <- struct_encode plook (piget E) k [] x ;; OK (Some b, None))))
  | AskUnmarshal b (IPtr k (Some x)) => eq (IsUnmarshal (if (zlen b =? 0)%Z then Returns (IPtr k (Some x), None) else
      match decs plook (piget E) E (decode_fuel E b) k b 0 x with
      | DRet x n (Some e) => Returns (IPtr k (Some x), Some e)
      | DRet x n None => Returns (IPtr k (Some x), if (n <? zlen b)%Z then Some ErrShortRead else None)
      | DCrash c => Panics c
      | DFuel => Diverges
      end))
  | AskSize _ => fun a => exists x, a = IsSize x
  | AskMarshal _ => fun a => exists x, a = IsMarshal x
  | AskUnmarshal _ _ => fun a => exists x, a = IsUnmarshal x
  end.
Lemma entry_arg r k p : iface_ok D (request_arg r) = true -> request_arg r = IPtr k p -> is_entry k = false.
Proof. intros H E. rewrite E in H. destruct k; try discriminate; reflexivity. Qed.
Lemma ask_grown r G s : CS G s -> iface_ok D (request_arg r) = true ->
  exists G', CS G' (snd (ask D r s)) /\ grown G s G' (snd (ask D r s)) /\
    forall E, map (map gf_type) D = map (map gf_type) E -> fit E G' (snd (ask D r s)) -> pure_answer E r (fst (ask D r s)).
Proof.
  intros HC Hr. pose proof (entry_arg r) as HE.
  destruct r as [v|v|b v]; cbn [ask fst snd request_arg] in *.
  - destruct v as [| | |k p]; cbn [Size fst snd pure_answer]; try (exists G; split; [exact HC|]; split; [apply grown_refl|eauto]).
    destruct (info_grown k G s HC (HE k p Hr eq_refl)) as (i & s' & G' & Er & HC' & HG & Hi). unfold with_info. rewrite Er. cbn [fst snd].
    exists G'. split; [exact HC'|]. split; [exact HG|]. intros E _ HF. destruct (fit_rel E G' s' HC' HF) as [L I].
    destruct p as [x|]; [|eauto]. cbn [info_size]. rewrite (struct_size_rel _ _ _ _ _ _ L I i k x Hi). reflexivity.
  - destruct v as [| | |k p]; cbn [Marshal fst snd pure_answer]; try (exists G; split; [exact HC|]; split; [apply grown_refl|eauto]).
    destruct (info_grown k G s HC (HE k p Hr eq_refl)) as (i & s' & G' & Er & HC' & HG & Hi). unfold with_info. rewrite Er. cbn [fst snd].
    exists G'. split; [exact HC'|]. split; [exact HG|]. intros E _ HF. destruct (fit_rel E G' s' HC' HF) as [L I].
    destruct p as [x|]; [|eauto]. cbn [info_size info_encode]. rewrite (struct_size_rel _ _ _ _ _ _ L I i k x Hi), (struct_encode_rel _ _ _ _ _ _ L I i k [] x Hi). reflexivity.
  - unfold Unmarshal, pure_answer. destruct (zlen b =? 0)%Z.
    { exists G. cbn [fst snd]. split; [exact HC|]. split; [apply grown_refl|]. intros E _ _. destruct v as [| | |k [x|]]; eauto. }
    destruct v as [| | |k [x|]]; cbn [fst snd]; try (exists G; split; [exact HC|]; split; [apply grown_refl|eauto]).
    destruct (info_grown k G s HC (HE k (Some x) Hr eq_refl)) as (i & s' & G' & Er & HC' & HG & Hi). unfold with_info. rewrite Er. cbn [fst snd].
    exists G'. split; [exact HC'|]. split; [exact HG|]. intros E HT HF. destruct (fit_rel E G' s' HC' HF) as [L I].
    rewrite (proj2 (dec_rel _ _ _ _ D _ _ L I (decode_fuel D b)) i k b 0%Z x Hi).
    rewrite (proj2 (types_dec D E HT plook (piget E) (decode_fuel D b))). unfold decode_fuel. rewrite (types_depth D E HT). reflexivity.
Qed.
Lemma calls_grown rs : forall G s, CS G s -> Forall (fun r => iface_ok D (request_arg r) = true) rs ->
  exists G' s', CS G' s' /\ grown G s G' s' /\
    forall E, map (map gf_type) D = map (map gf_type) E -> fit E G' s' -> Forall2 (pure_answer E) rs (answers D rs s).
Proof.
  induction rs as [|r rs IH]; intros G s HC H.
  - exists G, s. split; [exact HC|]. split; [apply grown_refl|]. constructor.
  - inversion H; subst. destruct (ask_grown r G s HC) as (G1 & HC1 & K1 & A1); [assumption|].
    destruct (IH G1 _ HC1) as (G2 & s2 & HC2 & K2 & A2); [assumption|]. exists G2, s2. split; [exact HC2|]. split; [eapply grown_trans; eassumption|].
    intros E HT HF. cbn [answers]. constructor; [|apply A2; assumption]. apply A1; [exact HT|]. eapply fit_back; eassumption.
Qed.
End Calls.
