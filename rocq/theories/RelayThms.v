(** Fields that come back from a program with another version of the schema. *)
From Coq Require Import ZifyBool ZifyNat ZifyN.
From Verif Require Import Base Wire GoType Leaf Codec Tag Walker Api Resolve Typing CodecSim SpecWire SpecTag SpecMsg SpecLib SpecExact
  WireFacts DecodeFacts GenFacts TypingFacts WalkInv WalkSpec WalkSeq EncFacts MsgResolve MsgEnc MsgDec MsgRound MsgFit MsgApi TidyFacts ExactThms MsgVersions VersionThms SpecVersions SpecRelay.
Local Open Scope Z_scope.

Lemma sends_typed D f s : scalars f = Some s -> ok_fty f = true -> forall v, wt D v (go_type f) = true ->
  Forall (fun x => wt D x (TScalar (go_kind s)) = true) (sends f v).
Proof.
  assert (E : forall e, ok_elem e = true -> scalars e = Some s -> forall v, wt D v (go_type e) = true ->
    Forall (fun x => wt D x (TScalar (go_kind s)) = true) (sends e v)).
  { intros e He Hs v Hw. destruct e; try discriminate He; inversion Hs; subst; cbn [go_type] in Hw.
    - destruct v; repeat constructor; exact Hw.
    - wtd v; [|constructor]. repeat constructor. exact Hw. }
  intros Hs Hf v Hw. destruct f as [x|x|x|x| |m|e|k e]; try discriminate Hs; try (inversion Hs; subst); cbn [go_type] in Hw.
  - assert (S : sends (FImplicit s) v = if is_zero v then [] else [v]) by (destruct v; reflexivity).
    rewrite S. destruct (is_zero v); repeat constructor. exact Hw.
  - wtd v. cbn [wt] in Hw. destruct some; repeat constructor. exact Hw.
  - destruct (wt_ptr _ _ _ Hw) as ([x|] & -> & Hx); repeat constructor. exact Hx.
  - apply (E (FAlways s)); auto.
  - apply (E FBytes); auto.
  - clear H0. cbn [scalars] in Hs. cbn [ok_fty] in Hf. destruct (wt_slice _ _ _ Hw) as (nn & items & spare & -> & Hi & Hsp). clear Hw Hsp.
    cbn [sends]. induction items as [|x items IH]; [constructor|]. cbn [forallb flat_map] in *.
    apply andb_true_iff in Hi. destruct Hi as [Hx Hi]. apply Forall_app. split; [apply (E e Hf Hs x Hx)|exact (IH Hi)].
Qed.
(** There and back. *)
Lemma same_number D s x y : In s [Y_int32; Y_int64; Y_uint32; Y_uint64] -> wt D x (TScalar (go_kind s)) = true -> wt D y (TScalar (go_kind s)) = true ->
  number x = number y -> x = y.
Proof.
  intros Hs Hx Hy H. repeat (destruct Hs as [<-|Hs]; [cbn [go_kind] in Hx, Hy; wtd x; wtd y; cbn [number] in H; f_equal; lia|]). destruct Hs.
Qed.
Lemma both_ways s s' : change s s' = true -> change s' s = true -> s = s' \/ In s [Y_int32; Y_int64; Y_uint32; Y_uint64] /\ In s' [Y_int32; Y_int64; Y_uint32; Y_uint64].
Proof. destruct s, s'; intros H H'; try discriminate H; try discriminate H'; cbn; tauto. Qed.
Lemma change_plain s s' : change s s' = true -> not_sfixed s = true.
Proof. destruct s, s'; intros H; try discriminate H; reflexivity. Qed.
Lemma there_back D D' s s' x : change s s' = true -> change s' s = true -> wt D x (TScalar (go_kind s)) = true -> has_it D' s' x ->
  become s (become s' x) = x /\ (is_zero (become s' x) = is_zero x) /\ (s = s' -> become s' x = x).
Proof.
  intros C C' W (w & Ww & Nw). destruct (both_ways s s' C C') as [<-|[I I']].
  - rewrite !(become_same D s x (change_plain _ _ C) W). repeat split. 
  - assert (Ww' : wt D w (TScalar (go_kind s')) = true).
    { clear - Ww I'. repeat (destruct I' as [<-|I']; [cbn [go_kind] in *; wtd w; exact Ww|]). destruct I'. }
    destruct (become_proof D s s' x C W) as (B1 & B2 & B3). specialize (B2 (ex_intro _ w (conj Ww' Nw))).
    destruct (become_proof D s' s (become s' x) C' B1) as (A1 & A2 & _). specialize (A2 (ex_intro _ x (conj W (eq_sym B2)))).
    split; [apply (same_number D s); auto; congruence|]. split.
    + assert (Z : forall t v, In t [Y_int32; Y_int64; Y_uint32; Y_uint64] -> wt D v (TScalar (go_kind t)) = true -> is_zero v = (number v =? 0)).
      { intros t v It Wv. repeat (destruct It as [<-|It]; [cbn [go_kind] in Wv; wtd v; cbn [number is_zero]; try reflexivity; lia|]). destruct It. }
      rewrite (Z s' _ I' B1), (Z s x I W), B2. reflexivity.
    + intros ->. apply B3. reflexivity.
Qed.
(** What one field sends on. *)
Lemma elem_back D e s s' x : ok_elem e = true -> scalars e = Some s' -> change s s' = true -> wt D x (TScalar (go_kind s)) = true -> sends e (gets e [x]) = [become s' x].
Proof.
  intros He Hs C W. destruct e; try discriminate He; inversion Hs; subst.
  - cbn [gets last_of sends]. match goal with |- context [become ?a ?b] => destruct (become a b); reflexivity end.
  - destruct s; try discriminate C. cbn [go_kind] in W. wtd x. reflexivity.
Qed.
Lemma list_back D e s s' l : ok_elem e = true -> scalars e = Some s' -> change s s' = true -> Forall (fun x => wt D x (TScalar (go_kind s)) = true) l ->
  sends (FRepeated e) (gets (FRepeated e) l) = map (become s') l.
Proof.
  intros He Hs C W. assert (K : flat_map (sends e) (map (fun x => gets e [x]) l) = map (become s') l).
  { induction W as [|x l Wx W IH]; [reflexivity|]. cbn [map flat_map]. rewrite (elem_back D e s s' x He Hs C Wx), IH. reflexivity. }
  destruct l as [|x l]; [reflexivity|]. cbn [gets]. destruct (last_of (x :: l)) eqn:L; [exact K|]. exfalso. clear - L. revert x L. induction l; intros x L; [discriminate L|]. exact (IHl _ L).
Qed.
Lemma last_map g l : last_of (map g l) = option_map g (last_of l).
Proof. induction l as [|x [|y l] IH]; try reflexivity. exact IH. Qed.
Lemma last_in l x : last_of l = Some x -> In x l.
Proof. induction l as [|y [|z l] IH]; cbn [last_of]; intros H; [discriminate H|inversion H; left; reflexivity|right; apply IH, H]. Qed.
Lemma gets_back f s g l : scalars f = Some s -> ok_fty f = true -> (forall x, In x l -> become s (g x) = become s x) -> (s = Y_string -> forall x, In x l -> g x = x) ->
  gets f (map g l) = gets f l.
Proof.
  intros Hs Hf H HS. assert (K : s = Y_string -> map g l = l) by (intros E; rewrite <- (map_id l) at 2; apply map_ext_in; intros x Hx; exact (HS E x Hx)).
  destruct f as [q|q|q|q| |m|e|k e]; try discriminate Hs; try (inversion Hs; subst q); cbn [gets]; try rewrite last_map.
  1-4: destruct (last_of l) as [x|] eqn:L; [|reflexivity]; cbn [option_map]; rewrite (H x (last_in _ _ L)); reflexivity.
  - inversion Hs; subst s. rewrite <- last_map, (K eq_refl). reflexivity.
  - destruct (last_of l) as [x|] eqn:L; [|reflexivity]. cbn [option_map]. f_equal. rewrite map_map. apply map_ext_in. intros y Hy.
    cbn [ok_fty] in Hf. cbn [scalars] in Hs. destruct e; try discriminate Hf; inversion Hs; subst; cbn [gets last_of]; [apply H, Hy|rewrite (HS eq_refl y Hy); reflexivity].
Qed.
Lemma zero_is D s x : wt D x (TScalar (go_kind s)) = true -> is_zero x = true -> not_sfixed s = true -> x = zero (TScalar (go_kind s)).
Proof.
  intros W Z N. destruct s; try discriminate N; cbn [go_kind] in *; wtd x; cbn [is_zero] in Z; cbn; try (f_equal; lia); 
    try match goal with b : bool |- _ => destruct b; [discriminate Z|reflexivity] end;
    match goal with b : bytes |- _ => destruct b; [reflexivity|discriminate Z] end.
Qed.
Lemma become_zero s s' : change s s' = true -> change s' s = true -> become s (zero (TScalar (go_kind s'))) = zero (TScalar (go_kind s)).
Proof. destruct s, s'; intros H H'; try discriminate H; try discriminate H'; reflexivity. Qed.
Definition few {A} (l : list A) : Prop := match l with [] | [_] => True | _ => False end.
Lemma sends_few f v : match f with FRepeated _ => False | _ => True end -> few (sends f v).
Proof. destruct f; intros []; destruct v as [| | | | | | | |[]|[]| | |[]| |]; cbn [sends]; try exact Logic.I; try match goal with |- context [is_zero ?x] => destruct (is_zero x) end; exact Logic.I. Qed.
Lemma trip D D' f f' s s' v : scalars f = Some s -> scalars f' = Some s' -> ok_fty f = true -> ok_fty f' = true -> change s s' = true -> change s' s = true ->
  returns_as f f' = true -> wt D v (go_type f) = true -> (forall x, In x (sends f v) -> has_it D' s' x) ->
  gets f (sends f' (gets f' (sends f v))) = gets f (sends f v).
Proof.
  intros Hs Hs' Hf Hf' C C' K W HI. pose proof (sends_typed D f s Hs Hf v W) as T. rewrite Forall_forall in T.
  assert (TB : forall x, In x (sends f v) -> become s (become s' x) = x /\ (is_zero (become s' x) = is_zero x) /\ (s = s' -> become s' x = x))
    by (intros x Hx; exact (there_back D D' s s' x C C' (T x Hx) (HI x Hx))).
  assert (G : gets f (map (become s') (sends f v)) = gets f (sends f v)).
  { apply (gets_back f s); auto.
    - intros x Hx. destruct (TB x Hx) as (-> & _). rewrite (become_same D s x (change_plain _ _ C) (T x Hx)). reflexivity.
    - intros E x Hx. apply TB; [exact Hx|]. subst s. destruct s'; try discriminate C; reflexivity. }
  destruct f' as [q|q|q|q| |m|e|k e]; try discriminate Hs'; try (inversion Hs'; subst q).
  - (* implicit *)
    assert (F : few (sends f v)) by (apply sends_few; destruct f; try exact Logic.I; discriminate K).
    assert (S' : forall y, sends (FImplicit s') y = if is_zero y then [] else [y]) by (intros []; reflexivity).
    destruct (sends f v) as [|x [|]] eqn:E; [| |destruct F].
    + rewrite S'. cbn [gets last_of go_type]. replace (is_zero (zero (TScalar (go_kind s')))) with true; [reflexivity|]. destruct s'; reflexivity.
    + rewrite S'. cbn [gets last_of] in *. destruct (TB x (or_introl eq_refl)) as (B1 & B2 & _). rewrite B2. destruct (is_zero x) eqn:Z; [|exact G].
      destruct f as [q|q|q|q| |m|e|k e]; try discriminate K; inversion Hs; subst q.
      * assert (Sv : sends (FImplicit s) v = if is_zero v then [] else [v]) by (destruct v; reflexivity). rewrite Sv in E. destruct (is_zero v) eqn:Zv; [discriminate E|]. inversion E; subst. congruence.
      * cbn [gets last_of go_type]. rewrite (become_same D s x (change_plain _ _ C) (T x (or_introl eq_refl))). symmetry. apply (zero_is D); [apply T; left; reflexivity|exact Z|exact (change_plain _ _ C)].
  - assert (F : few (sends f v)) by (apply sends_few; destruct f; try exact Logic.I; discriminate K).
    destruct (sends f v) as [|x [|]]; [reflexivity|exact G|destruct F].
  - assert (F : few (sends f v)) by (apply sends_few; destruct f; try exact Logic.I; discriminate K).
    destruct (sends f v) as [|x [|]]; [reflexivity|exact G|destruct F].
  - (* always *)
    assert (F : few (sends f v)) by (apply sends_few; destruct f; try exact Logic.I; discriminate K).
    assert (S' : forall y, sends (FAlways s') y = [y]) by (intros []; reflexivity).
    rewrite S'. destruct (sends f v) as [|x [|]] eqn:E; [|exact G|destruct F].
    destruct f as [q|q|q|q| |m|e|k e]; try discriminate K; inversion Hs; subst q; cbn [gets last_of go_type]; apply become_zero; assumption.
  - assert (F : few (sends f v)) by (apply sends_few; destruct f; try exact Logic.I; discriminate K).
    inversion Hs'; subst s'. destruct (sends f v) as [|x [|]] eqn:E; [reflexivity| |destruct F].
    assert (s = Y_string) by (destruct s; try discriminate C; reflexivity). subst s. pose proof (T x (or_introl eq_refl)) as Tx. cbn [go_kind] in Tx. wtd x. reflexivity.
  - cbn [ok_fty] in Hf'. cbn [scalars] in Hs'. rewrite (list_back D e s s' _ Hf' Hs' C); [exact G|]. apply Forall_forall, T.
Qed.

(** The other program holds what it was given up to what is not seen. *)
Definition simple (v : val) : bool := match v with VOpt _ _ | VSlice _ _ _ | VMap _ | VPtr _ | VStruct _ | VOther _ => false | _ => true end.
Lemma simple_shown y x : simple x = true -> shown y = norm x -> y = x.
Proof.
  intros S H. assert (N : norm x = x) by (destruct x; try discriminate S; reflexivity). rewrite N in H.
  destruct y as [| | | | | | | | | | |[|]|[|]| |]; cbn [shown] in H; subst x; try discriminate S; reflexivity.
Qed.
Lemma wt_simple D x k : wt D x (TScalar k) = true -> simple x = true.
Proof. destruct k; intros W; wtd x; reflexivity. Qed.
Lemma become_simple s s' D x : change s s' = true -> wt D x (TScalar (go_kind s)) = true -> simple (become s' x) = true.
Proof. intros C W. destruct (become_proof D s s' x C W) as (B & _). exact (wt_simple D _ _ B). Qed.
Lemma sends_seen D f' s s' l y : scalars f' = Some s' -> ok_fty f' = true -> change s s' = true -> Forall (fun x => wt D x (TScalar (go_kind s)) = true) l ->
  shown y = norm (gets f' l) -> sends f' y = sends f' (gets f' l).
Proof.
  intros Hs' Hf' C T H. rewrite Forall_forall in T.
  destruct f' as [q|q|q|q| |m|e|k e]; try discriminate Hs'; try (inversion Hs'; subst q); cbn [gets] in *.
  - apply simple_shown in H; [subst y; reflexivity|].
    destruct (last_of l) as [x|] eqn:L; [apply (become_simple s s' D); [exact C|apply T, last_in, L]|destruct s'; reflexivity].
  - destruct (last_of l) as [x|] eqn:L; cbn [norm go_type zero] in H; destruct y as [| | | | | | | | |[] ?| |[|]|[|]| |]; cbn [shown] in H; try discriminate H; [injection H as ->; reflexivity|reflexivity].
  - destruct (last_of l) as [x|] eqn:L; cbn [norm go_type zero] in H; destruct y as [| | | | | | | | |[] ?| |[|]|[y|]| |]; cbn [shown] in H; try discriminate H; [|reflexivity].
    injection H as H. rewrite (simple_shown y _ (become_simple s s' D x C (T x (last_in _ _ L))) H). reflexivity.
  - apply simple_shown in H; [subst y; reflexivity|].
    destruct (last_of l) as [x|] eqn:L; [apply (become_simple s s' D); [exact C|apply T, last_in, L]|destruct s'; reflexivity].
  - apply simple_shown in H; [subst y; reflexivity|].
    destruct (last_of l) as [[]|]; reflexivity.
  - cbn [ok_fty] in Hf'. cbn [scalars] in Hs'. destruct (last_of l) as [x|] eqn:L; cbn [norm go_type zero map] in H; destruct y as [| | | | | | | | | |nn items sp|[|]|[|]| |]; cbn [shown] in H; try discriminate H; injection H as _ H.
    + cbn [sends]. f_equal. assert (S : forall x, In x l -> simple (gets e [x]) = true).
      { intros z Hz. destruct e; try discriminate Hf'; inversion Hs'; subst; cbn [gets last_of]; [apply (become_simple s s' D); [exact C|apply T, Hz]|destruct z; reflexivity]. }
      clear - H S. revert items H. induction l as [|a l IH]; intros [|i items] H; try discriminate H; [reflexivity|]. cbn [map] in *. injection H as H1 H2.
      rewrite (simple_shown i _ (S a (or_introl eq_refl)) H1), (IH (fun z Hz => S z (or_intror Hz)) items H2). reflexivity.
    + destruct items; [reflexivity|discriminate H].
Qed.
Lemma translate_scalars sch sch' f f' s s' v : scalars f = Some s -> scalars f' = Some s' -> translate sch sch' v f f' = gets f' (sends f v).
Proof.
  intros Hs Hs'. destruct f as [q|q|q|q| |m|e|k e]; try discriminate Hs; destruct f' as [q'|q'|q'|q'| |m'|e'|k' e']; try discriminate Hs';
    try (destruct e; try discriminate Hs); destruct v; reflexivity.
Qed.
Lemma compatible_scalars f f' t' : compatible f f' = true -> scalars f' = Some t' -> exists t, scalars f = Some t /\ change t t' = true.
Proof.
  intros C H. assert (D : match scalars f, scalars f' with Some s, Some s' => change s s' | _, _ => false end = true).
  { destruct f as [q|q|q|q| |q|e|k e]; try exact C.
    - destruct f' as [q'|q'|q'|q'| |q'|e'|k' e']; try discriminate H; try exact C. destruct e'; try discriminate H; exact C.
    - destruct e; try exact C. destruct f' as [q'|q'|q'|q'| |q'|e'|k' e']; try discriminate H; try exact C. destruct e'; try discriminate H; exact C.
    - destruct f' as [q'|q'|q'|q'| |q'|e'|k' e']; try discriminate H; exact C. }
  rewrite H in D. destruct (scalars f) as [t|]; [|discriminate D]. eauto.
Qed.
Theorem back_proof D sch D' sch' : covers D sch = true -> covers D' sch' = true -> understood sch sch' -> understood sch' sch ->
  forall s s' s2' s2 s3 m xs b ys b' zs rs, reachable D s -> reachable D' s' -> reachable D' s2' -> reachable D s2 -> reachable D s3 -> (m < length D')%nat ->
  wts D (VStruct xs) (SNamed m) = true -> encodable_msg sch xs (msg sch m) = true -> zlen (ser (message sch xs (msg sch m))) < 2^63 ->
  encodable_msg sch' ys (msg sch' m) = true -> zlen (ser (message sch' ys (msg sch' m))) < 2^63 ->
  fst (Marshal D (ptr m xs) s) = Returns (Some b, None) ->
  fst (Unmarshal D' b (ptr m (zeros (msg sch' m))) s') = Returns (ptr m ys, None) ->
  fst (Marshal D' (ptr m ys) s2') = Returns (Some b', None) ->
  fst (Unmarshal D b' (ptr m (zeros (msg sch m))) s2) = Returns (ptr m zs, None) ->
  fst (Unmarshal D b (ptr m (zeros (msg sch m))) s3) = Returns (ptr m rs, None) ->
  forall i j n f f' x t', nth_error (msg sch m) i = Some (Field n f) -> nth_error (msg sch' m) j = Some (Field n f') -> nth_error xs i = Some x ->
  returns_as f f' = true -> scalars f' = Some t' -> (forall y, In y (sends f x) -> has_it D' t' y) ->
  option_map shown (nth_error zs i) = option_map shown (nth_error rs i).
Proof.
  intros HV HV' HU HU' s s' s2' s2 s3 m xs b ys b' zs rs R1 R2 R3 R4 R5 Hm Hw He Hsm He' Hsm' M U M' U' U3 i j n f f' x t' Hi Hj Hx K Ht' HF.
  pose proof (wts_msg _ _ _ Hw) as [Hk Hw']. pose proof Hk as Hk2. apply Nat.ltb_lt in Hk2.
  destruct (versions_proof D sch D' sch' HV HV' HU s s' m xs R1 R2 Hm Hw He Hsm) as (b2 & ys2 & M2 & U2 & _ & Wy).
  rewrite M2 in M. inversion M; subst b2. rewrite U2 in U. inversion U; subst ys2. clear M U.
  destruct (unknown_proof D sch D' sch' HV HV' HU s s' m xs b ys R1 R2 Hm Hw He Hsm M2 U2 j n f' Hj) as [A _]. specialize (A i f x Hi Hx).
  destruct (unknown_proof D sch D sch HV HV (understood_refl D sch HV) s s3 m xs b rs R1 R5 Hk2 Hw He Hsm M2 U3 i n f Hi) as [B _]. specialize (B i f x Hi Hx).
  destruct (nth_error ys j) as [y|] eqn:Ey; [|discriminate A]. cbn [option_map] in A. injection A as A.
  destruct (unknown_proof D' sch' D sch HV' HV HU' s2' s2 m ys b' zs R3 R4 Hk2 Wy He' Hsm' M' U' i n f Hi) as [Cc _]. specialize (Cc j f' y Hj Ey).
  rewrite Cc, B. f_equal. f_equal.
  destruct (covers_facts _ _ HV) as (HI & HS & HC & _). destruct (covers_facts _ _ HV') as (_ & HS' & HC' & _).
  pose proof (HU m n f f' (nth_error_In _ _ Hi) (nth_error_In _ _ Hj)) as C1. pose proof (HU' m n f' f (nth_error_In _ _ Hj) (nth_error_In _ _ Hi)) as C2.
  destruct (compatible_scalars f f' t' C1 Ht') as (t & Ht & Ct). destruct (compatible_scalars f' f t C2 Ht) as (t2 & Ht2 & Ct').
  rewrite Ht' in Ht2. injection Ht2 as <-.
  pose proof (msg_fields_ok sch HS HC m n f (nth_error_In _ _ Hi)) as [Of _]. pose proof (msg_fields_ok sch' HS' HC' m n f' (nth_error_In _ _ Hj)) as [Of' _].
  assert (Wx : wt D x (go_type f) = true).
  { rewrite (field_types_of D sch HI) in Hw'. 
    assert (E : nth_error (map fld_type (msg sch m)) i = Some (go_type f)) by (rewrite nth_error_map, Hi; reflexivity).
    destruct (all2_nth (wt D) xs (map fld_type (msg sch m)) i (go_type f) Hw' E) as (x2 & Hx2 & Wx). rewrite Hx in Hx2. injection Hx2 as <-. exact Wx. }
  rewrite (translate_scalars _ _ _ _ _ _ _ Ht Ht) , (translate_scalars _ _ _ _ _ _ _ Ht' Ht). rewrite (translate_scalars _ _ _ _ _ _ _ Ht Ht') in A.
  rewrite (sends_seen D f' t t' _ y Ht' Of' Ct (sends_typed D f t Ht Of x Wx) A). apply (trip D D' f f' t t'); assumption.
Qed.
