(** The structs generated for descriptors implement their schema. *)
From Coq Require Import String.
From Verif Require Import Base Wire GoType Leaf Codec Tag Walker Api Resolve Typing SpecWire SpecTag SpecMsg ProtoGen SpecProto
  TagFacts MsgResolve.

Lemma strip_self h r : strip h (h ++ r)%string = Some r.
Proof. induction h as [|c h IH]; cbn; [reflexivity|]. rewrite Ascii.eqb_refl. exact IH. Qed.
Lemma tag_value_is fd rep : d_card fd = (if rep : bool then CardRepeated else CardOptional) ->
  tag_is (fieldProtobufTagValue fd) (kindTag (d_kind fd)) (d_number fd) rep = true.
Proof.
  intros E. unfold fieldProtobufTagValue, tag_is. rewrite E.
  assert (H : cardTag (if rep then CardRepeated else CardOptional) = ((if rep then "rep" else "opt") ++ "")%string) by (destruct rep; reflexivity).
  rewrite H. change (itoa (d_number fd)) with (numeral (d_number fd)).
  rewrite <- !sapp_assoc. rewrite strip_self. reflexivity.
Qed.

Lemma kind_scalar k s : scalar_of k = Some s -> kindTag k = kind_sty s.
Proof. destruct k; cbn; intros E; inversion E; reflexivity. Qed.
Lemma kind_elem fd e : elem_of fd = Some e -> kindTag (d_kind fd) = kind_fty e.
Proof.
  unfold elem_of. destruct (d_kind fd); cbn; intros E; inversion E; reflexivity.
Qed.
Lemma type_scalar fd s : scalar_of (d_kind fd) = Some s -> kindGoType fd = (TScalar (go_kind s), d_presence fd, true).
Proof. unfold kindGoType. destruct (d_kind fd); cbn; intros E; inversion E; reflexivity. Qed.
Lemma type_elem fd e : elem_of fd = Some e -> fst (fst (kindGoType fd)) = go_type e.
Proof. unfold elem_of, kindGoType. destruct (d_kind fd); cbn; intros E; inversion E; reflexivity. Qed.

Lemma is_type_refl t : is_type t t = true.
Proof. unfold is_type. destruct (gotype_eq_dec t t); [reflexivity|congruence]. Qed.

Section Gen.
Variable F : descriptors.
Hypothesis HV : valid F = true.

Lemma message_nth fd m : nth_error F (d_message fd) = Some m -> message_of F fd = m.
Proof. intros H. unfold message_of. eapply nth_error_nth. exact H. Qed.
Lemma valid_in m : In m F -> valid_message F m = true.
Proof. unfold valid in HV. rewrite forallb_forall in HV. auto. Qed.
Lemma entry_valid m : In m F -> m_entry m = true -> exists kf vf, m_fields m = [kf; vf] /\
  d_number kf = 1%N /\ d_number vf = 2%N /\ key_kind (d_kind kf) = true /\ d_kind vf <> GroupKind /\
  d_weak kf = false /\ d_weak vf = false /\ d_card kf = CardOptional /\ d_card vf = CardOptional.
Proof.
  intros Hin He. apply valid_in in Hin. unfold valid_message in Hin. apply andb_true_iff in Hin. destruct Hin as [_ H]. rewrite He in H. cbn in H.
  destruct (m_fields m) as [|kf [|vf [|]]]; try discriminate. exists kf, vf. cbn in H.
  repeat match goal with H : _ && _ = true |- _ => apply andb_true_iff in H; destruct H end.
  repeat match goal with H : (_ =? _)%N = true |- _ => apply N.eqb_eq in H end.
  repeat match goal with H : negb _ = true |- _ => apply negb_true_iff in H end.
  destruct (d_card kf), (d_card vf), (d_oneof kf), (d_oneof vf); try discriminate.
  destruct (d_kind vf); try discriminate; repeat split; auto; discriminate.
Qed.

(** A field outside oneofs. *)
Lemma field_implements m before fd f : In m F -> In fd (m_fields m) -> oneof_member m fd = false -> meaning F fd = Some f ->
  exists g c, genMessageField F m before fd = (Some g, c) /\ implements_field g (Field (d_number fd) f) = true /\
    c = negb (has_slice F fd).
Proof.
  intros Hm Hfd Ho Hf. unfold genMessageField.
  assert (R : real_oneof m fd = None).
  { unfold real_oneof, oneof_member in *. destruct (d_oneof fd) as [o|]; [|reflexivity]. destruct (nth o (m_oneofs m) false); [reflexivity|discriminate]. }
  rewrite R. clear R.
  assert (Hv : valid_field F m fd = true).
  { apply valid_in in Hm. unfold valid_message in Hm. apply andb_true_iff in Hm. destruct Hm as [Hm _]. apply andb_true_iff in Hm. destruct Hm as [Hm _].
    rewrite forallb_forall in Hm. auto. }
  unfold has_slice. rewrite Hf. unfold meaning in Hf.
  destruct (d_weak fd) eqn:W; [discriminate|].
  unfold valid_field in Hv. repeat match goal with H : _ && _ = true |- _ => apply andb_true_iff in H; destruct H end.
  destruct (d_card fd) eqn:C; [| discriminate |].
  - (* singular *)
    assert (M : is_map F fd = false).
    { unfold is_map. destruct (d_kind fd) eqn:K; try reflexivity. cbn [refers andb] in *. unfold is_entry in *.
      destruct (nth_error F (d_message fd)) as [m'|] eqn:E.
      - rewrite (message_nth _ _ E). destruct (m_entry m'); [discriminate|reflexivity].
      - unfold message_of. rewrite nth_overflow; [reflexivity|]. apply nth_error_None. exact E. }
    unfold fieldGoType. rewrite W, M. unfold plainGoType. rewrite W. unfold is_list. rewrite C.
    assert (T := tag_value_is fd false C).
    destruct (scalar_of (d_kind fd)) as [s|] eqn:S.
    + rewrite (type_scalar _ _ S).
      assert (Hf' : f = (if d_presence fd then FOptional else FImplicit) s).
      { destruct (d_kind fd); cbn in S; inversion S; subst s; cbn in Hf; inversion Hf; reflexivity. }
      eexists. eexists. split; [reflexivity|]. cbn [implements_field gf_exported gf_type gf_tag]. rewrite (kind_scalar _ _ S) in T.
      destruct (d_presence fd); subst f; cbn [kind_fty is_rep go_type]; rewrite is_type_refl, T; split; reflexivity.
    + unfold kindGoType. destruct (d_kind fd) eqn:K; try discriminate S; try discriminate Hf; inversion Hf; subst f;
        (eexists; eexists; split; [reflexivity|]; cbn [implements_field gf_exported gf_type gf_tag kind_fty is_rep go_type];
         rewrite is_type_refl; cbn [kindTag] in T; rewrite T; split; reflexivity).
  - (* repeated *)
    assert (T := tag_value_is fd true C).
    destruct (is_map F fd) eqn:M.
    + unfold is_map in M. destruct (d_kind fd) eqn:K; try discriminate M. cbn [refers negb orb] in *.
      destruct (nth_error F (d_message fd)) as [m'|] eqn:E.
      2: { apply nth_error_None in E. match goal with H : Nat.ltb _ _ = true |- _ => apply Nat.ltb_lt in H end. lia. }
      rewrite (message_nth _ _ E) in M.
      destruct (entry_valid m' (nth_error_In _ _ E) M) as (kf & vf & Ef & N1 & N2 & Hk & Hg & Wk & Wv & Ck & Cv).
      destruct m' as [me mf mo]. cbn in M, Ef. subst me mf.
      destruct (scalar_of (d_kind kf)) as [ks|] eqn:SK; [|discriminate]. destruct (elem_of vf) as [e|] eqn:SV; [|discriminate]. inversion Hf; subst f.
      unfold fieldGoType, is_map. rewrite W, K, (message_nth _ _ E). cbn [m_entry m_fields].
      unfold plainGoType. rewrite Wk, Wv. unfold is_list. rewrite Ck, Cv. rewrite (type_scalar _ _ SK).
      assert (TV := type_elem _ _ SV). destruct (kindGoType vf) as [[tv pv] cv]. cbn [fst] in *. subst tv.
      eexists. eexists. split; [reflexivity|].
      cbn [implements_field gf_exported gf_type gf_tag gf_key gf_val kind_fty is_rep go_type].
      assert (T1 := tag_value_is kf false Ck). assert (T2 := tag_value_is vf false Cv).
      rewrite N1, (kind_scalar _ _ SK) in T1. rewrite N2, (kind_elem _ _ SV) in T2. cbn [kindTag] in T.
      rewrite is_type_refl, T, T1, T2. split; reflexivity.
    + assert (Hf' : option_map FRepeated (elem_of fd) = Some f).
      { unfold is_map in M. destruct (d_kind fd) eqn:K; try exact Hf. destruct (nth_error F (d_message fd)) as [m'|] eqn:E; [|exact Hf].
        rewrite (message_nth _ _ E) in M. destruct m' as [me mf mo]. cbn in M. subst me. exact Hf. }
      destruct (elem_of fd) as [e|] eqn:EE; [|discriminate]. inversion Hf'; subst f.
      unfold fieldGoType. rewrite W, M. unfold plainGoType. rewrite W. unfold is_list. rewrite C, M. cbn [negb].
      assert (TV := type_elem _ _ EE). destruct (kindGoType fd) as [[tv pv] cv]. cbn [fst] in TV. subst tv.
      eexists. eexists. split; [reflexivity|]. cbn [implements_field gf_exported gf_type gf_tag kind_fty is_rep go_type].
      rewrite (kind_elem _ _ EE) in T. rewrite is_type_refl, T. split; reflexivity.
Qed.

Lemma oneof_generates m before fd : oneof_member m fd = true ->
  genMessageField F m before fd =
  (if first_member before fd then Some {| gf_exported := true; gf_tag := None; gf_key := ""; gf_val := ""; gf_type := TOther |} else None, true).
Proof.
  unfold oneof_member, genMessageField, real_oneof, first_member. destruct (d_oneof fd) as [o|]; [|discriminate]. intros H.
  destruct (nth o (m_oneofs m) false); [discriminate|].
  assert (E : existsb (in_oneof o) before = existsb (fun fd' => match d_oneof fd' with Some a => Nat.eqb a o | None => false end) before).
  { induction before as [|fd' l IH]; [reflexivity|]. cbn. rewrite IH. f_equal. unfold in_oneof. destruct (d_oneof fd'); [apply Nat.eqb_sym|reflexivity]. }
  rewrite E. clear E. match goal with |- context [existsb ?a before] => destruct (existsb a before) end; reflexivity.
Qed.

Lemma fields_implement m : In m F -> forall l before c, (forall fd, In fd l -> In fd (m_fields m)) ->
  forallb (fun fd => match meaning F fd with Some _ => true | None => false end) (filter (fun fd => negb (oneof_member m fd)) l) = true ->
  implements_msg (genFields F m before l c)
    (slots F m before l ++ if c && negb (existsb (has_slice F) (filter (fun fd => negb (oneof_member m fd)) l)) then [Hidden TOther] else []) = true.
Proof.
  intros Hm. induction l as [|fd l IH]; intros before c Hl Hu.
  - destruct c; reflexivity.
  - cbn [genFields slots]. destruct (oneof_member m fd) eqn:O.
    + rewrite (oneof_generates m before fd O). cbn [filter] in *. rewrite O in *. cbn [negb] in *.
      assert (IH' := IH (before ++ [fd]) c (fun x H => Hl x (or_intror H)) Hu).
      rewrite andb_true_r. unfold slot. rewrite O. destruct (first_member before fd).
      * cbn [app implements_msg implements_field gf_exported gf_tag gf_type]. rewrite is_type_refl. exact IH'.
      * exact IH'.
    + cbn [filter] in *. rewrite O in *. cbn [negb forallb existsb] in *. apply andb_true_iff in Hu. destruct Hu as [Hu1 Hu].
      destruct (meaning F fd) as [f|] eqn:M; [|discriminate].
      destruct (field_implements m before fd f Hm (Hl fd (or_introl eq_refl)) O M) as (g & c' & E & I & Ec). rewrite E.
      unfold slot. rewrite O, M. cbn [app implements_msg]. rewrite I. cbn [andb].
      assert (IH' := IH (before ++ [fd]) (c && c') (fun x H => Hl x (or_intror H)) Hu). subst c'.
      replace (c && negb (has_slice F fd || existsb (has_slice F) (filter (fun fd0 => negb (oneof_member m fd0)) l)))
        with (c && negb (has_slice F fd) && negb (existsb (has_slice F) (filter (fun fd0 => negb (oneof_member m fd0)) l))); [exact IH'|].
      rewrite negb_orb. apply eq_sym, andb_assoc.
Qed.

Hypothesis HU : usable F = true.
Lemma generated_implements : implements (generate F) (schema_of F) = true.
Proof.
  unfold generate, schema_of.
  assert (H : forall l, (forall m, In m l -> In m F) -> implements (map (genMessage F) l) (map (message_schema F) l) = true).
  { induction l as [|m l IH]; [reflexivity|]. intros Hl. cbn [map implements]. rewrite (IH (fun x H => Hl x (or_intror H))), andb_true_r.
    assert (Hm : In m F) by (apply Hl; left; reflexivity).
    unfold genMessage, message_schema. destruct (m_entry m) eqn:E; [reflexivity|].
    assert (U : forallb (fun fd => match meaning F fd with Some _ => true | None => false end) (ordinary m) = true).
    { unfold usable in HU. rewrite forallb_forall in HU. specialize (HU m Hm). rewrite E in HU. exact HU. }
    assert (A := fields_implement m Hm (m_fields m) [] true (fun x H => H) U). cbn [andb] in A.
    unfold ordinary. destruct (existsb (has_slice F) (filter _ (m_fields m))); exact A. }
  apply H. auto.
Qed.

Lemma visible_app a b : visible (a ++ b) = visible a ++ visible b.
Proof. unfold visible. apply flat_map_app. Qed.
Lemma slots_visible m l : forall before,
  visible (slots F m before l) = flat_map (fun fd => if oneof_member m fd then [] else match meaning F fd with Some f => [(d_number fd, f)] | None => [] end) l.
Proof.
  induction l as [|fd l IH]; intros before; [reflexivity|]. cbn [slots flat_map]. rewrite visible_app, IH. f_equal.
  unfold slot. destruct (oneof_member m fd); [destruct (first_member before fd); reflexivity|]. destruct (meaning F fd); reflexivity.
Qed.
(** The fields of the schema are those of the descriptor. *)
Lemma schema_visible i m : nth_error F i = Some m -> m_entry m = false ->
  visible (msg (schema_of F) i) = map (fun fd => (d_number fd, match meaning F fd with Some f => f | None => FBytes end)) (ordinary m).
Proof.
  intros Hi He. unfold schema_of. rewrite (msg_nth _ i (message_schema F m)) by (rewrite nth_error_map, Hi; reflexivity).
  unfold message_schema. rewrite He, visible_app, slots_visible.
  replace (visible (if existsb (has_slice F) (ordinary m) then [] else [Hidden TOther])) with (@nil (N * fty)) by (destruct (existsb _ _); reflexivity).
  rewrite app_nil_r. unfold usable in HU. rewrite forallb_forall in HU. specialize (HU m (nth_error_In _ _ Hi)). rewrite He in HU. cbn [orb] in HU.
  unfold ordinary in *. revert HU. induction (m_fields m) as [|fd l IH]; [reflexivity|]. cbn [flat_map filter].
  destruct (oneof_member m fd); cbn [negb]; [exact IH|]. cbn [forallb map]. intros H. apply andb_true_iff in H. destruct H as [H1 H2].
  rewrite (IH H2). destruct (meaning F fd); [reflexivity|discriminate].
Qed.

Lemma numbers_visible fs : numbers fs = map fst (visible fs).
Proof. induction fs as [|[t|n f] fs IH]; cbn; [reflexivity|exact IH|]. f_equal. exact IH. Qed.
Lemma nodup_N_filter {A} (g : A -> N) p l : nodup_N (map g l) = true -> nodup_N (map g (filter p l)) = true.
Proof.
  induction l as [|x l IH]; [reflexivity|]. cbn [map nodup_N filter]. intros H. apply andb_true_iff in H. destruct H as [H1 H2].
  destruct (p x); [|auto]. cbn [map nodup_N]. rewrite (IH H2), andb_true_r. apply negb_true_iff in H1. apply negb_true_iff.
  apply not_true_is_false. intros E. apply existsb_exists in E. destruct E as (y & Hy & E). apply in_map_iff in Hy. destruct Hy as (z & <- & Hz).
  apply filter_In in Hz. destruct Hz as [Hz _]. rewrite <- not_true_iff_false in H1. apply H1. apply existsb_exists. exists (g z). split; [apply in_map; exact Hz|exact E].
Qed.
Lemma elem_exists fd e : d_kind fd <> GroupKind -> (refers (d_kind fd) = true -> d_message fd < length F) -> elem_of fd = Some e -> msgs_exist (length F) e = true.
Proof.
  unfold elem_of. destruct (d_kind fd); cbn; intros Hg H E; inversion E; subst; try reflexivity. cbn. apply Nat.ltb_lt. auto.
Qed.
Lemma field_valid m fd : In m F -> In fd (m_fields m) -> valid_field F m fd = true.
Proof.
  intros Hm Hfd. apply valid_in in Hm. unfold valid_message in Hm. apply andb_true_iff in Hm. destruct Hm as [Hm _]. apply andb_true_iff in Hm. destruct Hm as [Hm _].
  rewrite forallb_forall in Hm. auto.
Qed.
Lemma refers_valid m fd : valid_field F m fd = true -> refers (d_kind fd) = true -> d_message fd < length F.
Proof.
  unfold valid_field. intros H R. rewrite R in H. repeat match goal with H : _ && _ = true |- _ => apply andb_true_iff in H; destruct H end.
  match goal with H : negb true || _ = true |- _ => cbn in H; apply Nat.ltb_lt in H; exact H end.
Qed.
Lemma meaning_exists m fd f : In m F -> In fd (m_fields m) -> meaning F fd = Some f -> msgs_exist (length F) f = true.
Proof.
  intros Hm Hfd Hf. assert (Hv := field_valid m fd Hm Hfd). assert (R := refers_valid m fd Hv).
  unfold meaning in Hf. destruct (d_weak fd); [discriminate|]. destruct (d_card fd) eqn:C; [|discriminate|].
  - destruct (d_kind fd) eqn:K; cbn in Hf; try discriminate; try (inversion Hf; subst f; try reflexivity; destruct (d_presence fd); reflexivity).
    inversion Hf. cbn. apply Nat.ltb_lt. apply R. reflexivity.
  - assert (E : option_map FRepeated (elem_of fd) = Some f \/ exists m' kf vf k e, nth_error F (d_message fd) = Some m' /\ m_fields m' = [kf; vf] /\ m_entry m' = true /\
      scalar_of (d_kind kf) = Some k /\ elem_of vf = Some e /\ f = FMap k e).
    { destruct (d_kind fd); auto. destruct (nth_error F (d_message fd)) as [[[] [|kf [|vf [|]]] mo]|]; auto. right.
      destruct (scalar_of (d_kind kf)) as [k|] eqn:E1; [|discriminate]. destruct (elem_of vf) as [e|] eqn:E2; [|discriminate]. inversion Hf.
      eexists. exists kf, vf, k, e. split; [reflexivity|]. auto. }
    destruct E as [E|(m' & kf & vf & k & e & Em & Ef & Ee & E1 & E2 & ->)].
    + destruct (elem_of fd) as [e|] eqn:EE; [|discriminate]. inversion E; subst f. cbn [msgs_exist]. apply (elem_exists fd e); [|exact R|exact EE].
      intros G. unfold elem_of in EE. rewrite G in EE. discriminate.
    + cbn [msgs_exist]. assert (Hin := nth_error_In _ _ Em). assert (Hv' := field_valid m' vf Hin). rewrite Ef in Hv'. specialize (Hv' (or_intror (or_introl eq_refl))).
      apply (elem_exists vf e); [|exact (refers_valid _ _ Hv')|exact E2].
      intros G. unfold elem_of in E2. rewrite G in E2. discriminate.
Qed.
Lemma schema_valid : schema_ok (schema_of F) = true.
Proof.
  unfold schema_ok, schema_of. rewrite map_length. apply forallb_forall. intros fs Hfs. apply in_map_iff in Hfs. destruct Hfs as (m & <- & Hm).
  apply In_nth_error in Hm as Hi. destruct Hi as [i Hi]. unfold message_schema. destruct (m_entry m) eqn:E; [reflexivity|].
  assert (V := schema_visible i m Hi E). unfold schema_of in V. rewrite (msg_nth _ i (message_schema F m)) in V by (rewrite nth_error_map, Hi; reflexivity).
  unfold message_schema in V. rewrite E in V. set (fs := slots F m [] (m_fields m) ++ _) in *. clearbody fs.
  assert (U : forallb (fun fd => match meaning F fd with Some _ => true | None => false end) (ordinary m) = true).
  { unfold usable in HU. rewrite forallb_forall in HU. specialize (HU m Hm). rewrite E in HU. exact HU. }
  assert (Nm : numbers fs = map d_number (ordinary m)) by (rewrite numbers_visible, V, map_map; reflexivity).
  apply andb_true_iff. split; [apply andb_true_iff; split|].
  - rewrite Nm. apply forallb_forall. intros n Hn. apply in_map_iff in Hn. destruct Hn as (fd & <- & Hfd). unfold ordinary in Hfd. apply filter_In in Hfd. destruct Hfd as [Hfd _].
    assert (Hv := field_valid m fd Hm Hfd). unfold valid_field in Hv.
    repeat match goal with H : _ && _ = true |- _ => apply andb_true_iff in H; destruct H end.
    apply andb_true_iff. split; [apply N.ltb_lt|apply N.ltb_lt].
    + match goal with H : (1 <=? _)%N = true |- _ => apply N.leb_le in H end. lia.
    + match goal with H : (_ <? 2^29)%N = true |- _ => apply N.ltb_lt in H end. eapply N.lt_trans; [eassumption|reflexivity].
  - rewrite Nm. apply nodup_N_filter. apply valid_in in Hm. unfold valid_message in Hm. apply andb_true_iff in Hm. destruct Hm as [Hm _]. apply andb_true_iff in Hm. apply Hm.
  - apply forallb_forall. intros [t|n f] Hf; [reflexivity|].
    assert (Hin : In (n, f) (visible fs)) by (unfold visible; apply in_flat_map; exists (Field n f); split; [exact Hf|left; reflexivity]).
    rewrite V in Hin. apply in_map_iff in Hin. destruct Hin as (fd & E' & Hfd). rewrite forallb_forall in U. specialize (U fd Hfd).
    unfold ordinary in Hfd. apply filter_In in Hfd. destruct Hfd as [Hfd _].
    destruct (meaning F fd) as [f'|] eqn:M; [|discriminate]. inversion E'; subst. exact (meaning_exists m fd f Hm Hfd M).
Qed.
End Gen.

Lemma generated_covers F : covered F = true -> covers (generate F) (schema_of F) = true.
Proof.
  unfold covered, covers. intros H. repeat match goal with H : _ && _ = true |- _ => apply andb_true_iff in H; destruct H end.
  rewrite generated_implements, schema_valid by assumption. cbn [andb]. apply andb_true_iff. split; assumption.
Qed.
