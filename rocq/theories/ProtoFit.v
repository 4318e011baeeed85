(** The codecs of generated structs, whether or not they are the right ones. *)
From Coq Require Import String.
From Verif Require Import Base Wire GoType Leaf Codec Tag Walker Api Resolve Typing SpecWire SpecTag SpecMsg ProtoGen SpecProto SpecReject
  WireFacts TagFacts TypingFacts MsgResolve MsgFit EncFacts WalkSeq ApiFacts RejectFacts ProtoFacts RefuteConc.

(** What the generator produces types for. *)
Definition generable_elem (e : fty) : bool := match e with FAlways _ | FBytes | FMessage _ => true | _ => false end.
Definition generable (f : fty) : bool :=
  match f with
  | FImplicit _ | FOptional _ | FBytes | FMessage _ => true
  | FRepeated e | FMap _ e => generable_elem e
  | _ => false
  end.
(** The codec an element gets: by Go type and zigzag only. *)
Definition act_elem (e : fty) : pref :=
  match e with
  | FAlways s => PStatic (SC (kind_wk (go_kind s) (zz_sty s)) Required)
  | FMessage m => PStruct (SNamed m)
  | _ => PStatic SCBytes
  end.
Definition act (n : N) (f : fty) : pref :=
  match f with
  | FImplicit s => PStatic (SC (wk_of s) Normal)
  | FOptional s => PStatic (SC (wk_of s) Optional)
  | FRepeated e => PSlice (go_type e) (act_elem e)
  | FMap k e => PMap (8 * n + 2) (tag_of 1 (FAlways k)) (tag_of 2 e) (go_kind k) (go_type e) (act_elem (FAlways k)) (act_elem e)
  | _ => act_elem f
  end.

Lemma act_field g n f i : implements_field g (Field n f) = true -> (n < 2^61)%N -> generable f = true ->
  exists tag, gf_exported g = true /\ gf_tag g = Some tag /\
  parseStructTag tag = ({| t_wire := wire_fty f; t_num := n; t_rep := is_rep f; t_zz := zz_fty f |}, None) /\
  pfield {| t_wire := wire_fty f; t_num := n; t_rep := is_rep f; t_zz := zz_fty f |} g = Some (act n f) /\
  mkfield i (tag_wiretag {| t_wire := wire_fty f; t_num := n; t_rep := is_rep f; t_zz := zz_fty f |}) (act n f)
    = mkfield i (tag_of n f) (act n f).
Proof.
  intros Hf Hn Hs. cbn [implements_field] in Hf.
  apply andb_true_iff in Hf. destruct Hf as [Hf Hm]. apply andb_true_iff in Hf. destruct Hf as [Hf Ht].
  apply andb_true_iff in Hf. destruct Hf as [He Hty]. apply is_type_eq in Hty.
  destruct (gf_tag g) as [tag|]; [|discriminate]. exists tag.
  assert (H63 : (n < 2^63)%N) by (eapply N.lt_trans; [exact Hn|reflexivity]).
  split; [exact He|]. split; [reflexivity|]. split; [exact (tag_is_parse _ _ _ _ _ _ (kind_fty_in f) H63 Ht)|].
  split; [|rewrite (tag_wiretag_of _ _ _ _ f eq_refl Hn); reflexivity].
  unfold pfield. rewrite Hty. cbn [t_wire t_zz].
  destruct f as [s|s|s|s| |m|e|k e]; cbn [generable] in Hs; try discriminate;
    try (destruct s; try discriminate; reflexivity); try reflexivity.
  - destruct e as [s|s|s|s| |m|e|k e]; cbn [generable_elem] in Hs; try discriminate; try reflexivity.
    destruct s; try discriminate; reflexivity.
  - apply andb_true_iff in Hm. destruct Hm as [Hmk Hmv].
    assert (P1 : (1 < 2^63)%N) by reflexivity. assert (P2 : (2 < 2^63)%N) by reflexivity.
    rewrite (tag_is_parse _ _ _ _ _ _ (kind_sty_in k) P1 Hmk).
    rewrite (tag_is_parse _ _ _ _ _ _ (kind_fty_in e) P2 Hmv).
    cbn [fst t_zz wire_fty go_type]. unfold static_choice, fixed_choice. cbn [t_wire N.eqb Pos.eqb wt_fixed32 wt_fixed64 option_choice t_zz zz_fty].
    rewrite (tag_wiretag_of (wire_sty k) 1 false (zz_sty k) (FAlways k) eq_refl ltac:(reflexivity)).
    rewrite (tag_wiretag_of (wire_fty e) 2 false (zz_fty e) e eq_refl ltac:(reflexivity)).
    rewrite (tag_wiretag_of 2 n (is_rep (FMap k e)) false (FMap k e) eq_refl Hn).
    assert (Ek : pcodec (TScalar (go_kind k)) (zz_sty k) true = Some (act_elem (FAlways k))) by (destruct k; reflexivity).
    assert (Ev : pcodec (go_type e) (zz_fty e) true = Some (act_elem e)).
    { destruct e as [s|s|s|s| |m|e|k' e]; cbn [generable_elem] in Hs; try discriminate; try reflexivity. }
    rewrite Ek, Ev. reflexivity.
Qed.
Fixpoint act_fields (i : nat) (fs : list sfld) : list (sfield pref) :=
  match fs with
  | [] => []
  | Hidden _ :: fs => act_fields (S i) fs
  | Field n f :: fs => mkfield i (tag_of n f) (act n f) :: act_fields (S i) fs
  end.
Definition generable_msg (fs : list sfld) : bool := forallb (fun f => match f with Field _ f => generable f | Hidden _ => true end) fs.
Lemma act_resolves gs : forall fs i, implements_msg gs fs = true -> nums_ok fs = true -> generable_msg fs = true ->
  pfields i gs = Some (act_fields i fs).
Proof.
  induction gs as [|g gs IH]; intros [|f fs] i; cbn [implements_msg pfields act_fields]; try discriminate; [reflexivity|].
  intros Hi Hn Hs. apply andb_true_iff in Hi. destruct Hi as [Hf Hi].
  unfold generable_msg in Hs. cbn [forallb] in Hs. apply andb_true_iff in Hs. destruct Hs as [Hsf Hs].
  destruct f as [t|n f].
  - rewrite (IH fs (S i) Hi Hn Hs). cbn [implements_field] in Hf.
    destruct (gf_exported g), (gf_tag g); try (rewrite andb_false_r in Hf; discriminate); reflexivity.
  - unfold nums_ok in Hn. cbn [numbers forallb] in Hn. apply andb_true_iff in Hn. destruct Hn as [Hn Hns].
    apply andb_true_iff in Hn. destruct Hn as [_ Hn]. apply num_61 in Hn. destruct Hn as [_ Hn].
    rewrite (IH fs (S i) Hi Hns Hs).
    destruct (act_field g n f i Hf Hn Hsf) as (tag & -> & -> & -> & -> & ->). reflexivity.
Qed.
Definition act_loose (f : fty) : pref :=
  match f with FAlways s => PStatic (SC (match s with Y_sint32 => WInt32 | Y_sint64 => WInt64 | _ => wk_of s end) Normal) | _ => act_elem f end.
Lemma act_entry k e : generable_elem e = true ->
  pfields 0 (entry_fields (go_kind k) (go_type e) (tag_of 1 (FAlways k)) (tag_of 2 e)) =
  Some [mkfield 0 (tag_of 1 (FAlways k)) (act_loose (FAlways k)); mkfield 1 (tag_of 2 e) (act_loose e)].
Proof.
  intros He. destruct e as [s|s|s|s| |m|e|k' e]; cbn [generable_elem] in He; try discriminate; destruct k; try reflexivity; destruct s; reflexivity.
Qed.

Section Fits.
Variables (D : decls) (sch : schema).
Hypothesis HI : implements D sch = true.
Hypothesis HS : schema_ok sch = true.
Hypothesis HG : forallb generable_msg sch = true.

Lemma act_fits n f : generable f = true -> msgs_exist (length sch) f = true -> codec_fits D (act n f) (go_type f) = true.
Proof.
  intros Hs Hm. rewrite <- (implements_length D sch HI) in Hm.
  assert (EL : forall e, generable_elem e = true -> msgs_exist (length D) e = true -> flat_fits D (act_elem e) (go_type e) = true).
  { intros e He Hx. destruct e as [s|s|s|s| |m|e|k e]; try discriminate; [destruct s; reflexivity|reflexivity|]. cbn. cbn in Hx. rewrite Nat.eqb_refl. exact Hx. }
  assert (LO : forall e, generable_elem e = true -> msgs_exist (length D) e = true -> flat_fits D (act_loose e) (go_type e) = true).
  { intros e He Hx. destruct e as [s|s|s|s| |m|e|k e]; try discriminate; [destruct s; reflexivity|reflexivity|]. cbn. cbn in Hx. rewrite Nat.eqb_refl. exact Hx. }
  destruct f as [s|s|s|s| |m|e|k e]; cbn [generable] in Hs; try discriminate.
  - destruct s; reflexivity.
  - destruct s; reflexivity.
  - reflexivity.
  - cbn. cbn in Hm. rewrite Nat.eqb_refl. exact Hm.
  - cbn [act go_type codec_fits]. rewrite gotype_eqb_refl. cbn [andb]. apply EL; assumption.
  - cbn [act go_type codec_fits]. rewrite gotype_eqb_refl, skind_eqb_refl. cbn [andb]. unfold entry_fits. rewrite (act_entry k e Hs).
    cbn [mkfield f_codec]. rewrite (EL e Hs Hm), (LO e Hs Hm).
    assert (E1 := EL (FAlways k) eq_refl eq_refl). assert (E2 := LO (FAlways k) eq_refl eq_refl). cbn [go_type] in E1, E2. rewrite E1, E2. reflexivity.
Qed.
Lemma act_fields_in fs : forall i g, In g (act_fields i fs) ->
  exists j n f, nth_error fs j = Some (Field n f) /\ g = mkfield (i + j) (tag_of n f) (act n f).
Proof.
  induction fs as [|[t|n f] fs IH]; intros i g; cbn [act_fields]; [intros []| |].
  - intros H. destruct (IH _ _ H) as (j & n & f & E & ->). exists (S j), n, f. split; [exact E|]. rewrite Nat.add_succ_r. reflexivity.
  - intros [<-|H].
    + exists 0, n, f. split; [reflexivity|]. rewrite Nat.add_0_r. reflexivity.
    + destruct (IH _ _ H) as (j & n' & f' & E & ->). exists (S j), n', f'. split; [exact E|]. rewrite Nat.add_succ_r. reflexivity.
Qed.
Lemma gen_decl gs : In gs D -> exists fs, In fs sch /\ pfields 0 gs = Some (act_fields 0 fs) /\
  map gf_type gs = map fld_type fs /\ generable_msg fs = true /\ (forall n f, In (Field n f) fs -> msgs_exist (length sch) f = true).
Proof.
  intros Hin. apply In_nth_error in Hin. destruct Hin as [m Hm]. pose proof (implements_nth D sch HI m) as H. rewrite Hm in H.
  destruct (nth_error sch m) as [fs|] eqn:E; [|contradiction]. exists fs.
  destruct (schema_ok_msg sch HS m) as (A & _ & B). rewrite (msg_nth _ _ _ E) in *.
  assert (C : generable_msg fs = true) by (rewrite forallb_forall in HG; apply HG; eapply nth_error_In; exact E).
  split; [eapply nth_error_In; exact E|]. split; [apply act_resolves; assumption|].
  split; [apply implements_types; exact H|]. split; [exact C|exact B].
Qed.
Lemma generable_in fs n f : generable_msg fs = true -> In (Field n f) fs -> generable f = true.
Proof. unfold generable_msg. rewrite forallb_forall. intros H Hin. exact (H _ Hin). Qed.
Lemma gen_fits : decls_fit D = true.
Proof.
  unfold decls_fit. apply forallb_forall. intros gs Hin. destruct (gen_decl gs Hin) as (fs & _ & Hp & Ht & Hsc & Hm).
  unfold struct_fits. rewrite Hp. apply forallb_forall. intros g Hg. apply act_fields_in in Hg.
  destruct Hg as (j & n & f & E & ->). unfold field_fits. cbn [mkfield f_idx f_codec Nat.add].
  apply (map_nth_error fld_type) in E as E'. rewrite <- Ht in E'. rewrite nth_error_map in E'.
  destruct (nth_error gs j) as [g|]; [|discriminate]. cbn in E'. inversion E' as [E'']. rewrite E''.
  apply nth_error_In in E. apply act_fits; [eapply generable_in; eassumption|eapply Hm; eassumption].
Qed.
Lemma act_visits n f : generable f = true ->
  pref_visits (go_type f) (act n f) = match f with FRepeated e => [(go_type f, act n f)] | _ => [] end.
Proof.
  intros Hs. destruct f as [s|s|s|s| |m|e|k e]; cbn [generable] in Hs; try discriminate; try reflexivity;
    destruct e; try discriminate; reflexivity.
Qed.
Lemma act_entry_visits n f : generable f = true -> entry_visits (act n f) = [].
Proof.
  destruct f as [s|s|s|s| |m|e|k e]; cbn [generable]; try reflexivity; try discriminate.
  intros He. cbn [act entry_visits]. rewrite (act_entry k e He). destruct e; try discriminate; reflexivity.
Qed.
Lemma gen_visits_in x : In x (visits D) -> exists n e, In (FRepeated e) (fields_of sch) /\ generable_elem e = true /\ x = (TSlice (go_type e), act n (FRepeated e)).
Proof.
  unfold visits. rewrite in_flat_map. intros (gs & Hin & Hx). destruct (gen_decl gs Hin) as (fs & Hfs & Hp & Ht & Hsc & _).
  unfold struct_visits in Hx. rewrite Hp in Hx. apply in_app_or in Hx. destruct Hx as [Hx|Hx].
  - unfold fields_visits in Hx. apply in_flat_map in Hx. destruct Hx as (g & Hg & Hx). apply act_fields_in in Hg.
    destruct Hg as (j & n & f & E & ->). cbn [mkfield f_idx f_codec Nat.add] in Hx.
    apply (map_nth_error fld_type) in E as E'. rewrite <- Ht in E'. rewrite nth_error_map in E'.
    destruct (nth_error gs j) as [g|]; [|discriminate]. cbn in E'. inversion E' as [E'']. rewrite E'' in Hx.
    apply nth_error_In in E. pose proof (generable_in _ _ _ Hsc E) as S. rewrite (act_visits n f S) in Hx.
    destruct f as [| | | | | |e|]; try (destruct Hx; fail). destruct Hx as [<-|[]].
    exists n, e. split; [|auto].
    unfold fields_of. apply in_flat_map. exists fs. split; [exact Hfs|]. apply in_flat_map. exists (Field n (FRepeated e)). split; [exact E|left; reflexivity].
  - apply in_flat_map in Hx. destruct Hx as (g & Hg & Hx). apply act_fields_in in Hg. destruct Hg as (j & n & f & E & ->).
    apply nth_error_In in E. cbn [mkfield f_codec] in Hx. rewrite (act_entry_visits n f (generable_in _ _ _ Hsc E)) in Hx. destruct Hx.
Qed.
Lemma gen_supported : agreeing sch = true -> supported D = true.
Proof.
  intros HA. unfold supported. rewrite gen_fits. cbn [andb]. unfold functional.
  apply forallb_forall. intros x Hx. apply forallb_forall. intros y Hy.
  destruct (gen_visits_in _ Hx) as (n & e & He & Ge & ->). destruct (gen_visits_in _ Hy) as (n' & e' & He' & Ge' & ->). cbn [fst snd].
  unfold agreeing in HA. rewrite forallb_forall in HA. specialize (HA _ He). rewrite forallb_forall in HA. specialize (HA _ He'). cbn beta iota in HA.
  destruct (gotype_eqb (TSlice (go_type e)) (TSlice (go_type e'))) eqn:T; [|reflexivity]. apply gotype_eqb_eq in T. inversion T as [T'].
  rewrite T' in HA. rewrite is_type_refl in HA. cbn [negb orb] in *.
  destruct (pref_eq_dec _ _) as [|Ne]; [reflexivity|]. exfalso. apply Ne. cbn [act]. rewrite T'. f_equal.
  apply Bool.eqb_prop in HA. destruct e as [s|s|s|s| |m|e|k e]; try discriminate Ge; destruct e' as [s'|s'|s'|s'| |m'|e'|k' e']; try discriminate Ge'; try discriminate T'; try reflexivity.
  - cbn [go_type elem_zigzag act_elem] in *. inversion T' as [T'']. rewrite T''. change (zz_sty s) with (zigzagged s). rewrite HA. reflexivity.
  - inversion T'. reflexivity.
Qed.
Lemma gen_homogeneous : uniform_maps sch = true -> homogeneous D = true.
Proof.
  intros HM. unfold homogeneous. apply forallb_forall. intros gs Hin. destruct (gen_decl gs Hin) as (fs & Hfs & Hp & Ht & Hsc & _). rewrite Hp.
  apply forallb_forall. intros g Hg. apply act_fields_in in Hg. destruct Hg as (j & n & f & E & ->). cbn [mkfield f_codec]. apply nth_error_In in E.
  assert (U : uniform_map f = true).
  { unfold uniform_maps in HM. rewrite forallb_forall in HM. apply HM. unfold fields_of. apply in_flat_map. exists fs. split; [exact Hfs|].
    apply in_flat_map. exists (Field n f). split; [exact E|left; reflexivity]. }
  destruct f as [s|s|s|s| |m|e|k e]; try reflexivity. destruct e as [s|s|s|s| |m|e|k' e]; try discriminate U.
  cbn [act act_elem uniform_map] in *. destruct k; destruct s; try discriminate U; reflexivity.
Qed.
End Fits.

Lemma meaning_generable F fd f : meaning F fd = Some f -> generable f = true.
Proof.
  assert (EL : forall fd e, elem_of fd = Some e -> generable_elem e = true).
  { intros fd' e. unfold elem_of. destruct (d_kind fd'); cbn; intros E; inversion E; reflexivity. }
  unfold meaning. destruct (d_weak fd); [discriminate|]. destruct (d_card fd); [|discriminate|].
  - destruct (d_kind fd); cbn; intros E; inversion E; try reflexivity; destruct (d_presence fd); reflexivity.
  - intros H.
    assert (E : option_map FRepeated (elem_of fd) = Some f \/ exists vf k e, elem_of vf = Some e /\ f = FMap k e).
    { destruct (d_kind fd); auto. destruct (nth_error F (d_message fd)) as [[[] [|kf [|vf [|]]] mo]|]; auto. right.
      destruct (scalar_of (d_kind kf)) as [k|] eqn:E1; [|discriminate]. destruct (elem_of vf) as [e|] eqn:E2; [|discriminate]. inversion H. eauto. }
    destruct E as [E|(vf & k & e & E & ->)].
    + destruct (elem_of fd) as [e|] eqn:EE; [|discriminate]. inversion E. exact (EL _ _ EE).
    + exact (EL _ _ E).
Qed.
Lemma schema_generable F : forallb generable_msg (schema_of F) = true.
Proof.
  unfold schema_of. apply forallb_forall. intros fs Hfs. apply in_map_iff in Hfs. destruct Hfs as (m & <- & Hm).
  unfold message_schema. destruct (m_entry m); [reflexivity|]. unfold generable_msg. rewrite forallb_app. apply andb_true_iff. split.
  - generalize (@nil pfield_desc). induction (m_fields m) as [|fd l IH]; intros before; [reflexivity|]. cbn [slots]. rewrite forallb_app, IH, andb_true_r.
    unfold slot. destruct (oneof_member m fd); [destruct (first_member before fd); reflexivity|]. destruct (meaning F fd) eqn:M; [|reflexivity].
    cbn. rewrite (meaning_generable _ _ _ M). reflexivity.
  - destruct (existsb _ _); reflexivity.
Qed.

(** ** At the API *)
Lemma generated_supported F : valid F = true -> usable F = true -> agreeing (schema_of F) = true -> supported (generate F) = true.
Proof.
  intros HV HU HA. apply (gen_supported (generate F) (schema_of F)); auto using generated_implements, schema_valid, schema_generable.
Qed.
Lemma generated_homogeneous F : valid F = true -> usable F = true -> uniform_maps (schema_of F) = true -> homogeneous (generate F) = true.
Proof.
  intros HV HU HA. apply (gen_homogeneous (generate F) (schema_of F)); auto using generated_implements, schema_valid, schema_generable.
Qed.

Lemma generated_tag_proof fd : (d_number fd < 2^29)%N -> d_kind fd <> GroupKind -> d_card fd <> CardRequired ->
  parseStructTag (fieldProtobufTagValue fd) =
  ({| t_wire := kind_wire (d_kind fd); t_num := d_number fd; t_rep := card_rep (d_card fd); t_zz := kind_zigzag (d_kind fd) |}, None).
Proof.
  intros Hn Hk Hc. assert (C : d_card fd = if card_rep (d_card fd) then CardRepeated else CardOptional) by (destruct (d_card fd); [reflexivity|congruence|reflexivity]).
  assert (T := tag_value_is fd _ C). assert (K : In (kindTag (d_kind fd), (kind_wire (d_kind fd), kind_zigzag (d_kind fd))) kinds).
  { destruct (d_kind fd); try congruence; cbn; intuition. }
  apply (tag_is_parse _ _ _ _ _ _ K); [|exact T]. eapply N.lt_trans; [exact Hn|reflexivity].
Qed.
Lemma generated_tag_bad fd : (d_number fd < 2^29)%N -> d_kind fd = GroupKind \/ d_card fd = CardRequired ->
  exists t e, parseStructTag (fieldProtobufTagValue fd) = (t, Some e).
Proof.
  intros Hn H. unfold fieldProtobufTagValue. change (itoa (d_number fd)) with (numeral (d_number fd)).
  assert (Hn' : (d_number fd < 2^63)%N) by (eapply N.lt_trans; [exact Hn|reflexivity]).
  assert (E : exists e, snd (parseStructTag (kindTag (d_kind fd) ++ "," ++ numeral (d_number fd) ++ "," ++ cardTag (d_card fd))) = Some e).
  { destruct (d_kind fd) eqn:K; try (destruct H as [H|H]; [discriminate|]; rewrite H; exists ErrTagOption;
      match goal with |- context [kindTag ?k] => assert (T : In (kindTag k, (kind_wire k, kind_zigzag k)) kinds) by (cbn; intuition) end;
      change (cardTag CardRequired) with ("req" ++ "")%string; exact (bad_option _ _ _ _ "req" "" T Hn' eq_refl ltac:(discriminate) ltac:(discriminate) eq_refl)).
    exists ErrTagWire. apply (bad_kind "group"); [reflexivity|cbn; intuition; discriminate|reflexivity]. }
  destruct E as [e E]. destruct (parseStructTag _) as [t o]. cbn in E. subst o. eauto.
Qed.

(** A field outside oneofs is generated, with its tag. *)
Lemma ordinary_field F m fd l : In fd l -> oneof_member m fd = false -> forall before c, exists g,
  In g (genFields F m before l c) /\ gf_exported g = true /\ gf_tag g = Some (fieldProtobufTagValue fd) /\ (d_weak fd = true -> gf_type g = TOther).
Proof.
  intros Hin O. assert (R : real_oneof m fd = None).
  { unfold real_oneof, oneof_member in *. destruct (d_oneof fd) as [o|]; [|reflexivity]. destruct (nth o (m_oneofs m) false); [reflexivity|discriminate]. }
  induction l as [|fd' l IH]; [destruct Hin|]. intros before c. cbn [genFields]. destruct Hin as [->|Hin].
  - unfold genMessageField. rewrite R. destruct (fieldGoType F fd) as [[t o] cm] eqn:T.
    cbv zeta. match goal with |- context [if is_map F fd then ?a else ?b] => destruct (if is_map F fd then a else b) as [key val] end.
    eexists. split; [left; reflexivity|]. cbn. split; [reflexivity|]. split; [reflexivity|].
    intros W. unfold fieldGoType in T. rewrite W in T. inversion T. reflexivity.
  - destruct (genMessageField F m before fd') as [og cm]. destruct (IH Hin (before ++ [fd']) (c && cm)) as (g & Hg & H).
    exists g. split; [|exact H]. destruct og; [right|]; exact Hg.
Qed.
Lemma generated_rejected_proof F i m fd : nth_error F i = Some m -> m_entry m = false -> In fd (ordinary m) -> (d_number fd < 2^29)%N ->
  d_kind fd = GroupKind \/ d_card fd = CardRequired \/ d_weak fd = true ->
  forall s, reachable (generate F) s -> forall p b x, b <> [] ->
  fst (Size (generate F) (IPtr (SNamed i) p) s) = Panics Unsupported /\
  fst (Marshal (generate F) (IPtr (SNamed i) p) s) = Panics Unsupported /\
  fst (Unmarshal (generate F) b (IPtr (SNamed i) (Some x)) s) = Panics Unsupported.
Proof.
  intros Hi He Hfd Hn Hbad. unfold ordinary in Hfd. apply filter_In in Hfd. destruct Hfd as [Hfd O]. apply negb_true_iff in O.
  destruct (ordinary_field F m fd (m_fields m) Hfd O [] true) as (g & Hg & Ex & Tg & Ty).
  apply (hopeless_proof (generate F) i g (genMessage F m)).
  - unfold generate. rewrite nth_error_map, Hi. reflexivity.
  - unfold genMessage. rewrite He. exact Hg.
  - unfold hopeless_field. rewrite Ex, Tg. destruct (parseStructTag (fieldProtobufTagValue fd)) as [t [e|]] eqn:E; [reflexivity|].
    destruct Hbad as [H|[H|H]].
    + destruct (generated_tag_bad fd Hn (or_introl H)) as (t' & e & E'). congruence.
    + destruct (generated_tag_bad fd Hn (or_intror H)) as (t' & e & E'). congruence.
    + rewrite (Ty H). unfold static_choice, fixed_choice. destruct (t_wire t =? wt_fixed32)%N; [reflexivity|]. destruct (t_wire t =? wt_fixed64)%N; reflexivity.
Qed.
Lemma generated_total_proof F : valid F = true -> usable F = true -> agreeing (schema_of F) = true -> forall s i x,
  reachable (generate F) s -> wts (generate F) x (SNamed i) = true ->
  (exists n, fst (Size (generate F) (IPtr (SNamed i) (Some x)) s) = Returns n) /\
  (forall b, bytes_okb b = true -> (zlen b < 2^63)%Z ->
     exists x' e, fst (Unmarshal (generate F) b (IPtr (SNamed i) (Some x)) s) = Returns (IPtr (SNamed i) (Some x'), e) /\ wts (generate F) x' (SNamed i) = true) /\
  (uniform_maps (schema_of F) = true -> exists b, fst (Marshal (generate F) (IPtr (SNamed i) (Some x)) s) = Returns (Some b, None)).
Proof.
  intros HV HU HA s i x Hs Hx. assert (HD := generated_supported F HV HU HA).
  assert (Hk : user_key (generate F) (SNamed i) = true).
  { cbn [wts wt] in Hx. cbn. destruct x; try discriminate. destruct (nth_error (generate F) i) eqn:E; [|discriminate]. apply Nat.ltb_lt. apply nth_error_Some. congruence. }
  split; [apply size_returns_proof; assumption|]. split; [intros b Hb Hl; apply unmarshal_total_proof; assumption|].
  intros HM. destruct (accepted_proof (generate F) HD (generated_homogeneous F HV HU HM) s (SNamed i) x Hs Hk Hx) as (_ & H & _). exact H.
Qed.
