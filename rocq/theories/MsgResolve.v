(** The codecs of Go declarations that implement a schema. *)
From Coq Require Import ZifyBool ZifyNat ZifyN String.
From Verif Require Import Base Wire GoType Leaf Codec Tag Walker Resolve Typing SpecWire SpecTag SpecMsg
  WireFacts DecodeFacts TypingFacts TagFacts.

Definition wk_of (s : sty) : wk :=
  match s with
  | Y_int32 | Y_sfixed32 => WInt32
  | Y_int64 | Y_sfixed64 => WInt64
  | Y_uint32 => WUint32
  | Y_uint64 => WUint64
  | Y_sint32 => WZigzag32
  | Y_sint64 => WZigzag64
  | Y_fixed32 => WFixed32
  | Y_fixed64 => WFixed64
  | Y_float => WFloat32
  | Y_double => WFloat64
  | Y_bool => WBool
  | Y_string => WString
  end.
(** The tag of field [n] holding [f]. *)
Definition tag_of (n : N) (f : fty) : N := (8 * n + wire_fty f)%N.
Fixpoint pref_of (n : N) (f : fty) : pref :=
  match f with
  | FImplicit s => PStatic (SC (wk_of s) Normal)
  | FOptional s => PStatic (SC (wk_of s) Optional)
  | FAlways s => PStatic (SC (wk_of s) Required)
  | FPointer s => PPtr (TScalar (go_kind s)) (PStatic (SC (wk_of s) Normal))
  | FBytes => PStatic SCBytes
  | FMessage m => PStruct (SNamed m)
  | FRepeated e => PSlice (go_type e) (pref_of n e)
  | FMap k e => PMap (8 * n + 2) (tag_of 1 (FAlways k)) (tag_of 2 e) (go_kind k) (go_type e)
                  (PStatic (SC (wk_of k) Required)) (pref_of 2 e)
  end.
(** The entry struct's fields are decoded as plain fields. *)
Definition loose (f : fty) : fty := match f with FAlways s => FImplicit s | _ => f end.

Fixpoint spec_fields (i : nat) (fs : list sfld) : list (sfield pref) :=
  match fs with
  | [] => []
  | Hidden _ :: fs => spec_fields (S i) fs
  | Field n f :: fs => mkfield i (tag_of n f) (pref_of n f) :: spec_fields (S i) fs
  end.
Fixpoint spec_tags (i : nat) (fs : list sfld) : list (nat * N) :=
  match fs with
  | [] => []
  | Hidden _ :: fs => spec_tags (S i) fs
  | Field n f :: fs => (i, tag_of n f) :: spec_tags (S i) fs
  end.

(** ** Tags *)
Lemma strip_app h s r : strip h s = Some r -> s = (h ++ r)%string.
Proof.
  revert s. induction h as [|c h IH]; intros s; cbn [strip]; [intros H; inversion H; reflexivity|].
  destruct s as [|d s]; [discriminate|]. destruct (Ascii.eqb_spec c d); [|discriminate]. subst.
  intros H. apply IH in H. rewrite H. reflexivity.
Qed.
Lemma sapp_assoc (a b c : string) : ((a ++ b) ++ c = a ++ (b ++ c))%string.
Proof. induction a as [|x a IH]; [reflexivity|]. change (String x ((a ++ b) ++ c) = String x (a ++ (b ++ c))). rewrite IH. reflexivity. Qed.
Lemma tag_is_parse tag k w z n rep : In (k, (w, z)) kinds -> (n < 2^63)%N -> tag_is tag k n rep = true ->
  parseStructTag tag = ({| t_wire := w; t_num := n; t_rep := rep; t_zz := z |}, None).
Proof.
  intros Hk Hn. unfold tag_is. destruct (strip _ tag) as [r|] eqn:E; [|discriminate]. intros Ht.
  apply strip_app in E. subst tag. rewrite !sapp_assoc. apply parse_tag_ok; assumption.
Qed.

Definition zz_sty (s : sty) : bool := match s with Y_sint32 | Y_sint64 => true | _ => false end.
Fixpoint zz_fty (f : fty) : bool :=
  match f with
  | FImplicit s | FOptional s | FPointer s | FAlways s => zz_sty s
  | FRepeated e => zz_fty e
  | _ => false
  end.
Lemma kind_sty_in s : In (kind_sty s, (wire_sty s, zz_sty s)) kinds.
Proof. destruct s; cbn; intuition. Qed.
Lemma kind_fty_in f : In (kind_fty f, (wire_fty f, zz_fty f)) kinds.
Proof. induction f; cbn [kind_fty wire_fty zz_fty]; auto using kind_sty_in; cbn; intuition. Qed.
Lemma wire_sty_in s : In (wire_sty s) [0; 1; 2; 5]%N.
Proof. destruct s; cbn; intuition. Qed.
Lemma wire_fty_in f : In (wire_fty f) [0; 1; 2; 5]%N.
Proof. induction f; cbn [wire_fty]; auto using wire_sty_in; cbn; intuition. Qed.
Lemma wire_fty_lt f : (wire_fty f < 8)%N.
Proof. pose proof (wire_fty_in f) as H. cbn in H. lia. Qed.

Lemma num_61 n : (n <? 2^61)%N = true -> (n < 2^63)%N /\ (n < 2^61)%N.
Proof. intros H. apply N.ltb_lt in H. split; [|exact H]. eapply N.lt_trans; [exact H|reflexivity]. Qed.

Lemma tag_wiretag_of w n r z f : w = wire_fty f -> (n < 2^61)%N ->
  tag_wiretag {| t_wire := w; t_num := n; t_rep := r; t_zz := z |} = tag_of n f.
Proof. intros -> H. unfold tag_wiretag, tag_of. cbn [t_num t_wire]. apply mktag_spec; [exact H|apply wire_fty_lt]. Qed.

Definition nums_ok (fs : list sfld) : bool := forallb (fun n => (0 <? n)%N && (n <? 2^61)%N) (numbers fs).

(** Indices and tags, for any schema. *)
Lemma resolve_tags gs : forall fs i l, implements_msg gs fs = true -> nums_ok fs = true -> pfields i gs = Some l ->
  map (fun f => (f_idx f, f_meta f)) l = map (fun p => (fst p, meta_of (snd p))) (spec_tags i fs).
Proof.
  induction gs as [|g gs IH]; intros [|f fs] i l; cbn [implements_msg pfields spec_tags]; try discriminate.
  - intros _ _ H; inversion H; reflexivity.
  - intros Hi Hn. apply andb_true_iff in Hi. destruct Hi as [Hf Hi].
    destruct (pfields (S i) gs) as [r|] eqn:E; [|discriminate].
    destruct f as [t|n f]; cbn [implements_field] in Hf.
    + assert (R : map (fun f => (f_idx f, f_meta f)) r = map (fun p => (fst p, meta_of (snd p))) (spec_tags (S i) fs)) by (eapply IH; eassumption).
      destruct (gf_exported g), (gf_tag g); try (rewrite andb_false_r in Hf; discriminate); intros H; inversion H; subst; exact R.
    + unfold nums_ok in Hn. cbn [numbers forallb] in Hn. apply andb_true_iff in Hn. destruct Hn as [Hn Hns].
      apply andb_true_iff in Hn. destruct Hn as [_ Hn]. apply num_61 in Hn. destruct Hn as [Hn Hn'].
      apply andb_true_iff in Hf. destruct Hf as [Hf _]. apply andb_true_iff in Hf. destruct Hf as [Hf Ht].
      apply andb_true_iff in Hf. destruct Hf as [He _]. rewrite He.
      destruct (gf_tag g) as [tag|]; [|discriminate].
      rewrite (tag_is_parse _ _ _ _ _ _ (kind_fty_in f) Hn Ht).
      destruct (pfield _ g); [|discriminate]. intros H; inversion H; subst. cbn [map mkfield f_idx f_meta].
      rewrite (tag_wiretag_of _ _ _ _ f eq_refl Hn'). f_equal. eapply IH; eassumption.
Qed.

(** ** Codecs, for schemas in scope *)
Lemma is_type_eq a b : is_type a b = true -> a = b.
Proof. unfold is_type. destruct (gotype_eq_dec a b); [auto|discriminate]. Qed.

Lemma resolve_field g n f i : implements_field g (Field n f) = true -> (n < 2^61)%N -> scope_field f = true ->
  exists tag, gf_exported g = true /\ gf_tag g = Some tag /\
  parseStructTag tag = ({| t_wire := wire_fty f; t_num := n; t_rep := is_rep f; t_zz := zz_fty f |}, None) /\
  pfield {| t_wire := wire_fty f; t_num := n; t_rep := is_rep f; t_zz := zz_fty f |} g = Some (pref_of n f) /\
  mkfield i (tag_wiretag {| t_wire := wire_fty f; t_num := n; t_rep := is_rep f; t_zz := zz_fty f |}) (pref_of n f)
    = mkfield i (tag_of n f) (pref_of n f).
Proof.
  intros Hf Hn Hs. cbn [implements_field] in Hf.
  apply andb_true_iff in Hf. destruct Hf as [Hf Hm]. apply andb_true_iff in Hf. destruct Hf as [Hf Ht].
  apply andb_true_iff in Hf. destruct Hf as [He Hty]. apply is_type_eq in Hty.
  destruct (gf_tag g) as [tag|]; [|discriminate]. exists tag.
  assert (H63 : (n < 2^63)%N) by (eapply N.lt_trans; [exact Hn|reflexivity]).
  split; [exact He|]. split; [reflexivity|]. split; [exact (tag_is_parse _ _ _ _ _ _ (kind_fty_in f) H63 Ht)|].
  split; [|rewrite (tag_wiretag_of _ _ _ _ f eq_refl Hn); reflexivity].
  unfold pfield. rewrite Hty. cbn [t_wire t_zz].
  destruct f as [s|s|s|s| |m|e|k e]; cbn [scope_field] in Hs; try discriminate;
    try (destruct s; try discriminate; reflexivity); try reflexivity.
  - destruct e as [s|s|s|s| |m|e|k e]; cbn [scope_elem] in Hs; try discriminate; try reflexivity.
    destruct s; try discriminate; reflexivity.
  - apply andb_true_iff in Hs. destruct Hs as [Hk Hv]. apply andb_true_iff in Hm. destruct Hm as [Hmk Hmv].
    assert (P1 : (1 < 2^63)%N) by reflexivity. assert (P2 : (2 < 2^63)%N) by reflexivity.
    rewrite (tag_is_parse _ _ _ _ _ _ (kind_sty_in k) P1 Hmk).
    rewrite (tag_is_parse _ _ _ _ _ _ (kind_fty_in e) P2 Hmv).
    cbn [fst t_zz wire_fty go_type]. unfold static_choice, fixed_choice. cbn [t_wire N.eqb Pos.eqb wt_fixed32 wt_fixed64 option_choice t_zz zz_fty].
    rewrite (tag_wiretag_of (wire_sty k) 1 false (zz_sty k) (FAlways k) eq_refl ltac:(reflexivity)).
    rewrite (tag_wiretag_of (wire_fty e) 2 false (zz_fty e) e eq_refl ltac:(reflexivity)).
    rewrite (tag_wiretag_of 2 n (is_rep (FMap k e)) false (FMap k e) eq_refl Hn).
    assert (Ek : pcodec (TScalar (go_kind k)) (zz_sty k) true = Some (pref_of 1 (FAlways k))) by (destruct k; try discriminate; reflexivity).
    assert (Ev : pcodec (go_type e) (zz_fty e) true = Some (pref_of 2 e)).
    { destruct e as [s|s|s|s| |m|e|k' e]; cbn [scope_val] in Hv; try discriminate; try reflexivity. destruct s; try discriminate; reflexivity. }
    rewrite Ek, Ev. reflexivity.
Qed.

Lemma resolve_fields gs : forall fs i, implements_msg gs fs = true -> nums_ok fs = true -> scope_msg fs = true ->
  pfields i gs = Some (spec_fields i fs).
Proof.
  induction gs as [|g gs IH]; intros [|f fs] i; cbn [implements_msg pfields spec_fields]; try discriminate; [reflexivity|].
  intros Hi Hn Hs. apply andb_true_iff in Hi. destruct Hi as [Hf Hi].
  unfold scope_msg in Hs. cbn [forallb] in Hs. apply andb_true_iff in Hs. destruct Hs as [Hsf Hs].
  destruct f as [t|n f].
  - rewrite (IH fs (S i) Hi Hn Hs). cbn [implements_field] in Hf.
    destruct (gf_exported g), (gf_tag g); try (rewrite andb_false_r in Hf; discriminate); reflexivity.
  - unfold nums_ok in Hn. cbn [numbers forallb] in Hn. apply andb_true_iff in Hn. destruct Hn as [Hn Hns].
    apply andb_true_iff in Hn. destruct Hn as [_ Hn]. apply num_61 in Hn. destruct Hn as [_ Hn].
    rewrite (IH fs (S i) Hi Hns Hs).
    destruct (resolve_field g n f i Hf Hn Hsf) as (tag & -> & -> & -> & -> & ->). reflexivity.
Qed.

Lemma resolve_entry k e : scope_key k = true -> scope_val e = true ->
  pfields 0 (entry_fields (go_kind k) (go_type e) (tag_of 1 (FAlways k)) (tag_of 2 e)) =
  Some (spec_fields 0 [Field 1 (loose (FAlways k)); Field 2 (loose e)]).
Proof.
  intros Hk Hv. destruct k; try discriminate; destruct e as [s|s|s|s| |m|e|k' e]; cbn [scope_val] in Hv; try discriminate;
    try reflexivity; destruct s; try discriminate; reflexivity.
Qed.

(** ** Whole declarations *)
Section Decls.
Variables (D : decls) (sch : schema).
Hypothesis HI : implements D sch = true.

Lemma implements_nth m : match nth_error D m, nth_error sch m with
  | Some gs, Some fs => implements_msg gs fs = true
  | None, None => True
  | _, _ => False
  end.
Proof.
  revert sch HI m. induction D as [|gs D' IH]; intros [|fs sch'] H m; cbn [implements] in H; try discriminate.
  - destruct m; exact Logic.I.
  - apply andb_true_iff in H. destruct H as [H1 H2]. destruct m; [exact H1|]. apply (IH _ H2 m).
Qed.
Lemma implements_length : length D = length sch.
Proof.
  revert sch HI. induction D as [|gs D' IH]; intros [|fs sch'] H; cbn [implements] in H; try discriminate; [reflexivity|].
  apply andb_true_iff in H. destruct H as [_ H2]. cbn. rewrite (IH _ H2). reflexivity.
Qed.
Lemma msg_nth m fs : nth_error sch m = Some fs -> msg sch m = fs.
Proof. unfold msg. apply nth_error_nth. Qed.
Lemma implements_types gs : forall fs, implements_msg gs fs = true -> map gf_type gs = map fld_type fs.
Proof.
  induction gs as [|g gs IH]; intros [|f fs]; cbn [implements_msg]; try discriminate; [reflexivity|].
  intros H. apply andb_true_iff in H. destruct H as [H1 H2]. cbn [map]. rewrite (IH _ H2). f_equal.
  destruct f as [t|n f]; cbn [implements_field fld_type] in *.
  - apply andb_true_iff in H1. apply is_type_eq, H1.
  - rewrite !andb_true_iff in H1. apply is_type_eq, H1.
Qed.
Lemma field_types_of m : field_types D m = map fld_type (msg sch m).
Proof.
  unfold field_types, msg. pose proof (implements_nth m) as H.
  destruct (nth_error D m) as [gs|] eqn:E, (nth_error sch m) as [fs|] eqn:E2; try contradiction.
  - rewrite (nth_error_nth _ _ _ E2). apply implements_types. exact H.
  - rewrite nth_overflow; [reflexivity|]. apply nth_error_None. exact E2.
Qed.
Lemma zero_struct_of m : zero_struct D (SNamed m) = VStruct (zeros (msg sch m)).
Proof.
  cbn [zero_struct]. pose proof (field_types_of m) as H. unfold field_types, zeros in *.
  destruct (nth_error D m); [|cbn in H; symmetry in H; apply map_eq_nil in H; rewrite H; reflexivity].
  rewrite <- (map_map gf_type zero), H, map_map. reflexivity.
Qed.
Hypothesis HS : schema_ok sch = true.

Lemma schema_ok_msg m : nums_ok (msg sch m) = true /\ nodup_N (numbers (msg sch m)) = true /\
  (forall n f, In (Field n f) (msg sch m) -> msgs_exist (length sch) f = true).
Proof.
  unfold msg. destruct (nth_in_or_default m sch []) as [H|H]; [|rewrite H; cbn; intuition].
  unfold schema_ok in HS. rewrite forallb_forall in HS. specialize (HS _ H). rewrite !andb_true_iff in HS.
  destruct HS as [[A B] C]. split; [exact A|]. split; [exact B|]. intros n f Hin.
  rewrite forallb_forall in C. exact (C _ Hin).
Qed.
Lemma piget_tags m l : pinfo D (SNamed m) = Some l ->
  map (fun f => (f_idx f, f_meta f)) (i_fields l) = map (fun p => (fst p, meta_of (snd p))) (spec_tags 0 (msg sch m)).
Proof.
  unfold pinfo. cbn [struct_fields]. pose proof (implements_nth m) as H.
  destruct (nth_error D m) as [gs|] eqn:E, (nth_error sch m) as [fs|] eqn:E2; try contradiction.
  - destruct (pfields 0 gs) as [r|] eqn:Er; [|discriminate]. cbn. intros H1; inversion H1; cbn [i_fields].
    pose proof (schema_ok_msg m) as (A & _). rewrite (msg_nth _ _ E2) in *. eapply resolve_tags; eassumption.
  - cbn. intros H1; inversion H1. unfold msg. rewrite nth_overflow; [reflexivity|]. apply nth_error_None. exact E2.
Qed.
Hypothesis HC : in_scope sch = true.
Lemma scope_nth m : scope_msg (msg sch m) = true.
Proof.
  unfold msg. destruct (nth_in_or_default m sch []) as [H|H]; [|rewrite H; reflexivity].
  unfold in_scope in HC. rewrite forallb_forall in HC. exact (HC _ H).
Qed.
Lemma piget_spec m : piget D (SNamed m) = {| i_fields := spec_fields 0 (msg sch m); i_index := spec_fields 0 (msg sch m) |}.
Proof.
  unfold piget, pinfo. cbn [struct_fields]. pose proof (implements_nth m) as H.
  pose proof (schema_ok_msg m) as (A & _). pose proof (scope_nth m) as B.
  destruct (nth_error D m) as [gs|] eqn:E, (nth_error sch m) as [fs|] eqn:E2; try contradiction.
  - rewrite (msg_nth _ _ E2) in *. rewrite (resolve_fields gs fs 0 H A B). reflexivity.
  - unfold msg. rewrite nth_overflow; [reflexivity|]. apply nth_error_None. exact E2.
Qed.
Lemma piget_entry k e : scope_key k = true -> scope_val e = true ->
  piget D (SEntry (go_kind k) (go_type e) (tag_of 1 (FAlways k)) (tag_of 2 e)) =
  let fs := spec_fields 0 [Field 1 (loose (FAlways k)); Field 2 (loose e)] in {| i_fields := fs; i_index := fs |}.
Proof.
  intros Hk He. unfold piget, pinfo. cbn [struct_fields]. rewrite (resolve_entry k e Hk He). reflexivity.
Qed.
End Decls.
