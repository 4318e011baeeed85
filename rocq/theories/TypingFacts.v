(** Decoding into a value of the right type never crashes, never runs out of
    fuel, and leaves a value of the right type. *)
From Coq Require Import ZifyBool ZifyNat ZifyN String.
From Verif Require Import Base Wire GoType Leaf Codec Tag Walker Resolve Typing SpecWire WireFacts DecodeFacts GenFacts.
Local Open Scope Z_scope.
Ltac Zify.zify_post_hook ::= Z.div_mod_to_equations.

Lemma gotype_eqb_eq a b : gotype_eqb a b = true <-> a = b.
Proof. unfold gotype_eqb. destruct (gotype_eq_dec a b); split; congruence. Qed.
Lemma skind_eqb_eq a b : skind_eqb a b = true <-> a = b.
Proof. unfold skind_eqb. destruct (skind_eq_dec a b); split; congruence. Qed.
Lemma bytes_okb_ok b : bytes_okb b = true <-> bytes_ok b.
Proof.
  unfold bytes_okb, bytes_ok. rewrite forallb_forall, Forall_forall.
  split; intros H x Hx; specialize (H x Hx); lia.
Qed.
Lemma bytes_okb_firstn n b : bytes_okb b = true -> bytes_okb (firstn n b) = true.
Proof.
  rewrite !bytes_okb_ok. unfold bytes_ok. intros H. rewrite <- (firstn_skipn n b) in H.
  apply Forall_app in H. tauto.
Qed.
Lemma bytes_okb_skipn n b : bytes_okb b = true -> bytes_okb (skipn n b) = true.
Proof.
  rewrite !bytes_okb_ok. unfold bytes_ok. intros H. rewrite <- (firstn_skipn n b) in H.
  apply Forall_app in H. tauto.
Qed.
Lemma bytes_okb_app a b : bytes_okb (a ++ b) = (bytes_okb a && bytes_okb b)%bool.
Proof. apply forallb_app. Qed.

Ltac btrue :=
  repeat match goal with
  | H : (_ && _)%bool = true |- _ => apply andb_prop in H; destruct H
  | H : gotype_eqb _ _ = true |- _ => apply gotype_eqb_eq in H; subst
  | H : skind_eqb _ _ = true |- _ => apply skind_eqb_eq in H; subst
  | H : Nat.eqb _ _ = true |- _ => apply Nat.eqb_eq in H; subst
  | H : Nat.ltb _ _ = true |- _ => apply Nat.ltb_lt in H
  end.

(** ** Leaf codecs *)
Lemma lor_lt a b n : (a < 2^n)%N -> (b < 2^n)%N -> (N.lor a b < 2^n)%N.
Proof.
  intros Ha Hb. destruct (N.eq_dec (N.lor a b) 0) as [->|Hn]; [lia|].
  apply N.log2_lt_pow2; [lia|]. rewrite N.log2_lor.
  destruct (N.eq_dec a 0) as [->|Ha0], (N.eq_dec b 0) as [->|Hb0].
  - exfalso; apply Hn; reflexivity.
  - rewrite N.max_r by (cbn; lia). apply N.log2_lt_pow2; lia.
  - rewrite N.max_l by (cbn; lia). apply N.log2_lt_pow2; lia.
  - apply N.max_lub_lt; apply N.log2_lt_pow2; lia.
Qed.
Lemma shl64_lt c s : (shl64 c s < 2^64)%N.
Proof. unfold shl64, M64. apply N.mod_lt. discriminate. Qed.
Lemma loop_lt b : forall i s x, (x < 2^64)%N -> (fst (fst (decodeVarint_loop b i s x)) < 2^64)%N.
Proof.
  induction b as [|c b IH]; intros i s x Hx; [exact Hx|]. cbn [decodeVarint_loop].
  destruct (c <? 128)%N.
  - destruct (_ || _)%bool; [reflexivity|]. apply lor_lt; [exact Hx|apply shl64_lt].
  - apply IH. apply lor_lt; [exact Hx|apply shl64_lt].
Qed.
Lemma decodeVarint_lt b v n e : decodeVarint b = (v, n, e) -> (v < M64)%N.
Proof.
  unfold decodeVarint. intros H.
  assert (L : forall y, decodeVarint_loop y 0 0 0 = (v, n, e) -> (v < M64)%N).
  { intros y E. pose proof (loop_lt y 0 0 0%N eq_refl) as L. rewrite E in L. exact L. }
  destruct b as [|c b]; [apply L in H; exact H|].
  destruct (c <? 128)%N eqn:E; [|apply L in H; exact H].
  inversion H; subst. unfold M64. lia.
Qed.
Lemma decodeLE32_lt b v n e : bytes_okb b = true -> decodeLE32 b = (v, n, e) -> (v < 4294967296)%N.
Proof.
  rewrite bytes_okb_ok. unfold decodeLE32. intros Hb. destruct (zlen b <? 4) eqn:E; intros H; inversion H; [reflexivity|].
  unfold zlen in E. destruct b as [|b0 [|b1 [|b2 [|b3 r]]]]; cbn [length] in E; try lia. cbn [le32].
  repeat match goal with H : bytes_ok (_ :: _) |- _ => inversion H; clear H; subst | H : Forall _ (_ :: _) |- _ => inversion H; clear H; subst end.
  lia.
Qed.
Lemma decodeLE64_lt b v n e : bytes_okb b = true -> decodeLE64 b = (v, n, e) -> (v < M64)%N.
Proof.
  rewrite bytes_okb_ok. unfold decodeLE64. intros Hb. destruct (zlen b <? 8) eqn:E; intros H; inversion H; [reflexivity|].
  unfold zlen in E. destruct b as [|b0 [|b1 [|b2 [|b3 [|b4 [|b5 [|b6 [|b7 r]]]]]]]]; cbn [length] in E; try lia. cbn [le64 le32].
  repeat match goal with H : bytes_ok (_ :: _) |- _ => inversion H; clear H; subst | H : Forall _ (_ :: _) |- _ => inversion H; clear H; subst end.
  unfold M64. lia.
Qed.
Lemma decodeVarlen_ok b : small b -> bytes_okb b = true ->
  exists v n e, decodeVarlen b = OK (v, n, e) /\ bytes_okb (match v with Some d => d | None => [] end) = true.
Proof.
  intros Hs Hb. pose proof (decodeVarlen_spec b Hs) as S. destruct (read_varint b) as [l k r| |] eqn:E.
  - apply read_varint_skip in E as [-> _]. destruct (_ <? _)%N; rewrite S; do 3 eexists; (split; [reflexivity|]); [reflexivity|].
    apply bytes_okb_firstn, bytes_okb_skipn. assumption.
  - rewrite S. do 3 eexists. split; reflexivity.
  - rewrite S. do 3 eexists. split; reflexivity.
Qed.

Lemma in_i32_s32 z : in_i32 (s32 z) = true.
Proof. unfold in_i32. pose proof (s32_range z). lia. Qed.
Lemma in_i64_s64 z : in_i64 (s64 z) = true.
Proof. unfold in_i64. pose proof (s64_range z). lia. Qed.
Lemma in_i64_zz v : (v < M64)%N -> in_i64 (decodeZigZag64 v) = true.
Proof. intros H. unfold in_i64. rewrite decodeZigZag64_spec by exact H. pose proof (unzigzag_range v H). lia. Qed.
Lemma u32_ltb z : (u32 z <? 4294967296)%N = true.
Proof. unfold u32, Z32. lia. Qed.

Lemma static_dec_ok D s t b v : static_fits s t = true -> wt D v t = true -> bytes_okb b = true -> small b ->
  exists v' n e, l_decode (static s) b v = DRet v' n e /\ wt D v' t = true.
Proof.
  intros Hf Hv Hb Hs.
  assert (P : forall w m v, m <> Optional -> wt D v (TScalar (wk_kind w)) = true ->
    exists v' n e, l_decode (static (SC w m)) b v = DRet v' n e /\ wt D v' (TScalar (wk_kind w)) = true).
  { clear Hf Hv. intros w m u Hm Hv.
    destruct w, m; try contradiction; cbn [wk_kind] in Hv |- *;
    destruct u as [| | | | | | | |[]| | |[]|[[]|]| |]; try discriminate Hv;
    cbn [static l_decode boolCodec boolRequiredCodec
      stringCodec stringRequiredCodec float32Codec float32RequiredCodec float64Codec float64RequiredCodec
      int32Codec int32RequiredCodec int64Codec int64RequiredCodec uint32Codec uint32RequiredCodec
      uint64Codec uint64RequiredCodec fixed32Codec fixed32RequiredCodec fixed64Codec fixed64RequiredCodec
      zigzag32Codec zigzag32RequiredCodec zigzag64Codec zigzag64RequiredCodec];
    cbv [decodeBool decodeString decodeFloat32 decodeFloat64 decodeInt32 decodeInt64 decodeUint32
      decodeUint64 decodeFixed32 decodeFixed64 decodeZigzag32 decodeZigzag64 wret wr_bool wr_i32 wr_i64 wr_u32
      wr_u64 wr_f32 wr_f64 wr_str];
    try (match goal with |- context[decodeVarint b] => idtac end; destruct (decodeVarint b) as [[yy nn] ee] eqn:E; apply decodeVarint_lt in E);
    try (match goal with |- context[decodeLE32 b] => idtac end; destruct (decodeLE32 b) as [[yy nn] ee] eqn:E; apply decodeLE32_lt in E; [|assumption]);
    try (match goal with |- context[decodeLE64 b] => idtac end; destruct (decodeLE64 b) as [[yy nn] ee] eqn:E; apply decodeLE64_lt in E; [|assumption]);
    try (match goal with |- context[decodeVarlen b] => idtac end; destruct (decodeVarlen_ok b Hs Hb) as (yy & nn & ee & E & Hy); rewrite E; destruct (nn =? 0));
    try (do 3 eexists; split; [reflexivity|]; cbn [wt]; first
      [ apply in_i32_s32 | apply in_i64_s64 | apply in_i64_zz; assumption | apply u32_ltb
      | apply N.ltb_lt; assumption | exact Hy | reflexivity ]).
    all: destruct b; do 3 eexists; split; reflexivity. }
  destruct s as [w m|].
  - destruct m.
    + cbn in Hf. btrue. apply P; [discriminate|assumption].
    + cbn in Hf. btrue. apply P; [discriminate|assumption].
    + cbn in Hf. btrue. destruct v as [| | | | | | | |[]| | |[]|[[]|]| |]; try discriminate Hv. cbn [wt] in Hv.
      destruct (P w Required v) as (v' & n & e & E & W); [discriminate|assumption|].
      exists (VOpt true v'), n, e. split; [|exact W].
      assert (X : l_decode (static (SC w Optional)) b (VOpt some v) = decodeOption (l_decode (static (SC w Required))) b (VOpt some v))
        by (destruct w; reflexivity).
      rewrite X. cbn [decodeOption]. rewrite E. reflexivity.
  - cbn in Hf. btrue. destruct v as [| | | | | | | |o| | |[]|[[]|]| |]; try discriminate Hv.
    cbn [static bytesCodec l_decode]. unfold decodeBytes.
    destruct (decodeVarlen_ok b Hs Hb) as (y & n & e & E & Hy). rewrite E.
    do 3 eexists. split; [reflexivity|]. exact Hy.
Qed.

(** ** Lists and structs *)
Lemma all2_nth {A B} (f : A -> B -> bool) l m i y : all2 f l m = true -> nth_error m i = Some y ->
  exists x, nth_error l i = Some x /\ f x y = true.
Proof.
  revert m i. induction l as [|a l IH]; intros [|b m] i H; try discriminate; [destruct i; discriminate|].
  cbn in H. btrue. destruct i as [|i]; cbn; intros E; [inversion E; subst; eauto|]. eapply IH; eassumption.
Qed.
Lemma all2_set {A B} (f : A -> B -> bool) l m i x y : all2 f l m = true -> nth_error m i = Some y ->
  f x y = true -> all2 f (list_set l i x) m = true.
Proof.
  revert m i. induction l as [|a l IH]; intros [|b m] i H; try discriminate; [destruct i; discriminate|].
  cbn in H. btrue. destruct i as [|i]; cbn; intros E Hf.
  - inversion E; subst. rewrite Hf. assumption.
  - rewrite H. cbn. eapply IH; eassumption.
Qed.

Lemma zero_wt D t : wt D (zero t) t = true.
Proof. destruct t as [[]| |[]| | | | |]; reflexivity. Qed.
Lemma zero_k_wt D k : wt D (zero_k k) (TScalar k) = true.
Proof. destruct k; reflexivity. Qed.
Lemma all2_zero D l : all2 (wt D) (map (fun f => zero (gf_type f)) l) (map gf_type l) = true.
Proof. induction l as [|f l IH]; [reflexivity|]. cbn [map all2]. rewrite zero_wt, IH. reflexivity. Qed.

Definition key_ok (D : decls) (k : skey) : Prop :=
  match k with
  | SNamed sid => (sid < length D)%nat
  | SOpt _ => True
  | SEntry k v kt vt => entry_fits D k v kt vt = true /\ (type_depth v <= decls_depth D)%nat
  end.

Lemma zero_struct_wts D k : key_ok D k -> wts D (zero_struct D k) k = true.
Proof.
  destruct k as [sid|k v kt vt|k]; cbn [key_ok wts zero_struct].
  - intros H. apply nth_error_Some in H. destruct (nth_error D sid) as [fs|] eqn:E; [|contradiction].
    cbn [wt]. rewrite E. unfold field_types. rewrite E. apply all2_zero.
  - intros _. cbn [all2]. rewrite zero_wt, zero_k_wt. reflexivity.
  - intros _. apply (zero_wt D (TOption k)).
Qed.

Definition key_types (D : decls) (k : skey) : list gotype :=
  match k with
  | SNamed sid => field_types D sid
  | SEntry k v _ _ => [TScalar k; v]
  | SOpt _ => []
  end.

Lemma wts_struct D x k : (forall q, k <> SOpt q) -> wts D x k = true ->
  exists fs, x = VStruct fs /\ all2 (wt D) fs (key_types D k) = true.
Proof.
  intros Hk. destruct k as [sid|k v kt vt|k]; [| |exfalso; eapply Hk; reflexivity].
  - cbn. destruct x; try discriminate. destruct (nth_error D sid); [|discriminate]. eauto.
  - cbn [wts key_types]. destruct x; try discriminate. eauto.
Qed.
Lemma struct_wts D fs k : (forall q, k <> SOpt q) -> key_ok D k -> all2 (wt D) fs (key_types D k) = true ->
  wts D (VStruct fs) k = true.
Proof.
  intros Hk Hok. destruct k as [sid|k v kt vt|k]; [| |exfalso; eapply Hk; reflexivity].
  - cbn [key_ok] in Hok. apply nth_error_Some in Hok. cbn. destruct (nth_error D sid); [|contradiction]. auto.
  - cbn [wts key_types]. auto.
Qed.

(** ** Recursion depth of a codec *)
Fixpoint pdepth (p : pref) : nat :=
  match p with
  | PPtr _ q | PSlice _ q => S (pdepth q)
  | _ => 1
  end.
Lemma flat_pdepth D p : forall t, flat_fits D p t = true -> (pdepth p <= type_depth t)%nat.
Proof.
  induction p; intros t H; cbn [pdepth].
  - destruct t; cbn; lia.
  - destruct t; try discriminate. cbn [flat_fits] in H. btrue. cbn [type_depth]. apply IHp in H0. lia.
  - destruct t; discriminate.
  - destruct t; cbn; lia.
  - destruct t; discriminate.
Qed.
Lemma codec_pdepth D p t : codec_fits D p t = true -> (pdepth p <= type_depth t)%nat.
Proof.
  destruct p; intros H; try (apply (flat_pdepth D); destruct t; exact H).
  - destruct t; try discriminate. cbn [codec_fits pdepth type_depth] in *. btrue. apply flat_pdepth in H0. lia.
  - destruct t; cbn; lia.
Qed.

Lemma fields_depth_nth fs i f : nth_error fs i = Some f -> (type_depth (gf_type f) <= fields_depth fs)%nat.
Proof.
  revert i. induction fs as [|g fs IH]; intros [|i]; cbn; try discriminate.
  - intros H; inversion H; subst. lia.
  - intros H. apply IH in H. unfold fields_depth in *. lia.
Qed.
Lemma decls_depth_nth D i fs : nth_error D i = Some fs -> (fields_depth fs <= decls_depth D)%nat.
Proof.
  revert i. induction D as [|g D IH]; intros [|i]; cbn; try discriminate.
  - intros H; inversion H; subst. lia.
  - intros H. apply IH in H. unfold decls_depth in *. lia.
Qed.

(** ** The fields of a resolved struct *)
Lemma lookup_field_in {R} (info : sinfo R) n f : lookup_field info n = Some f ->
  In f (i_index info) /\ fieldNumber f = n.
Proof.
  unfold lookup_field. intros H. apply find_some in H. destruct H as [H1 H2].
  split; [apply in_rev; assumption|lia].
Qed.

Lemma pfields_idx fs : forall i l f, pfields i fs = Some l -> In f l -> (i <= f_idx f)%nat.
Proof.
  induction fs as [|g fs IH]; intros i l f; cbn [pfields]; [intros H; inversion H; intros []|].
  destruct (pfields (S i) fs) as [r|] eqn:E; [|discriminate].
  assert (P : In f r -> (i <= f_idx f)%nat) by (intros Hi; apply (IH _ _ _ E) in Hi; lia).
  destruct (gf_exported g), (gf_tag g); try (intros H; inversion H; subst; exact P).
  destruct (parseStructTag s) as [t [e|]]; [discriminate|].
  destruct (pfield t g); [|discriminate]. intros H; inversion H; subst. intros [<-|Hi]; [cbn; lia|auto].
Qed.

(** The two fields of an entry struct are at positions 0 and 1. *)
Lemma entry_pfields k v kt vt l : pfields 0 (entry_fields k v kt vt) = Some l ->
  exists fk fv, l = [fk; fv] /\ f_idx fk = 0%nat /\ f_idx fv = 1%nat.
Proof.
  unfold entry_fields. cbn [pfields gf_exported gf_tag].
  destruct (parseStructTag (formatWireTag vt)) as [t [e|]]; [discriminate|].
  destruct (pfield t _); [|discriminate].
  destruct (parseStructTag (formatWireTag kt)) as [t' [e'|]]; [discriminate|].
  destruct (pfield t' _); [|discriminate]. intros H; inversion H. do 2 eexists. repeat split.
Qed.

Lemma piget_field D k f : decls_fit D = true -> key_ok D k -> In f (i_index (piget D k)) ->
  exists t, nth_error (key_types D k) (f_idx f) = Some t /\ codec_fits D (f_codec f) t = true /\
            (type_depth t <= Nat.max 1 (decls_depth D))%nat.
Proof.
  intros HD Hk Hin. unfold piget, pinfo in Hin. destruct k as [sid|k v kt vt|k]; cbn [struct_fields key_types key_ok] in *.
  - unfold field_types. apply nth_error_Some in Hk. destruct (nth_error D sid) as [fs|] eqn:E; [|contradiction].
    assert (Hs : struct_fits D fs = true).
    { unfold decls_fit in HD. rewrite forallb_forall in HD. apply HD. eapply nth_error_In; eassumption. }
    unfold struct_fits in Hs. destruct (pfields 0 fs) as [l|]; [|discriminate]. cbn in Hin.
    rewrite forallb_forall in Hs. apply Hs in Hin. unfold field_fits in Hin.
    destruct (nth_error fs (f_idx f)) as [g|] eqn:Eg; [|discriminate].
    exists (gf_type g). split; [apply map_nth_error; assumption|]. split; [assumption|].
    apply fields_depth_nth in Eg. apply decls_depth_nth in E. lia.
  - destruct Hk as [Hk Hd]. unfold entry_fits in Hk.
    destruct (pfields 0 (entry_fields k v kt vt)) as [l|] eqn:E; [|discriminate].
    destruct (entry_pfields _ _ _ _ _ E) as (fk & fv & -> & I0 & I1). btrue. cbn in Hin.
    destruct Hin as [<-|[<-|[]]].
    + rewrite I0. exists (TScalar k). split; [reflexivity|]. split; [|cbn [type_depth]; lia].
      destruct (f_codec fk); try discriminate; assumption.
    + rewrite I1. exists v. split; [reflexivity|]. split; [|lia].
      destruct (f_codec fv), v; try discriminate; assumption.
  - cbn in Hin. contradiction.
Qed.

(** ** Map entries *)
Lemma bytes_eqb_eq a b : bytes_eqb a b = true <-> a = b.
Proof. unfold bytes_eqb. destruct (list_eq_dec N.eq_dec a b); split; congruence. Qed.
Lemma bytes_eqb_sym a b : bytes_eqb a b = bytes_eqb b a.
Proof.
  destruct (bytes_eqb a b) eqn:E; symmetry.
  - apply bytes_eqb_eq in E. apply bytes_eqb_eq. congruence.
  - destruct (bytes_eqb b a) eqn:E'; [|reflexivity]. apply bytes_eqb_eq in E'. subst.
    rewrite <- E. symmetry. apply bytes_eqb_eq. reflexivity.
Qed.
Lemma key_eqb_sym a b : key_eqb a b = key_eqb b a.
Proof.
  destruct a, b; try reflexivity; cbn [key_eqb].
  - destruct b0, b; reflexivity.
  - lia.
  - lia.
  - lia.
  - lia.
  - rewrite (N.eqb_sym bits0 bits), (andb_comm (N.land bits0 _ =? 0)%N), (andb_comm (negb (f32_nan bits0))). reflexivity.
  - rewrite (N.eqb_sym bits0 bits), (andb_comm (N.land bits0 _ =? 0)%N), (andb_comm (negb (f64_nan bits0))). reflexivity.
  - apply bytes_eqb_sym.
Qed.
Lemma key_eqb_trans a b c : key_eqb a b = true -> key_eqb b c = true -> key_eqb a c = true.
Proof.
  destruct a, b; try discriminate; destruct c; try discriminate; cbn [key_eqb].
  - destruct b0, b, b1; cbn; congruence.
  - lia.
  - lia.
  - lia.
  - lia.
  - intros H1 H2. apply andb_prop in H1 as [H1 E1]. apply andb_prop in H1 as [N1 N2].
    apply andb_prop in H2 as [H2 E2]. apply andb_prop in H2 as [_ N3]. rewrite N1, N3. cbn [andb].
    apply orb_prop in E1, E2. apply orb_true_iff. destruct E1 as [E1|E1], E2 as [E2|E2].
    + apply N.eqb_eq in E1; subst. left; assumption.
    + apply N.eqb_eq in E1; subst. right; assumption.
    + apply N.eqb_eq in E2; subst. right; assumption.
    + btrue. right. apply andb_true_intro; auto.
  - intros H1 H2. apply andb_prop in H1 as [H1 E1]. apply andb_prop in H1 as [N1 N2].
    apply andb_prop in H2 as [H2 E2]. apply andb_prop in H2 as [_ N3]. rewrite N1, N3. cbn [andb].
    apply orb_prop in E1, E2. apply orb_true_iff. destruct E1 as [E1|E1], E2 as [E2|E2].
    + apply N.eqb_eq in E1; subst. left; assumption.
    + apply N.eqb_eq in E1; subst. right; assumption.
    + apply N.eqb_eq in E2; subst. right; assumption.
    + btrue. right. apply andb_true_intro; auto.
  - intros H1 H2. apply bytes_eqb_eq in H1, H2. apply bytes_eqb_eq. congruence.
Qed.

Lemma map_assign_in l k v kv : In kv (map_assign l k v) -> In kv l \/ kv = (k, v).
Proof.
  induction l as [|[k' v'] l IH]; cbn; [intros [<-|[]]; auto|].
  destruct (key_eqb k' k); cbn; intros [<-|H]; auto. apply IH in H. tauto.
Qed.
Lemma map_assign_distinct l k v : keys_distinct l = true -> keys_distinct (map_assign l k v) = true.
Proof.
  induction l as [|[k' v'] l IH]; [reflexivity|]. cbn [map_assign keys_distinct]. intros H. btrue.
  destruct (key_eqb k' k) eqn:E.
  - cbn [keys_distinct]. rewrite H0, andb_true_r. rewrite forallb_forall in *. intros kv Hi.
    apply H in Hi. destruct (key_eqb k (fst kv)) eqn:E2; [|reflexivity].
    rewrite (key_eqb_trans _ _ _ E E2) in Hi. exact Hi.
  - cbn [keys_distinct]. rewrite (IH H0), andb_true_r. rewrite forallb_forall in *. intros kv Hi.
    apply map_assign_in in Hi. destruct Hi as [Hi| ->]; [auto|]. cbn. rewrite E. reflexivity.
Qed.
Lemma map_assign_wt D l k v kt vt :
  wt D (VMap (Some l)) (TMap kt vt) = true -> wt D k (TScalar kt) = true -> wt D v vt = true ->
  wt D (VMap (Some (map_assign l k v))) (TMap kt vt) = true.
Proof.
  cbn [wt]. intros H Hk Hv. btrue. rewrite map_assign_distinct, andb_true_r by assumption.
  rewrite forallb_forall in *. intros kv Hi. apply map_assign_in in Hi. destruct Hi as [Hi| ->]; [auto|].
  rewrite Hk, Hv. reflexivity.
Qed.

Lemma grow_spare_wt D e n : forallb (fun x => wt D x e) (grow_spare e n) = true.
Proof.
  unfold grow_spare. generalize (match (2 * n)%nat with O => 10%nat | c => c end - n)%nat. intros m.
  induction m; [reflexivity|]. cbn [repeat forallb]. rewrite zero_wt, IHm. reflexivity.
Qed.
Lemma grow_spare_nonempty e n : grow_spare e n <> [].
Proof.
  unfold grow_spare. destruct n as [|n]; [discriminate|].
  destruct (2 * S n)%nat as [|m] eqn:E; [lia|]. replace (S m - S n)%nat with (S n) by lia. discriminate.
Qed.

(** ** The main invariant *)
Section Dec.
Variable D : decls.
Hypothesis HD : decls_fit D = true.
Notation dec := (dec plook (piget D) D).
Notation ldecs := (ldecs plook (piget D) D).
Notation K := (decls_depth D + 4)%nat.

Definition pref_ok (p : pref) : Prop :=
  match p with
  | PMap _ _ _ _ val _ _ => (type_depth val <= decls_depth D)%nat
  | _ => True
  end.

Lemma dec_ok fuel :
  (forall p t b v, codec_fits D p t = true -> (type_depth t <= Nat.max 1 (decls_depth D))%nat ->
     wt D v t = true -> bytes_okb b = true -> small b ->
     match dec fuel p b v with
     | DRet v' _ _ => wt D v' t = true
     | DCrash _ => False
     | DFuel => (fuel < S (pdepth p) + length b * K)%nat
     end) /\
  (forall k b x, key_ok D k -> wts D x k = true -> bytes_okb b = true -> small b ->
     match ldecs fuel k b x with
     | LOk x' => wts D x' k = true
     | LErr x' _ => wts D x' k = true
     | LCrash _ => False
     | LFuel => (fuel < 1 + length b * K)%nat
     end).
Proof.
  induction fuel as [|fuel [IH1 IH2]]; [split; intros; cbn; lia|]. split.
  - intros p t b v Hf Hd Hv Hb Hs. destruct (plook p) eqn:El; destruct p; try discriminate El.
    + rewrite dec_S. cbn [plook].
      assert (Hf' : static_fits s0 t = true) by (destruct t; exact Hf).
      destruct (static_dec_ok D s0 t b v Hf' Hv Hb Hs) as (v' & n & e & -> & W). exact W.
    + rewrite dec_S. cbn [plook]. destruct t; try discriminate. cbn [codec_fits flat_fits] in Hf. btrue.
      assert (Hf' : codec_fits D p t = true) by (destruct p, t; try discriminate; assumption).
      assert (Hx : exists o, v = VPtr o /\ wt D (match o with Some x => x | None => zero t end) t = true).
      { destruct v as [| | | | | | | |[]| | |[]|[x|]| |]; try discriminate Hv.
        - exists (Some x). split; [reflexivity|]. destruct x; exact Hv.
        - exists None. split; [reflexivity|apply zero_wt]. }
      destruct Hx as (o & -> & Hx). cbv zeta. cbn [type_depth] in Hd.
      specialize (IH1 p t b _ Hf' ltac:(lia) Hx Hb Hs).
      destruct (dec fuel p b _) as [v' n e|c1|]; cbn [dmap].
      * destruct v'; exact IH1.
      * exact IH1.
      * cbn [pdepth]. lia.
    + rewrite dec_S. cbn [plook]. destruct t; try discriminate. cbn [codec_fits] in Hf. btrue.
      assert (Hf' : codec_fits D p t = true) by (destruct p, t; try discriminate; assumption).
      destruct v as [| | | | | | | |[]| |nn items spare|[]|[[]|]| |]; try discriminate Hv. cbn [wt] in Hv. btrue. cbv zeta.
      set (sp := match spare with [] => _ | _ => _ end).
      assert (Hsp : forallb (fun x => wt D x t) sp = true) by (unfold sp; destruct spare; [apply grow_spare_wt|assumption]).
      assert (Hne : sp <> []) by (unfold sp; destruct spare; [apply grow_spare_nonempty|discriminate]).
      assert (Hnn : (nn || match spare with [] => true | _ => false end)%bool = true).
      { destruct nn; [reflexivity|]. destruct items, spare; try discriminate; reflexivity. }
      rewrite Hnn. clearbody sp.
      destruct sp as [|slot sp]; [contradiction|]. cbn [forallb] in Hsp. btrue.
      cbn [type_depth] in Hd.
      specialize (IH1 p t b slot Hf' ltac:(lia) H3 Hb Hs).
      destruct (dec fuel p b slot) as [v' n [e|]|c1|]; try exact IH1.
      * cbn [wt]. cbn [forallb]. rewrite H2, IH1, H4. reflexivity.
      * cbn [wt]. rewrite forallb_app. cbn [forallb]. rewrite H2, IH1, H4. reflexivity.
      * cbn [pdepth]. lia.
    + cbn [plook] in El. inversion El; subst k i.
      assert (Hk : key_ok D k0 /\ exists o, v = VPtr o /\
        wts D (match o with Some x => x | None => zero_struct D k0 end) k0 = true /\
        (forall y, wts D y k0 = true -> wt D (VPtr (Some y)) t = true)).
      { destruct k0 as [sid| |k]; destruct t as [| | | | |[]| |]; try discriminate; cbn [codec_fits flat_fits] in Hf; btrue.
        - split; [assumption|]. destruct v as [| | | | | | | |[]| | |[]|[x|]| |]; try discriminate Hv.
          + exists (Some x). repeat split; auto.
          + exists None. repeat split; auto. apply zero_struct_wts. assumption.
        - split; [exact Logic.I|]. destruct v as [| | | | | | | |[]| | |[]|[x|]| |]; try discriminate Hv.
          + exists (Some x). cbn [wts]. repeat split; [destruct x; exact Hv|].
            intros y Hy. destruct y; exact Hy.
          + exists None. repeat split; [apply (zero_struct_wts D (SOpt _)); exact Logic.I|].
            intros y Hy. destruct y; exact Hy. }
      destruct Hk as (Hk & o & -> & Hx & Hw).
      destruct (dec_struct plook (piget D) D fuel (PStruct k0) k0 k0 b o Hs eq_refl) as [n E].
      rewrite E. cbv zeta.
      destruct (read_varint b) as [l k r| |] eqn:Er; [|apply Hw; assumption..].
      apply read_varint_skip in Er as [-> Elen].
      specialize (IH2 k0 (skipn k b) _ Hk Hx (bytes_okb_skipn _ _ Hb) (small_skipn _ _ Hs)).
      destruct (ldecs fuel k0 (skipn k b) _); try (apply Hw; assumption); try exact IH2.
      cbn [pdepth]. rewrite skipn_length in IH2.
      assert ((length b - k) * K <= length b * K)%nat by (apply Nat.mul_le_mono_r; lia). lia.
    + cbn [plook] in El. inversion El; subst.
      destruct t; try discriminate. cbn [codec_fits] in Hf. btrue.
      destruct v as [| | | | | | | |[]| | |m|[[]|]| |]; try discriminate Hv.
      cbn [type_depth] in Hd.
      assert (Hk : key_ok D (SEntry k t ktag vtag)) by (split; [assumption|lia]).
      match goal with |- context[dec (S fuel) ?c b _] =>
        destruct (dec_map plook (piget D) D fuel c _ _ _ _ _ b m Hs eq_refl) as [n E] end.
      rewrite E. cbv zeta.
      assert (Hm : wt D (VMap (Some (match m with Some l => l | None => [] end))) (TMap k t) = true)
        by (destruct m; [exact Hv|reflexivity]).
      destruct b as [|c0 b0] eqn:Eb; [exact Hm|]. rewrite <- Eb in *. clear Eb.
      destruct (read_varint b) as [l k0 r| |] eqn:Er; [|exact Hm..].
      apply read_varint_skip in Er as [-> Elen].
      specialize (IH2 (SEntry k t ktag vtag) (skipn k0 b) _ Hk (zero_struct_wts _ _ Hk) (bytes_okb_skipn _ _ Hb) (small_skipn _ _ Hs)).
      destruct (ldecs fuel _ (skipn k0 b) _) as [x'|x' e|c1|]; [|exact Hm|exact IH2|].
      * apply wts_struct in IH2; [|discriminate]. destruct IH2 as (fs & -> & W). cbn [key_types] in W.
        destruct fs as [|a [|x [|]]]; cbn in W; rewrite ?andb_false_r in W; try discriminate. btrue.
        apply map_assign_wt; assumption.
      * cbn [pdepth]. rewrite skipn_length in IH2.
        assert ((length b - k0) * K <= length b * K)%nat by (apply Nat.mul_le_mono_r; lia). lia.
  - intros k b x Hk Hx Hb Hs. cbn [DecodeFacts.ldecs]. destruct b as [|c0 b0] eqn:Eb; [assumption|].
    rewrite <- Eb in *. assert (Hlen : (1 <= length b)%nat) by (rewrite Eb; cbn; lia). clear Eb.
    pose proof (lstep_consumes (piget D k) b) as LC.
    assert (Hstep : match lstep (piget D k) b with
                    | LsErr _ => True
                    | LsSkip r => bytes_okb r = true
                    | LsDec _ _ f data r => In f (i_index (piget D k)) /\ bytes_okb data = true /\ bytes_okb r = true
                    end).
    { unfold lstep. destruct (read_varint b) as [v n r| |] eqn:Er; [|exact Logic.I..].
      apply read_varint_skip in Er as [-> _]. apply (bytes_okb_skipn n) in Hb.
      destruct (lookup_field (piget D k) (v / 8)) as [f|] eqn:Ef.
      - destruct (negb _); [exact Logic.I|]. destruct (payload_len _ _); [|exact Logic.I].
        apply lookup_field_in in Ef. split; [tauto|]. split; [apply bytes_okb_firstn|]; assumption.
      - destruct (payload_len _ _); [|exact Logic.I]. apply bytes_okb_skipn. assumption. }
    destruct (lstep (piget D k) b) as [e|r|fn w f data r] eqn:El; [assumption| |].
    + assert (Hsr : small r) by (eapply small_le; [|eassumption]; lia).
      specialize (IH2 k r x Hk Hx Hstep Hsr). destruct (ldecs fuel k r x); try exact IH2.
      assert (length r * K + K <= length b * K)%nat by (replace (length r * K + K)%nat with (S (length r) * K)%nat by (cbn; lia); apply Nat.mul_le_mono_r; lia).
      lia.
    + destruct Hstep as (Hin & Hbd & Hbr).
      assert (Hsr : small r) by (eapply small_le; [|eassumption]; lia).
      assert (Hsd : small data) by (eapply small_le; [|eassumption]; lia).
      destruct (piget_field D k f HD Hk Hin) as (t & Et & Hf & Hdt).
      assert (Hnk : forall q, k <> SOpt q) by (intros q ->; destruct (f_idx f); discriminate Et).
      destruct (wts_struct D x k Hnk Hx) as (fs & -> & W).
      destruct (all2_nth _ _ _ _ _ W Et) as (y & Ey & Wy). cbn [get_field]. rewrite Ey.
      specialize (IH1 (f_codec f) t data y Hf Hdt Wy Hbd Hsd).
      destruct (dec fuel (f_codec f) data y) as [y' n' [e|]|c1|] eqn:Ed.
      * apply struct_wts; try assumption. eapply all2_set; eassumption.
      * apply dec_consumes in Ed as Hn; [|assumption].
        assert (Hx' : wts D (set_field (VStruct fs) (f_idx f) y') k = true).
        { apply struct_wts; try assumption. eapply all2_set; eassumption. }
        specialize (IH2 k (skipn (Z.to_nat n') r) _ Hk Hx' (bytes_okb_skipn _ _ Hbr) (small_skipn _ _ Hsr)).
        destruct (ldecs fuel k _ _); try exact IH2. rewrite skipn_length in IH2.
        assert (length r * K + K <= length b * K)%nat by (replace (length r * K + K)%nat with (S (length r) * K)%nat by (cbn; lia); apply Nat.mul_le_mono_r; lia).
        assert ((length r - Z.to_nat n') * K <= length r * K)%nat by (apply Nat.mul_le_mono_r; lia). lia.
      * exact IH1.
      * apply codec_pdepth in Hf.
        assert (length r * K + K <= length b * K)%nat by (replace (length r * K + K)%nat with (S (length r) * K)%nat by (cbn; lia); apply Nat.mul_le_mono_r; lia).
        assert (length data * K <= length r * K)%nat by (apply Nat.mul_le_mono_r; lia). lia.
Qed.

Lemma ldecs_total k b x f : key_ok D k -> wts D x k = true -> bytes_okb b = true -> small b ->
  (1 + length b * K <= f)%nat ->
  (exists x', ldecs f k b x = LOk x' /\ wts D x' k = true) \/
  (exists x' e, ldecs f k b x = LErr x' e /\ wts D x' k = true).
Proof.
  intros Hk Hx Hb Hs Hf. pose proof (proj2 (dec_ok f) k b x Hk Hx Hb Hs) as H.
  destruct (ldecs f k b x); [left|right|contradiction|exfalso; lia]; eauto.
Qed.

Lemma decs_total k b x f : key_ok D k -> wts D x k = true -> bytes_okb b = true -> small b ->
  (1 + length b * K <= f)%nat ->
  exists x' n e, decs plook (piget D) D f k b 0 x = DRet x' n e /\ wts D x' k = true /\
  (e = None -> n = zlen b).
Proof.
  intros Hk Hx Hb Hs Hf. pose proof (ldecs_total k b x f Hk Hx Hb Hs Hf) as H.
  pose proof (decs_ldecs plook (piget D) D f k b x Hs) as A.
  destruct (decs plook (piget D) D f k b 0 x) as [x' n e|c|] eqn:E.
  - exists x', n, e. split; [reflexivity|]. split.
    + destruct H as [(y & E' & W)|(y & e' & E' & W)]; rewrite E' in A; destruct e; inversion A; subst; assumption.
    + intros ->. eapply decs_consumes; eassumption.
  - exfalso. destruct H as [(y & E' & W)|(y & e' & E' & W)]; rewrite E' in A; discriminate.
  - exfalso. destruct H as [(y & E' & W)|(y & e' & E' & W)]; rewrite E' in A; discriminate.
Qed.
End Dec.
