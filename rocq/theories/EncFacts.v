(** Facts about size and encode on well-typed values: they do not crash,
    encoding appends, and the computed size is the number of bytes appended
    (with the condition map.go:80 makes necessary). *)
From Coq Require Import ZifyBool ZifyNat ZifyN String.
From Verif Require Import Base Wire GoType Leaf Codec Tag Walker Resolve Typing SpecWire WireFacts DecodeFacts
  TypingFacts CodecSim.
Local Open Scope Z_scope.

(** [r] appends a fixed string of bytes, and [n] is its length. *)
Definition sized (r : bytes -> res bytes) (n : res Z) : Prop :=
  exists t, n = OK (zlen t) /\ forall b, r b = OK (b ++ t).

Definition meta_ok (f : fmeta) : Prop := (wiretag f < 2^64)%N /\ tagsize f = sizeOfVarint (wiretag f).

Lemma meta_of_ok n : (n < 2^64)%N -> meta_ok (meta_of n).
Proof. split; [assumption|reflexivity]. Qed.

(** ** Values of composite types *)
Ltac wtd v := destruct v as [| | | | | | | |[]| | |[]|[[]|]| |]; try discriminate.
Lemma wt_ptr D v e : wt D v (TPtr e) = true -> exists o, v = VPtr o /\ match o with Some x => wt D x e = true | None => True end.
Proof. intros H. wtd v; eexists; (split; [reflexivity|]); try exact Logic.I; exact H. Qed.
Lemma wt_slice D v e : wt D v (TSlice e) = true -> exists nn items spare, v = VSlice nn items spare /\
  forallb (fun x => wt D x e) items = true /\ forallb (fun x => wt D x e) spare = true.
Proof. intros H. wtd v. cbn [wt] in H. btrue. do 3 eexists. split; [reflexivity|]. auto. Qed.
Lemma wt_map D v k e : wt D v (TMap k e) = true -> exists m, v = VMap m /\
  match m with Some l => forallb (fun kv => match kv with (a, x) => wt D a (TScalar k) && wt D x e end) l = true /\ keys_distinct l = true | None => True end.
Proof.
  intros H. wtd v; eexists; (split; [reflexivity|]); try exact Logic.I. cbn [wt] in H. btrue. auto.
Qed.
Lemma wt_msg D v sid : wt D v (TMsg sid) = true -> exists o, v = VPtr o /\
  match o with Some x => wts D x (SNamed sid) = true | None => True end.
Proof. intros H. wtd v; eexists; (split; [reflexivity|]); try exact Logic.I; exact H. Qed.

(** ** Leaf codecs *)
Lemma sized_nil : sized (fun b => OK b) (OK 0).
Proof. exists []. split; [reflexivity|]. intros b. rewrite app_nil_r. reflexivity. Qed.

Lemma sized_tag f n (t : bytes) r : meta_ok f -> n = zlen t + tagsize f ->
  (forall b, r b = OK (appendVarint b (wiretag f) ++ t)) -> sized r (OK n).
Proof.
  intros [H1 H2] -> Hr. exists (vint (wiretag f) ++ t). split.
  - rewrite zlen_app, H2, (sizeOfVarint_spec _ H1). f_equal. lia.
  - intros b. rewrite Hr, (appendVarint_spec _ _ H1), app_assoc. reflexivity.
Qed.
Lemma sized_varint f v : meta_ok f -> (v < 2^64)%N ->
  sized (fun b => OK (appendVarint (appendVarint b (wiretag f)) v)) (OK (sizeOfVarint v + tagsize f)).
Proof.
  intros H Hv. apply (sized_tag f _ (vint v)); [assumption|rewrite (sizeOfVarint_spec _ Hv); reflexivity|].
  intros b. rewrite (appendVarint_spec _ v Hv). reflexivity.
Qed.
Lemma sized_varlen f d : meta_ok f ->
  sized (fun b => OK (appendVarint (appendVarint b (wiretag f)) (u64 (zlen d)) ++ d)) (OK (sizeOfVarlen (zlen d) + tagsize f)).
Proof.
  intros H. pose proof (u64_lt (zlen d)) as L. apply (sized_tag f _ (vint (u64 (zlen d)) ++ d)); [assumption| |].
  - unfold sizeOfVarlen. rewrite (sizeOfVarint_spec _ L), zlen_app. reflexivity.
  - intros b. rewrite (appendVarint_spec _ (u64 _) L), app_assoc. reflexivity.
Qed.
Lemma sized_le32 f v : meta_ok f ->
  sized (fun b => OK (encodeLE32 (appendVarint b (wiretag f)) v)) (OK (4 + tagsize f)).
Proof.
  intros H. apply (sized_tag f _ (le_bytes 4 v)); [assumption|unfold zlen; rewrite le_bytes_length; reflexivity|].
  intros b. rewrite encodeLE32_spec. reflexivity.
Qed.
Lemma sized_le64 f v : meta_ok f ->
  sized (fun b => OK (encodeLE64 (appendVarint b (wiretag f)) v)) (OK (8 + tagsize f)).
Proof.
  intros H. apply (sized_tag f _ (le_bytes 8 v)); [assumption|unfold zlen; rewrite le_bytes_length; reflexivity|].
  intros b. rewrite encodeLE64_spec. reflexivity.
Qed.
Lemma sized_byte f x : meta_ok f -> sized (fun b => OK (appendVarint b (wiretag f) ++ [x])) (OK (1 + tagsize f)).
Proof. intros H. apply (sized_tag f _ [x]); [assumption|reflexivity|]. reflexivity. Qed.

Lemma zigzag_lt z : (encodeZigZag64 z < 2^64)%N.
Proof.
  unfold encodeZigZag64.
  assert (L : forall a b n, (a < 2^n)%N -> (b < 2^n)%N -> (N.lxor a b < 2^n)%N).
  { intros a b n Ha Hb. destruct (N.eq_dec (N.lxor a b) 0) as [->|E]; [lia|].
    apply N.log2_lt_pow2; [lia|]. pose proof (N.log2_lxor a b).
    destruct (N.eq_dec a 0) as [->|Ea]; [rewrite N.lxor_0_l in *; apply N.log2_lt_pow2; lia|].
    destruct (N.eq_dec b 0) as [->|Eb]; [rewrite N.lxor_0_r in *; apply N.log2_lt_pow2; lia|].
    assert (N.log2 a < n)%N by (apply N.log2_lt_pow2; lia).
    assert (N.log2 b < n)%N by (apply N.log2_lt_pow2; lia). lia. }
  apply L; [apply shl64_lt|apply u64_lt].
Qed.

Lemma wt_u64 D n : wt D (VU64 n) (TScalar KUint64) = true -> (n < 2^64)%N.
Proof. cbn [wt]. intros H. apply N.ltb_lt in H. change (2^64)%N with M64. exact H. Qed.
Lemma wt_u32 D n : wt D (VU32 n) (TScalar KUint32) = true -> (n < 2^64)%N.
Proof. cbn [wt]. intros H. apply N.ltb_lt in H. lia. Qed.

Lemma static_sized D s t v f : static_fits s t = true -> wt D v t = true -> meta_ok f ->
  sized (fun b => l_encode (static s) b v f) (l_size (static s) v f).
Proof.
  intros Hs Hw Hf.
  destruct s as [w [| |]|]; cbn [static_fits] in Hs; btrue; [destruct w; cbn [wk_kind] in Hw; destruct v; try discriminate Hw..|destruct v; try discriminate Hw];
  try (destruct v; try discriminate Hw);
  try (destruct o as [[]|]; discriminate Hw); try (destruct m as [[]|]; discriminate Hw);
  cbn [static l_size l_encode boolCodec stringCodec float32Codec float64Codec int32Codec int64Codec uint32Codec uint64Codec fixed32Codec fixed64Codec zigzag32Codec zigzag64Codec
       boolRequiredCodec stringRequiredCodec float32RequiredCodec float64RequiredCodec int32RequiredCodec int64RequiredCodec uint32RequiredCodec uint64RequiredCodec fixed32RequiredCodec fixed64RequiredCodec zigzag32RequiredCodec zigzag64RequiredCodec
       boolOptionCodec stringOptionCodec float32OptionCodec float64OptionCodec int32OptionCodec int64OptionCodec uint32OptionCodec uint64OptionCodec fixed32OptionCodec fixed64OptionCodec zigzag32OptionCodec zigzag64OptionCodec
       bytesCodec optionCodec];
  unfold sizeOption, encodeOption, sizeOfBool, encodeBool, sizeOfBytes, encodeBytes, sizeOfString, encodeString, sizeOfFloat32, encodeFloat32,
    sizeOfFloat64, encodeFloat64, sizeOfInt32, encodeInt32, sizeOfInt64, encodeInt64, sizeOfUint32, encodeUint32, sizeOfUint64, encodeUint64,
    sizeOfFixed32, encodeFixed32, sizeOfFixed64, encodeFixed64, sizeOfZigzag32, encodeZigzag32, sizeOfZigzag64, encodeZigzag64,
    sizeOfBoolRequired, encodeBoolRequired, sizeOfStringRequired, encodeStringRequired, sizeOfFloat32Required, encodeFloat32Required,
    sizeOfFloat64Required, encodeFloat64Required, sizeOfInt32Required, encodeInt32Required, sizeOfInt64Required, encodeInt64Required,
    sizeOfUint32Required, encodeUint32Required, sizeOfUint64Required, encodeUint64Required, sizeOfFixed32Required, encodeFixed32Required,
    sizeOfFixed64Required, encodeFixed64Required, sizeOfZigzag32Required, encodeZigzag32Required, sizeOfZigzag64Required, encodeZigzag64Required;
  cbn [rd_opt rd_bool rd_i32 rd_i64 rd_u32 rd_u64 rd_f32 rd_f64 rd_str rd_bytes mem32 mem64 of_opt rbind fst snd];
  repeat match goal with
  | |- sized (fun b => if ?x then _ else _) _ => destruct x; cbn [negb]
  | |- sized (fun b => match ?x with [] => _ | _ => _ end) _ => destruct x eqn:?
  | |- sized (fun b => match ?x with Some _ => _ | None => _ end) _ => destruct x
  | |- sized (fun b => OK (if ?x then _ else _)) _ => destruct x
  end;
  first [ exact sized_nil | apply sized_le32; exact Hf | apply sized_le64; exact Hf | apply sized_varlen; exact Hf | apply sized_byte; exact Hf
        | apply sized_varint; [exact Hf|]; first [apply u64_lt | apply zigzag_lt | apply (wt_u64 D); exact Hw | apply (wt_u32 D); exact Hw] ].
Qed.

(** ** Combinators *)
Lemma sized_chain l : Forall (fun rn => sized (fst rn) (snd rn)) l ->
  sized (fun b => chain_res b (map fst l)) (sum_res (map snd l)).
Proof.
  induction 1 as [|[r n] l (t & Hn & Hr) _ (t' & Hn' & Hr')]; [exact sized_nil|]. cbn [fst snd map chain_res sum_res] in *.
  exists (t ++ t'). rewrite Hn. cbn [rbind]. rewrite Hn'. cbn [rbind]. split; [rewrite zlen_app; reflexivity|].
  intros b. rewrite Hr. cbn [rbind]. rewrite Hr', app_assoc. reflexivity.
Qed.

Lemma struct_ptr D v k t : codec_fits D (PStruct k) t = true -> wt D v t = true -> exists o, v = VPtr o.
Proof.
  intros Hc Hw. destruct k as [sid| |q]; destruct t; try discriminate.
  - destruct (wt_msg _ _ _ Hw) as (o & -> & _). eauto.
  - destruct (wt_ptr _ _ _ Hw) as (o & -> & _). eauto.
Qed.

Section Sized.
Variable D : decls.
Hypothesis HD : decls_fit D = true.
Notation sz := (sz plook (piget D)).
Notation enc := (enc plook (piget D)).

(** The two calls of [size] of map.go:79-80 and :46 give the same number for
    the value of every map entry in [v]. *)
Definition res_eqb (a b : res Z) : bool := match a, b with OK x, OK y => x =? y | _, _ => false end.
Fixpoint agree (v : val) (p : pref) {struct v} : bool :=
  match p with
  | PStatic _ => true
  | PPtr _ q => match v with VPtr (Some x) => agree x q | _ => true end
  | PSlice _ q => match v with VSlice _ items _ => forallb (fun x => agree x q) items | _ => true end
  | PStruct k =>
    match v with
    | VPtr (Some (VStruct fs)) =>
      let subs := map (fun y => agree y) fs in
      forallb (fun f => match nth_error subs (f_idx f) with Some g => g (f_codec f) | None => true end)
        (i_fields (piget D k))
    | _ => true
    end
  | PMap _ _ vt _ _ kp vp =>
    match v with
    | VMap (Some l) =>
      forallb (fun kv => match kv with (_, x) =>
        res_eqb (sz x kp (meta_of vt)) (sz x vp (meta_of vt)) && agree x vp end) l
    | _ => true
    end
  end.
(** The same for a struct. *)
Definition agrees (x : val) (k : skey) : bool := agree (VPtr (Some x)) (PStruct k).

Lemma fields_sized (fs : list (sfield pref)) s e :
  (forall f, In f fs -> meta_ok (f_meta f) /\ exists g h, s (f_idx f) = Some g /\ e (f_idx f) = Some h /\
      sized (fun b => h b (f_codec f) (f_meta f)) (g (f_codec f) (f_meta f))) ->
  sized (fun b => fields_encode e b fs) (fields_size s fs).
Proof.
  induction fs as [|f fs IH]; intros H; [exact sized_nil|]. cbn [fields_encode fields_size].
  destruct (H f (or_introl eq_refl)) as (_ & g & h & -> & -> & t & -> & Hr). cbn [rbind].
  destruct IH as (t' & -> & Hr'); [intros; apply H; right; assumption|]. cbn [rbind].
  exists (t ++ t'). split; [rewrite zlen_app; reflexivity|]. intros b. rewrite Hr. cbn [rbind]. rewrite Hr', app_assoc. reflexivity.
Qed.

(** Wire tags are below 2^64. *)
Lemma parse_fields_wire fs : forall i t t' e, (t_wire t < 8)%N -> parse_fields i fs t = (t', e) -> (t_wire t' < 8)%N.
Proof.
  induction fs as [|f fs IH]; intros i t t' e H; cbn [parse_fields]; [intros E; inversion E; subst; assumption|].
  assert (A : forall t1 e1, parse_wire f t = (t1, e1) -> (t_wire t1 < 8)%N).
  { intros t1 e1. unfold parse_wire. repeat match goal with |- context [(f =? ?s)%string] => destruct (f =? s)%string end;
      intros E; inversion E; subst; cbn [t_wire]; lia. }
  assert (B : forall t1 e1, parse_num f t = (t1, e1) -> (t_wire t1 < 8)%N).
  { intros t1 e1. unfold parse_num. destruct (atoi f); intros E; inversion E; subst; cbn [t_wire]; lia. }
  assert (C : forall t1 e1, parse_opt f t = (t1, e1) -> (t_wire t1 < 8)%N).
  { intros t1 e1. unfold parse_opt. repeat match goal with |- context [(f =? ?s)%string] => destruct (f =? s)%string end;
      intros E; inversion E; subst; cbn [t_wire]; lia. }
  destruct i as [|[|[|i]]].
  - destruct (parse_wire f t) as [t1 [e1|]] eqn:E1; intros E; [inversion E; subst|apply IH in E]; eauto.
  - destruct (parse_num f t) as [t1 [e1|]] eqn:E1; intros E; [inversion E; subst|apply IH in E]; eauto.
  - destruct (parse_opt f t) as [t1 [e1|]] eqn:E1; intros E; [inversion E; subst|apply IH in E]; eauto.
  - apply IH. assumption.
Qed.
Lemma tag_wiretag_lt s : (tag_wiretag (fst (parseStructTag s)) < 2^64)%N.
Proof.
  destruct (parseStructTag s) as [t e] eqn:E. cbn [fst]. apply mktag_lt. unfold parseStructTag in E.
  eapply parse_fields_wire; [|exact E]. cbn. lia.
Qed.

Definition tags_ok (p : pref) : Prop :=
  match p with PMap tag kt vt _ _ _ _ => (tag < 2^64)%N /\ (kt < 2^64)%N /\ (vt < 2^64)%N | _ => True end.
Lemma pcodec_tags t z r p : pcodec t z r = Some p -> tags_ok p.
Proof.
  destruct t; cbn; try discriminate; try (intros H; inversion H; exact Logic.I).
  destruct t; try (intros H; inversion H; exact Logic.I);
    match goal with |- option_map _ ?x = _ -> _ => destruct x; [intros H; inversion H; exact Logic.I|discriminate] end.
Qed.
Lemma pfield_tags s f p : pfield (fst (parseStructTag s)) f = Some p -> tags_ok p.
Proof.
  unfold pfield. destruct (static_choice _ _); [intros H; inversion H; exact Logic.I|].
  destruct (gf_type f) as [k| |k|t|k v|t|sid|] eqn:E; cbn [baseTypeOf];
    try (intros H; inversion H; exact Logic.I); try discriminate; try apply pcodec_tags.
  - destruct (pcodec t _ true); [intros H; inversion H; exact Logic.I|discriminate].
  - destruct (pcodec (TScalar k) _ true) as [kp|]; [|discriminate]. destruct (pcodec v _ true) as [vp|]; [|discriminate].
    intros H; inversion H. split; [|split]; apply tag_wiretag_lt.
  - intros H. assert (P : pcodec (TPtr t) (t_zz (fst (parseStructTag s))) false = Some p).
    { destruct (baseTypeOf t); try discriminate; exact H. }
    eapply pcodec_tags; exact P.
Qed.
Lemma pfields_ok fs : forall i l f, pfields i fs = Some l -> In f l -> meta_ok (f_meta f) /\ tags_ok (f_codec f).
Proof.
  induction fs as [|g fs IH]; intros i l f; cbn [pfields]; [intros H; inversion H; intros []|].
  destruct (pfields (S i) fs) as [r|] eqn:E; [|discriminate].
  assert (P : In f r -> meta_ok (f_meta f) /\ tags_ok (f_codec f)) by (eapply IH; eassumption).
  destruct (gf_exported g), (gf_tag g) as [s|]; try (intros H; inversion H; subst; exact P).
  destruct (parseStructTag s) as [t [e|]] eqn:Et; [discriminate|].
  destruct (pfield t g) as [p|] eqn:Ep; [|discriminate]. intros H; inversion H; subst. intros [<-|Hi]; [|auto].
  assert (T : t = fst (parseStructTag s)) by (rewrite Et; reflexivity). subst t.
  cbn [mkfield f_meta f_codec]. split; [apply meta_of_ok, tag_wiretag_lt|eapply pfield_tags; exact Ep].
Qed.
Lemma piget_index k : i_index (piget D k) = i_fields (piget D k).
Proof. unfold piget, pinfo. destruct (pfields 0 (struct_fields D k)); reflexivity. Qed.
Lemma piget_ok k f : In f (i_fields (piget D k)) -> meta_ok (f_meta f) /\ tags_ok (f_codec f).
Proof.
  unfold piget, pinfo. destruct (pfields 0 (struct_fields D k)) as [l|] eqn:E; [|intros []]. cbn. intros H. eapply pfields_ok; eassumption.
Qed.

Lemma flat_codec p t : flat_fits D p t = true -> codec_fits D p t = true.
Proof. destruct p, t; cbn [flat_fits codec_fits]; try discriminate; auto. Qed.
Lemma flat_tags p t : flat_fits D p t = true -> tags_ok p.
Proof. destruct p, t; cbn [flat_fits tags_ok]; try discriminate; auto. Qed.

(** A struct whose fields are sized. *)
Lemma struct_sized k fs : (forall q, k <> SOpt q) -> key_ok D k -> all2 (wt D) fs (key_types D k) = true ->
  agree (VPtr (Some (VStruct fs))) (PStruct k) = true ->
  Forall (fun v => forall p t f, codec_fits D p t = true -> wt D v t = true -> agree v p = true ->
             meta_ok f -> tags_ok p -> sized (fun b => enc v b p f) (sz v p f)) fs ->
  forall s e, (forall i, s i = option_map (fun y => sz y) (nth_error fs i)) ->
              (forall i, e i = option_map (fun y => enc y) (nth_error fs i)) ->
  sized (fun b => fields_encode e b (i_fields (piget D k))) (fields_size s (i_fields (piget D k))).
Proof.
  intros Hk Hok Hw Ha IH s e Hs He. apply fields_sized. intros f Hf.
  destruct (piget_ok _ _ Hf) as [Hm Ht]. split; [exact Hm|].
  assert (Hi : In f (i_index (piget D k))) by (rewrite piget_index; exact Hf).
  destruct (piget_field D k f HD Hok Hi) as (t & Hn & Hc & _).
  destruct (all2_nth _ _ _ _ _ Hw Hn) as (y & Hy & Hwy).
  exists (sz y), (enc y). rewrite Hs, He, Hy. cbn [option_map]. split; [reflexivity|]. split; [reflexivity|].
  rewrite Forall_forall in IH. apply (IH y (nth_error_In _ _ Hy) _ t); try assumption.
  cbn [agree] in Ha. rewrite forallb_forall in Ha. specialize (Ha f Hf).
  rewrite nth_error_map, Hy in Ha. exact Ha.
Qed.

Lemma sized_eq r r' n n' : sized r n -> (forall b, r' b = r b) -> n' = n -> sized r' n'.
Proof. intros (t & Hn & Hr) H ->. exists t. split; [assumption|]. intros b. rewrite H. apply Hr. Qed.


Lemma enc_sized : forall v p t f, codec_fits D p t = true -> wt D v t = true -> agree v p = true ->
  meta_ok f -> tags_ok p -> sized (fun b => enc v b p f) (sz v p f).
Proof.
  induction v as [v IH] using val_ind2. intros p t f Hc Hw Ha Hf Ht. destruct p as [s|e q|e q|k|tag kt vt key val kp vp].
  - (* static *)
    assert (Hs : static_fits s t = true) by (destruct t; exact Hc).
    eapply sized_eq; [eapply static_sized; eassumption| |]; destruct v; reflexivity.
  - (* pointer *)
    destruct t; try discriminate. cbn [codec_fits flat_fits] in Hc. btrue.
    destruct (wt_ptr _ _ _ Hw) as (o & -> & Hx). destruct o as [x|]; [|exact sized_nil].
    cbn [sz enc plook]. destruct IH as [IH _]. eapply IH; eauto using flat_codec, flat_tags.
  - (* slice *)
    destruct t; try discriminate. cbn [codec_fits] in Hc. btrue.
    destruct (wt_slice _ _ _ Hw) as (nn & items & spare & -> & Hi & Hsp). destruct IH as [IH _]. cbn [agree] in Ha.
    pose proof (sized_chain (map (fun x => ((fun b => enc x b q f), sz x q f)) items)) as S.
    rewrite !map_map in S. cbn [fst snd] in S. cbn [sz enc plook]. apply S.
    rewrite Forall_map. apply Forall_forall. intros x Hx. cbn [fst snd].
    rewrite Forall_forall in IH. rewrite forallb_forall in *.
    eapply IH; eauto using flat_codec, flat_tags.
  - (* struct *)
    destruct (struct_ptr _ _ _ _ Hc Hw) as (o & ->). destruct o as [x|]; [|exact sized_nil].
    assert (S : sized (fun b => struct_encode plook (piget D) k b x) (struct_size plook (piget D) k x)).
    { unfold struct_encode, struct_size. destruct k as [sid| |q].
      - destruct t; try discriminate. cbn [codec_fits flat_fits] in Hc. btrue.
        assert (W : wts D x (SNamed sid0) = true) by exact Hw.
        destruct (wts_struct D x (SNamed sid0)) as (fs & -> & W'); [discriminate|exact W|].
        destruct IH as [_ IH]. eapply struct_sized; try eassumption; try reflexivity; discriminate.
      - destruct t; discriminate.
      - cbn. exact sized_nil. }
    assert (E : forall b, fields_encode (nth_error (match x with VStruct fs => map (fun y => enc y) fs | _ => [] end)) b (i_fields (piget D k)) =
                          struct_encode plook (piget D) k b x).
    { intros b. unfold struct_encode.
      generalize (i_fields (piget D k)) as l. intros l. revert b. induction l as [|g l IHl]; intros b; [reflexivity|]. cbn [fields_encode].
      assert (N : nth_error (match x with VStruct fs => map (fun y => enc y) fs | _ => [] end) (f_idx g) = option_map (fun y => enc y) (get_field x (f_idx g))).
      { destruct x; try (destruct (f_idx g); reflexivity). rewrite nth_error_map. reflexivity. }
      rewrite N. destruct (option_map (fun y => enc y) (get_field x (f_idx g))) as [h|]; [|reflexivity].
      destruct (h b (f_codec g) (f_meta g)); [apply IHl|reflexivity]. }
    assert (E' : fields_size (nth_error (match x with VStruct fs => map (fun y => sz y) fs | _ => [] end)) (i_fields (piget D k)) =
                          struct_size plook (piget D) k x).
    { unfold struct_size.
      generalize (i_fields (piget D k)) as l. intros l. induction l as [|g l IHl]; [reflexivity|]. cbn [fields_size].
      assert (N : nth_error (match x with VStruct fs => map (fun y => sz y) fs | _ => [] end) (f_idx g) = option_map (fun y => sz y) (get_field x (f_idx g))).
      { destruct x; try (destruct (f_idx g); reflexivity). rewrite nth_error_map. reflexivity. }
      rewrite N, IHl. reflexivity. }
    destruct S as (u & Hu & Hr). cbn [sz enc plook].
    destruct Hf as [Hf1 Hf2]. pose proof (u64_lt (zlen u)) as L.
    exists (vint (wiretag f) ++ vint (u64 (zlen u)) ++ u). rewrite E', Hu. cbn [rbind]. split.
    + rewrite Hf2, !sizeOfVarint_spec, !zlen_app by assumption. f_equal. lia.
    + intros b. rewrite E, Hr, !appendVarint_spec, !app_assoc by assumption. reflexivity.
  - (* map *)
    destruct t as [| | | |key' val'| | |]; try discriminate. cbn [codec_fits] in Hc. btrue. destruct Ht as (T1 & T2 & T3).
    destruct (wt_map _ _ _ _ Hw) as (m & -> & Hm). clear Hw.
    assert (Z : forall b : bytes, b ++ (appendVarint [] tag ++ [0%N]) = b ++ (vint tag ++ [0%N])).
    { intros b. rewrite appendVarint_spec by assumption. reflexivity. }
    destruct m as [l|].
    2:{ exists (vint tag ++ [0%N]). split.
        - cbn [sz plook sum_res rbind Z.eqb]. rewrite zlen_app, sizeOfVarint_spec by assumption. reflexivity.
        - intros b. cbn [enc plook chain_res rbind]. rewrite Z.eqb_refl, Z. reflexivity. }
    destruct Hm as [Hm Hd].
    pose (ee := fun (kv : GoType.val * GoType.val) (b : bytes) => match kv with (k, x) =>
             keySize <- sz k kp (meta_of kt) ;;
             valSize <- sz x kp (meta_of vt) ;;
             b <- enc k (appendVarint (b ++ appendVarint [] tag) (u64 (keySize + valSize))) kp (meta_of kt) ;;
             enc x b vp (meta_of vt) end).
    pose (ss := fun (kv : GoType.val * GoType.val) => match kv with (k, x) =>
             keySize <- sz k kp (meta_of kt) ;;
             valSize <- sz x vp (meta_of vt) ;;
             OK (sizeOfVarint tag + sizeOfVarint (u64 (keySize + valSize)) + keySize + valSize) end).
    assert (S : Forall (fun kv => exists t, 0 < zlen t /\ ss kv = OK (zlen t) /\ forall b, ee kv b = OK (b ++ t)) l).
    { apply Forall_forall. intros [k x] Hin. rewrite Forall_forall in IH. destruct (IH _ Hin) as [IHk IHx]. cbn [fst snd] in *.
      rewrite forallb_forall in *. specialize (Hm _ Hin). cbn beta iota in Hm. btrue.
      cbn [agree] in Ha. rewrite forallb_forall in Ha. specialize (Ha _ Hin). cbn beta iota in Ha. btrue.
      assert (Ak : agree k kp = true).
      { destruct kp as [| | |[]|]; try discriminate. destruct k; reflexivity. }
      destruct (IHk kp (TScalar key') (meta_of kt)) as (tk & Ek & Rk); auto using flat_codec, meta_of_ok.
      { eapply flat_tags; eassumption. }
      destruct (IHx vp val' (meta_of vt)) as (tx & Ex & Rx); auto using flat_codec, meta_of_ok.
      { eapply flat_tags; eassumption. }
      cbn [res_eqb] in *. rewrite Ex in *.
      destruct (sz x kp (meta_of vt)) as [n|] eqn:En; [|discriminate]. cbn [res_eqb] in *.
      assert (n = zlen tx) by lia. subst n. pose proof (u64_lt (zlen tk + zlen tx)) as L.
      exists (vint tag ++ vint (u64 (zlen tk + zlen tx)) ++ tk ++ tx). unfold ss, ee. rewrite Ek, En, Ex. cbn [rbind].
      split; [|split].
      - rewrite !zlen_app. pose proof (vint_nonempty tag). destruct (vint tag); [contradiction|].
        rewrite zlen_cons. pose proof (zlen_nonneg l0). pose proof (zlen_nonneg (vint (u64 (zlen tk + zlen tx)))).
        pose proof (zlen_nonneg tk). pose proof (zlen_nonneg tx). lia.
      - rewrite !sizeOfVarint_spec, !zlen_app by assumption. f_equal. lia.
      - intros b. rewrite !appendVarint_spec by assumption. rewrite Rk. cbn [rbind]. rewrite Rx. cbn [app]. rewrite <- !app_assoc. reflexivity. }
    assert (S' : exists t, (l <> [] -> 0 < zlen t) /\ (l = [] -> t = []) /\ sum_res (map ss l) = OK (zlen t) /\
                  forall b, chain_res b (map ee l) = OK (b ++ t)).
    { clear - S. induction S as [|kv l (t & P & A & B) _ (t' & P' & Q' & A' & B')].
      - exists []. split; [contradiction|]. split; [auto|]. split; [reflexivity|]. intros b. cbn. rewrite app_nil_r. reflexivity.
      - exists (t ++ t'). split; [|split; [discriminate|split]].
        + intros _. rewrite zlen_app. pose proof (zlen_nonneg t'). lia.
        + cbn [map sum_res]. rewrite A. cbn [rbind]. rewrite A'. cbn [rbind]. rewrite zlen_app. reflexivity.
        + intros b. cbn [map chain_res]. rewrite B. cbn [rbind]. rewrite B', app_assoc. reflexivity. }
    destruct S' as (u & P & Q & A & B).
    assert (As : sz (VMap (Some l)) (PMap tag kt vt key' val' kp vp) f =
                 (n <- sum_res (map ss l) ;; OK (if n =? 0 then sizeOfVarint tag + 1 else n))) by reflexivity.
    assert (Ae : forall b, enc (VMap (Some l)) b (PMap tag kt vt key' val' kp vp) f =
                 (b' <- chain_res b (map ee l) ;; OK (if zlen b' =? zlen b then b' ++ (appendVarint [] tag ++ [0%N]) else b'))) by reflexivity.
    rewrite A in As. cbn [rbind] in As.
    destruct l as [|kv l].
    + rewrite (Q eq_refl) in *. exists (vint tag ++ [0%N]). split.
      * rewrite As, zlen_app, sizeOfVarint_spec by assumption. reflexivity.
      * intros b. rewrite Ae, B. cbn [rbind]. rewrite app_nil_r, Z.eqb_refl, Z. reflexivity.
    + assert (P' : 0 < zlen u) by (apply P; discriminate). exists u. split.
      * rewrite As. destruct (Z.eqb_spec (zlen u) 0); [lia|reflexivity].
      * intros b. rewrite Ae, B. cbn [rbind]. destruct (Z.eqb_spec (zlen (b ++ u)) (zlen b)) as [E|]; [rewrite zlen_app in E; lia|reflexivity].
Qed.

(** ** Structs of the API *)
Lemma struct_enc_sized k x : key_ok D k -> wts D x k = true -> agrees x k = true ->
  sized (fun b => struct_encode plook (piget D) k b x) (struct_size plook (piget D) k x).
Proof.
  intros Hk Hw Ha. unfold struct_encode, struct_size. destruct k as [sid| |q].
  - destruct (wts_struct D x (SNamed sid)) as (fs & -> & W'); [discriminate|exact Hw|].
    eapply struct_sized; try eassumption; try reflexivity; try discriminate.
    apply Forall_forall. intros v _. intros. eapply enc_sized; eassumption.
  - destruct (wts_struct D x (SEntry k v ktag vtag)) as (fs & -> & W'); [discriminate|exact Hw|].
    eapply struct_sized; try eassumption; try reflexivity; try discriminate.
    apply Forall_forall. intros y _. intros. eapply enc_sized; eassumption.
  - cbn. exact sized_nil.
Qed.

(** ** Size never crashes, whatever the maps. *)
Definition fine (r : res Z) : Prop := exists n, r = OK n.
Lemma sum_fine l : Forall fine l -> fine (sum_res l).
Proof.
  induction 1 as [|r l (n & ->) _ (m & E)]; [exists 0; reflexivity|]. cbn [sum_res rbind]. rewrite E. cbn. eexists; reflexivity.
Qed.
Lemma fields_fine s (fs : list (sfield pref)) :
  (forall f, In f fs -> exists g, s (f_idx f) = Some g /\ fine (g (f_codec f) (f_meta f))) -> fine (fields_size s fs).
Proof.
  induction fs as [|f fs IH]; intros H; [exists 0; reflexivity|]. cbn [fields_size].
  destruct (H f (or_introl eq_refl)) as (g & -> & n & ->). destruct IH as (m & ->); [intros; apply H; right; assumption|].
  cbn. eexists; reflexivity.
Qed.
Lemma sz_fine : forall v p t f, codec_fits D p t = true -> wt D v t = true -> meta_ok f -> tags_ok p -> fine (sz v p f).
Proof.
  induction v as [v IH] using val_ind2. intros p t f Hc Hw Hf Ht. destruct p as [s|e q|e q|k|tag kt vt key val kp vp].
  - assert (Hs : static_fits s t = true) by (destruct t; exact Hc).
    destruct (static_sized D s t v f Hs Hw Hf) as (u & E & _). exists (zlen u). rewrite <- E. destruct v; reflexivity.
  - destruct t; try discriminate. cbn [codec_fits flat_fits] in Hc. btrue.
    destruct (wt_ptr _ _ _ Hw) as (o & -> & Hx). destruct o as [x|]; [|exists 0; reflexivity].
    cbn [sz plook]. destruct IH as [IH _]. eapply IH; eauto using flat_codec, flat_tags.
  - destruct t; try discriminate. cbn [codec_fits] in Hc. btrue.
    destruct (wt_slice _ _ _ Hw) as (nn & items & spare & -> & Hi & Hsp). destruct IH as [IH _]. cbn [sz plook].
    apply sum_fine. rewrite Forall_map. apply Forall_forall. intros x Hx. rewrite Forall_forall in IH. rewrite forallb_forall in *.
    eapply IH; eauto using flat_codec, flat_tags.
  - destruct (struct_ptr _ _ _ _ Hc Hw) as (o & ->).
    destruct o as [x|]; [|exists 0; reflexivity]. cbn [sz plook].
    assert (F : fine (fields_size (nth_error (match x with VStruct fs => map (fun y => sz y) fs | _ => [] end)) (i_fields (piget D k)))).
    { destruct k as [sid| |q].
      - destruct t; try discriminate. cbn [codec_fits flat_fits] in Hc. btrue.
        destruct (wts_struct D x (SNamed sid0)) as (fs & -> & W'); [discriminate|exact Hw|].
        destruct IH as [_ IH]. apply fields_fine. intros g Hg.
        destruct (piget_ok _ _ Hg) as [Hm Ht'].
        assert (Hi : In g (i_index (piget D (SNamed sid0)))) by (rewrite piget_index; exact Hg).
        destruct (piget_field D (SNamed sid0) g HD ltac:(assumption) Hi) as (t & Hn & Hc' & _).
        destruct (all2_nth _ _ _ _ _ W' Hn) as (y & Hy & Hwy).
        exists (sz y). rewrite nth_error_map, Hy. split; [reflexivity|].
        rewrite Forall_forall in IH. eapply IH; eauto using nth_error_In.
      - destruct t; discriminate.
      - exists 0. reflexivity. }
    destruct F as (n & ->). cbn. eexists; reflexivity.
  - destruct t as [| | | |key' val'| | |]; try discriminate. cbn [codec_fits] in Hc. btrue. destruct Ht as (T1 & T2 & T3).
    destruct (wt_map _ _ _ _ Hw) as (m & -> & Hm). clear Hw. cbn [sz plook].
    destruct m as [l|]; [|cbn; eexists; reflexivity]. destruct Hm as [Hm Hd].
    match goal with |- fine (rbind ?r _) => assert (F : fine r) end.
    { apply sum_fine. rewrite Forall_map. apply Forall_forall. intros [k x] Hin. rewrite Forall_forall in IH.
      destruct (IH _ Hin) as [IHk IHx]. rewrite forallb_forall in *.
      specialize (Hm _ Hin). cbn beta iota in Hm. btrue. cbn [fst snd mkfield f_codec f_meta] in *.
      destruct (IHk kp (TScalar key') (meta_of kt)) as (n & ->); eauto using flat_codec, meta_of_ok, flat_tags.
      destruct (IHx vp val' (meta_of vt)) as (m & ->); eauto using flat_codec, meta_of_ok, flat_tags. cbn. eexists; reflexivity. }
    destruct F as (n & ->). cbn. eexists; reflexivity.
Qed.
Lemma struct_size_fine k x : key_ok D k -> wts D x k = true -> fine (struct_size plook (piget D) k x).
Proof.
  intros Hk Hw. unfold struct_size. destruct k as [sid|kk vv kt vt|q]; [| |exists 0; reflexivity].
  all: match goal with |- fine (fields_size _ (i_fields (piget D ?k0))) =>
      destruct (wts_struct D x k0) as (fs & -> & W'); [discriminate|exact Hw|];
      apply fields_fine; intros g Hg; destruct (piget_ok _ _ Hg) as [Hm Ht'];
      assert (Hi : In g (i_index (piget D k0))) by (rewrite piget_index; exact Hg);
      destruct (piget_field D k0 g HD Hk Hi) as (t & Hn & Hc' & _);
      destruct (all2_nth _ _ _ _ _ W' Hn) as (y & Hy & Hwy);
      exists (sz y); cbn [get_field]; rewrite Hy; split; [reflexivity|]; eapply sz_fine; eassumption end.
Qed.

(** ** A condition on declarations under which [agrees] always holds *)

(** Codecs that give every value of the map's value type the same size. *)
Definition same_size (kp vp : pref) : bool :=
  (if pref_eq_dec kp vp then true else false) ||
  match kp, vp with
  | PStatic (SC WInt64 Required), PStatic (SC WUint64 Required)
  | PStatic (SC WUint64 Required), PStatic (SC WInt64 Required) => true
  | _, _ => false
  end.
Definition homogeneous : bool :=
  forallb (fun fs => match pfields 0 fs with
    | Some l => forallb (fun f => match f_codec f with PMap _ _ _ _ _ kp vp => same_size kp vp | _ => true end) l
    | None => true end) D.

Lemma same_size_ok kp vp t x f : same_size kp vp = true -> flat_fits D vp t = true -> wt D x t = true -> meta_ok f ->
  res_eqb (sz x kp f) (sz x vp f) = true.
Proof.
  unfold same_size. intros H Hv Hw Hf.
  assert (F : fine (sz x vp f)) by (eapply sz_fine; eauto using flat_codec, flat_tags). destruct F as (n & E).
  destruct (pref_eq_dec kp vp) as [->|]; [rewrite E; cbn; apply Z.eqb_refl|]. cbn [orb] in H.
  destruct kp as [[[] []|]| | | |]; try discriminate; destruct vp as [[[] []|]| | | |]; try discriminate;
    cbn [flat_fits static_fits wk_kind] in Hv; btrue; wtd x;
    cbn [sz plook static l_size int64RequiredCodec uint64RequiredCodec]; unfold sizeOfInt64Required, sizeOfUint64Required, rd_i64, rd_u64; cbn [mem64 of_opt rbind res_eqb]; cbn [wt] in Hw.
  - rewrite u64_s64 by (apply (wt_u64 D); exact Hw). apply Z.eqb_refl.
  - rewrite u64_s64 by apply u64_lt. apply Z.eqb_refl.
Qed.

Lemma homogeneous_agree : homogeneous = true -> forall v p t, codec_fits D p t = true -> wt D v t = true -> tags_ok p ->
  match p with PMap _ _ _ _ _ kp vp => same_size kp vp = true | _ => True end -> agree v p = true.
Proof.
  intros HH. induction v as [v IH] using val_ind2. intros p t Hc Hw Ht Hp.
  assert (FL : forall p t, flat_fits D p t = true -> match p with PMap _ _ _ _ _ kp vp => same_size kp vp = true | _ => True end).
  { intros p0 t0 H0. destruct p0, t0; try exact Logic.I; discriminate. }
  destruct p as [s|e q|e q|k|tag kt vt key val kp vp]; destruct v as [| | | | | | | | | | |m|o| |]; try reflexivity.
  - destruct o as [x|]; [|reflexivity]. destruct t; try discriminate. cbn [codec_fits flat_fits] in Hc. btrue.
    cbn [agree]. destruct IH as [IH _]. destruct (wt_ptr _ _ _ Hw) as (o & Eo & Hx). inversion Eo; subst o.
    eapply IH; eauto using flat_codec, flat_tags; eapply FL; eassumption.
  - destruct t; try discriminate. cbn [codec_fits] in Hc. btrue. cbn [wt agree] in *. btrue. destruct IH as [IH _].
    rewrite forallb_forall in *. rewrite Forall_forall in IH. intros x Hx. eapply IH; eauto using flat_codec, flat_tags; eapply FL; eassumption.
  - destruct o as [[| | | | | | | | | | | | |fs|]|]; try reflexivity. destruct IH as [_ IH].
    cbn [agree]. rewrite forallb_forall. intros g Hg. rewrite nth_error_map.
    destruct (nth_error fs (f_idx g)) as [y|] eqn:Ey; [|reflexivity]. cbn [option_map].
    destruct k as [sid| |q]; [|destruct t; discriminate|destruct Hg].
    destruct t as [| | | | | |sid'|]; try discriminate. cbn [codec_fits flat_fits] in Hc. btrue.
    destruct (piget_ok _ _ Hg) as [Hm Ht'].
    assert (Hi : In g (i_index (piget D (SNamed sid')))) by (rewrite piget_index; exact Hg).
    destruct (piget_field D (SNamed sid') g HD ltac:(assumption) Hi) as (t & Hn & Hc' & _).
    cbn [wt] in Hw. destruct (nth_error D sid') as [gs|] eqn:EE; [|discriminate].
    destruct (all2_nth _ _ _ _ _ Hw Hn) as (y' & Hy & Hwy). rewrite Ey in Hy; inversion Hy; subst y'.
    rewrite Forall_forall in IH. eapply IH; eauto using nth_error_In.
    unfold homogeneous in HH. rewrite forallb_forall in HH. specialize (HH gs (nth_error_In _ _ EE)).
    unfold piget, pinfo in Hg. cbn [struct_fields] in Hg. rewrite EE in Hg.
    destruct (pfields 0 gs) as [l|]; [|destruct Hg]. cbn in Hg. rewrite forallb_forall in HH. specialize (HH g Hg).
    destruct (f_codec g); auto.
  - destruct m as [l|]; [|reflexivity]. destruct t as [| | | |key' val'| | |]; try discriminate.
    cbn [codec_fits] in Hc. btrue. destruct Ht as (T1 & T2 & T3). cbn [wt agree] in *. apply andb_prop in Hw. destruct Hw as [Hm Hd].
    rewrite forallb_forall in *.
    intros [k x] Hin. rewrite Forall_forall in IH. destruct (IH _ Hin) as [_ IHx]. cbn [snd] in IHx.
    specialize (Hm _ Hin). cbn beta iota in Hm. btrue.
    erewrite same_size_ok; eauto using meta_of_ok. cbn. eapply IHx; eauto using flat_codec, flat_tags; eapply FL; eassumption.
Qed.
Lemma homogeneous_agrees k x : homogeneous = true -> key_ok D k -> (forall a b c d, k <> SEntry a b c d) -> wts D x k = true -> agrees x k = true.
Proof.
  intros HH Hk He Hw. unfold agrees. destruct k as [sid|a b c d|q]; [| |destruct x; reflexivity].
  - eapply homogeneous_agree; try exact HH; try exact Logic.I.
    + instantiate (1 := TMsg sid). cbn [codec_fits flat_fits]. rewrite Nat.eqb_refl. cbn. apply Nat.ltb_lt. exact Hk.
    + exact Hw.
  - exfalso. eapply He; reflexivity.
Qed.
End Sized.
