(** The codecs of scalars on flat memory do what those of Leaf.v do on values. *)
From Coq Require Import ZifyBool ZifyNat ZifyN.
From Verif Require Import Base Wire GoType Leaf Codec Walker Api Typing SpecWire WireFacts DecodeFacts TypingFacts
  Unsafe SpecUnsafe UnsafeMem UnsafeRep.
Local Open Scope nat_scope.
Ltac Zify.zify_post_hook ::= Z.div_mod_to_equations.

(** ** Arithmetic *)
Lemma s32_u32 z : s32 (Z.of_N (u32 z)) = s32 z.
Proof.
  unfold s32. replace (Z.of_N (u32 z) mod Z32)%Z with (z mod Z32)%Z; [reflexivity|]. unfold u32, Z32. lia.
Qed.
Lemma s32_s32 z : s32 (s32 z) = s32 z.
Proof. apply s32_id. apply s32_range. Qed.
Lemma s64_u64_s64 n : s64 (u64 (s64 n)) = s64 n.
Proof. apply s64_u64. apply s64_range. Qed.
Lemma div256 n k : (n / 256 ^ N.of_nat k / 256 = n / 256 ^ N.of_nat (S k))%N.
Proof. rewrite N.div_div by (try apply N.pow_nonzero; discriminate). rewrite Nat2N.inj_succ, N.pow_succ_r'. f_equal. lia. Qed.

Section Leaf.
Variable D : decls.
Variable other : nat -> nat -> nat * nat.

(** ** Loads *)
Section Load.
Variable sep : bool.
Notation rep := (rep D other sep).

Lemma holds_ld_n H a k n : holds H a (le_cells k n) -> (n < 256 ^ N.of_nat k)%N -> ld_n H a k = Some n.
Proof.
  unfold holds, ld_n. rewrite le_cells_length. intros -> L. apply le_le_cells. exact L.
Qed.
Lemma le_cells_8 n : (n < M64)%N -> le_cells 8 n = le_cells 4 (n mod 4294967296) ++ le_cells 4 (n / 4294967296).
Proof.
  intros L. cbn [le_cells app].
  assert (E : (n = n mod 4294967296 + n / 4294967296 * 4294967296)%N) by (rewrite N.add_comm, N.mul_comm; apply N.div_mod; discriminate).
  assert (B : (n mod 4294967296 < 4294967296)%N) by (apply N.mod_lt; discriminate).
  set (r := (n mod 4294967296)%N) in *. set (q := (n / 4294967296)%N) in *. clearbody r q.
  assert (D1 : (n / 256 = r / 256 + q * 65536 * 256)%N) by (rewrite E, <- N.div_add by discriminate; f_equal; lia).
  assert (D2 : (n / 256 / 256 = r / 256 / 256 + q * 256 * 256)%N) by (rewrite D1, N.div_add by discriminate; f_equal; lia).
  assert (D3 : (n / 256 / 256 / 256 = r / 256 / 256 / 256 + q * 256)%N) by (rewrite D2, N.div_add by discriminate; reflexivity).
  assert (D4 : (n / 256 / 256 / 256 / 256 = q)%N).
  { rewrite D3, N.div_add by discriminate. rewrite !N.div_div by discriminate. rewrite N.div_small by exact B. reflexivity. }
  assert (E1 : (n mod 256 = r mod 256)%N) by (rewrite E; replace (q * 4294967296)%N with (q * 16777216 * 256)%N by lia; apply N.mod_add; discriminate).
  rewrite D4, D3, D2, D1, E1, !N.mod_add by discriminate. reflexivity.
Qed.
Lemma holds_ld_n4 H a n : holds H a (le_cells 8 n) -> (n < M64)%N -> ld_n H a 4 = Some (n mod 4294967296)%N.
Proof.
  intros K L. rewrite le_cells_8 in K by exact L. apply holds_app in K as [K _]. apply holds_ld_n; [exact K|].
  change (256 ^ N.of_nat 4)%N with 4294967296%N. lia.
Qed.
Lemma u32_lt' z : (u32 z < 256 ^ N.of_nat 4)%N. Proof. change (256 ^ N.of_nat 4)%N with 4294967296%N. unfold u32, Z32. lia. Qed.
Lemma u64_lt' z : (u64 z < 256 ^ N.of_nat 8)%N.
Proof. change (256 ^ N.of_nat 8)%N with 18446744073709551616%N. unfold u64, Z64. lia. Qed.

Lemma rep_mem64 H t a v S n : rep H t a v S -> mem64 v = Some n -> ld_n H a 8 = Some n /\ ld_n H a 4 = Some (n mod 4294967296)%N.
Proof.
  assert (Z : forall a, holds H a (ptr_cells None) -> ld_n H a 8 = Some 0%N /\ ld_n H a 4 = Some 0%N).
  { intros a0 K. split; [apply holds_ld_n; [exact K|reflexivity]|]. apply (holds_ld_n4 H a0 0); [exact K|reflexivity]. }
  intros R. destruct R; cbn [mem64]; try discriminate.
  - match goal with W : wt D v _ = true |- _ => rename W into W0 end.
    destruct v as [| | | | | | | |[]| | |[]|[[]|]| |]; cbn [mem64 k_cells] in *; try discriminate; intros E; inversion E; subst;
      repeat match goal with Q : Some _ = Some _ |- _ => inversion Q; clear Q; subst end.
    + pose proof (u64_lt' z). split; [apply holds_ld_n|apply holds_ld_n4]; try assumption.
    + destruct k; try discriminate W0. cbn [wt] in W0. apply N.ltb_lt in W0.
      split; [apply holds_ld_n|apply holds_ld_n4]; try assumption.
    + destruct k; try discriminate W0. cbn [wt] in W0. apply N.ltb_lt in W0.
      split; [apply holds_ld_n|apply holds_ld_n4]; try assumption.
  - intros E. inversion E; subst. apply Z. assumption.
  - intros E. inversion E; subst. apply Z. assumption.
Qed.
Lemma rep_mem32 H t a v S n : rep H t a v S -> mem32 v = Some n -> ld_n H a 4 = Some n.
Proof.
  intros R E. assert (C : (exists m, mem64 v = Some m /\ n = (m mod 4294967296)%N) \/
    (exists k cs, wt D v (TScalar k) = true /\ k_cells v = Some cs /\ holds H a cs /\ cs = le_cells 4 n /\ (n < 4294967296)%N)).
  { destruct v; cbn [mem32] in E;
      try (left; match type of E with match ?m with _ => _ end = _ => destruct m as [m'|] eqn:E'; [|discriminate]; inversion E; eauto end; fail); right.
    - inversion R; subst. inversion E; subst. exists k. eexists. repeat (split; [eassumption|]). cbn [k_cells] in *.
      match goal with Q : Some _ = Some cs |- _ => inversion Q end. split; [reflexivity|]. unfold u32, Z32. lia.
    - inversion R; subst. inversion E; subst. exists k. eexists. repeat (split; [eassumption|]). cbn [k_cells] in *.
      match goal with Q : Some _ = Some cs |- _ => inversion Q end. split; [reflexivity|].
      match goal with W : wt D _ _ = true |- _ => destruct k; try discriminate W; cbn [wt] in W; lia end.
    - inversion R; subst. inversion E; subst. exists k. eexists. repeat (split; [eassumption|]). cbn [k_cells] in *.
      match goal with Q : Some _ = Some cs |- _ => inversion Q end. split; [reflexivity|].
      match goal with W : wt D _ _ = true |- _ => destruct k; try discriminate W; cbn [wt] in W; lia end. }
  destruct C as [(m & Em & ->)|(k & cs & _ & _ & K & -> & L)].
  - eapply rep_mem64 in Em; [|exact R]. apply Em.
  - apply holds_ld_n; [exact K|exact L].
Qed.

Lemma text_data H p s n : text H p s -> n = length s -> data H p n = Some s.
Proof.
  intros T ->. destruct T as [p|x o s n N L]; [reflexivity|].
  rewrite firstn_length_le by (rewrite skipn_length; lia). unfold data. destruct n as [|n]; [reflexivity|]. rewrite N.
  destruct (o + S n <=? length s) eqn:E; [reflexivity|lia].
Qed.
Lemma bytes_data H p d r : bytes_okb d = true -> holds H p (map MB d ++ r) -> data H (Some p) (length d) = Some d.
Proof.
  intros B K. apply holds_app in K as [K _]. unfold data. destruct d as [|c d]; [reflexivity|].
  set (n := length (c :: d)) in *. destruct p as [x o].
  assert (Q : (match cells H x o n with Some l => plain l | None => None end) = Some (c :: d)).
  { unfold holds, load in K. rewrite map_length in K. cbn [fst snd] in K. unfold n. rewrite K. apply plain_map. exact B. }
  change (length (c :: d)) with (S (length d)). destruct (nth_error H x) as [[l|s|l]|] eqn:E; try exact Q.
  exfalso. unfold n in Q. cbn [length cells] in Q. unfold cell in Q. rewrite E in Q. discriminate.
Qed.

(** What a load at a scalar type gives. *)
Definition conv (k : skind) (v : val) : option val :=
  match k with
  | KBool => match v with VBool _ => Some v | _ => None end
  | KInt32 => option_map (fun n => VI32 (s32 (Z.of_N n))) (mem32 v)
  | KInt64 => option_map (fun n => VI64 (s64 n)) (mem64 v)
  | KUint32 => option_map VU32 (mem32 v)
  | KUint64 => option_map VU64 (mem64 v)
  | KFloat32 => option_map VF32 (mem32 v)
  | KFloat64 => option_map VF64 (mem64 v)
  | KString => match rd_str v with OK s => Some (VStr s) | CR _ => None end
  end.
Lemma rep_conv H t a v S k v' : rep H t a v S -> conv k v = Some v' -> ld_k H k a = Some v'.
Proof.
  intros R. destruct k; cbn [conv ld_k].
  - destruct v; try discriminate. intros E; inversion E; subst. inversion R; subst. cbn [k_cells] in *.
    match goal with Q : Some _ = Some cs |- _ => inversion Q; subst end.
    match goal with K : holds _ _ _ |- _ => unfold holds in K; cbn [length] in K; unfold ld_n; rewrite K end.
    destruct b; reflexivity.
  - destruct (mem32 v) as [n|] eqn:E; [|discriminate]. rewrite (rep_mem32 _ _ _ _ _ _ R E). auto.
  - destruct (mem64 v) as [n|] eqn:E; [|discriminate]. rewrite (proj1 (rep_mem64 _ _ _ _ _ _ R E)). auto.
  - destruct (mem32 v) as [n|] eqn:E; [|discriminate]. rewrite (rep_mem32 _ _ _ _ _ _ R E). auto.
  - destruct (mem64 v) as [n|] eqn:E; [|discriminate]. rewrite (proj1 (rep_mem64 _ _ _ _ _ _ R E)). auto.
  - destruct (mem32 v) as [n|] eqn:E; [|discriminate]. rewrite (rep_mem32 _ _ _ _ _ _ R E). auto.
  - destruct (mem64 v) as [n|] eqn:E; [|discriminate]. rewrite (proj1 (rep_mem64 _ _ _ _ _ _ R E)). auto.
  - destruct v; try discriminate; cbn [rd_str].
    + intros E; inversion E; subst. inversion R; subst; [cbn [k_cells] in *; discriminate|].
      match goal with K : holds _ _ _ |- _ => apply holds_str_hdr in K as [-> ->] end.
      erewrite text_data by (try eassumption; reflexivity). reflexivity.
    + destruct o as [d|]; intros E; inversion E; subst; inversion R; subst; try (cbn [k_cells] in *; discriminate).
      * match goal with K : holds _ a _ |- _ => apply holds_hdr in K as (-> & -> & _) end.
        erewrite bytes_data by eassumption. reflexivity.
      * match goal with K : holds _ a _ |- _ => apply holds_hdr in K as (-> & -> & _) end. reflexivity.
Qed.
Lemma rep_ld_k H k a v S : rep H (TScalar k) a v S -> ld_k H k a = Some v.
Proof.
  intros R. eapply rep_conv; [exact R|]. inversion R; subst; [|reflexivity].
  destruct v as [| | | | | | | |[]| | |[]|[[]|]| |], k; try discriminate; cbn [conv mem32 mem64 option_map wt in_i32 in_i64] in *; try reflexivity.
  - rewrite s32_u32, s32_id by (unfold in_i32 in *; lia). reflexivity.
  - rewrite s64_u64 by (unfold in_i64 in *; lia). reflexivity.
Qed.
Lemma rep_ld_bytes H a v S : rep H TBytes a v S -> ld_bytes H a = Some v.
Proof.
  intros R. inversion R; subst; unfold ld_bytes.
  - match goal with K : holds _ a _ |- _ => apply holds_hdr in K as (-> & -> & _) end. reflexivity.
  - match goal with K : holds _ a _ |- _ => apply holds_hdr in K as (-> & -> & _) end.
    erewrite bytes_data by eassumption. reflexivity.
Qed.

(** The codecs only see what a load gives. *)
Ltac leaf_cases w m :=
  destruct w, m; try contradiction; try discriminate;
  cbn [static l_size l_encode boolCodec boolRequiredCodec stringCodec stringRequiredCodec float32Codec
    float32RequiredCodec float64Codec float64RequiredCodec int32Codec int32RequiredCodec int64Codec int64RequiredCodec
    uint32Codec uint32RequiredCodec uint64Codec uint64RequiredCodec fixed32Codec fixed32RequiredCodec fixed64Codec
    fixed64RequiredCodec zigzag32Codec zigzag32RequiredCodec zigzag64Codec zigzag64RequiredCodec mem_kind conv].
Ltac leaf_mem v :=
  try (destruct (mem32 v) as [x|]; [|reflexivity]); try (destruct (mem64 v) as [x|]; [|reflexivity]);
  cbn [of_opt rbind option_map mem32 mem64]; rewrite ?s32_u32, ?s32_s32, ?s64_u64_s64; reflexivity.

Lemma conv_size w m v f : m <> Optional -> (const_size w = true -> m <> Required) ->
  l_size (static (SC w m)) v f =
  match conv (mem_kind w) v with Some v' => l_size (static (SC w m)) v' f | None => CR Confused end.
Proof.
  intros Hm Hc. leaf_cases w m; try (exfalso; apply Hc; reflexivity);
    cbv [sizeOfBool sizeOfString sizeOfStringRequired sizeOfFloat32 sizeOfFloat64 sizeOfInt32 sizeOfInt32Required sizeOfInt64
      sizeOfInt64Required sizeOfUint32 sizeOfUint32Required sizeOfUint64 sizeOfUint64Required sizeOfFixed32 sizeOfFixed64
      sizeOfZigzag32 sizeOfZigzag32Required sizeOfZigzag64 sizeOfZigzag64Required rd_i32 rd_i64 rd_u32 rd_u64 rd_f32 rd_f64].
  all: try (leaf_mem v; fail).
  all: destruct v as [| | | | | | | |[]| | |[]|[[]|]| |]; reflexivity.
Qed.
Lemma conv_encode w m b v f : m <> Optional ->
  l_encode (static (SC w m)) b v f =
  match conv (mem_kind w) v with Some v' => l_encode (static (SC w m)) b v' f | None => CR Confused end.
Proof.
  intros Hm. leaf_cases w m;
    cbv [encodeBool encodeBoolRequired encodeString encodeStringRequired encodeFloat32 encodeFloat32Required encodeFloat64
      encodeFloat64Required encodeInt32 encodeInt32Required encodeInt64 encodeInt64Required encodeUint32 encodeUint32Required
      encodeUint64 encodeUint64Required encodeFixed32 encodeFixed32Required encodeFixed64 encodeFixed64Required
      encodeZigzag32 encodeZigzag32Required encodeZigzag64 encodeZigzag64Required rd_i32 rd_i64 rd_u32 rd_u64 rd_f32 rd_f64].
  all: try (leaf_mem v; fail).
  all: destruct v as [| | | | | | | |[]| | |[]|[[]|]| |]; reflexivity.
Qed.

Lemma base_size w m H t a v S f n : m <> Optional -> rep H t a v S -> l_size (static (SC w m)) v f = OK n ->
  u_size_base w m H a f = OK n.
Proof.
  intros Hm R E. unfold u_size_base.
  assert (P : (const_size w = true -> m <> Required) -> (v0 <- of_opt (ld_k H (mem_kind w) a) ;; l_size (static (SC w m)) v0 f) = OK n).
  { intros Hc. rewrite conv_size in E by assumption. destruct (conv (mem_kind w) v) as [v'|] eqn:Ec; [|discriminate].
    rewrite (rep_conv _ _ _ _ _ _ _ R Ec). exact E. }
  destruct m; [apply P; discriminate| |contradiction].
  destruct (const_size w) eqn:Ec; [|apply P; congruence]. destruct w; try discriminate; exact E.
Qed.
Lemma base_encode w m H t a v S b f r : m <> Optional -> rep H t a v S -> l_encode (static (SC w m)) b v f = OK r ->
  u_encode_base w m H b a f = OK r.
Proof.
  intros Hm R E. unfold u_encode_base. rewrite conv_encode in E by assumption.
  destruct (conv (mem_kind w) v) as [v'|] eqn:Ec; [|discriminate].
  rewrite (rep_conv _ _ _ _ _ _ _ R Ec). exact E.
Qed.

(** The codec may be of another scalar type than the memory (map.go:80). *)
Definition reads (s : scid) (t : gotype) : Prop :=
  match s with
  | SC w Optional => t = TOption (mem_kind w)
  | _ => True
  end.
Lemma opt_leaf w : static (SC w Optional) = optionCodec (static (SC w Required)) (l_decode (static (SC w Normal))).
Proof. destruct w; reflexivity. Qed.
Lemma rep_opt_inv H k a v S : rep H (TOption k) a v S -> exists f x, v = VOpt f x /\
  ld_k H KBool a = Some (VBool f) /\ rep H (TScalar k) (shift a (opt_value k)) x S /\ holds H a [MB (if f then 1 else 0)%N].
Proof.
  intros R. inversion R; subst. exists f, x. split; [reflexivity|]. split; [|split; assumption].
  cbn [ld_k]. unfold ld_n. match goal with K : holds _ a _ |- _ => unfold holds in K; cbn [length] in K; rewrite K end.
  destruct f; reflexivity.
Qed.
Lemma leaf_size s H t a v S f n : reads s t -> rep H t a v S -> l_size (static s) v f = OK n -> u_size s H a f = OK n.
Proof.
  destruct s as [w m|].
  - destruct m; cbn [reads u_size].
    + intros _. apply base_size. discriminate.
    + intros _. apply base_size. discriminate.
    + intros -> R. apply rep_opt_inv in R as (fl & x & -> & -> & R & _). rewrite opt_leaf.
      cbn [l_size optionCodec]. unfold sizeOption. cbn [rd_opt rbind fst snd of_opt].
      destruct fl; [|intros E; exact E]. intros E. eapply base_size; [discriminate|exact R|exact E].
  - intros _ R E. cbn [u_size static bytesCodec l_size] in *. unfold sizeOfBytes in E.
    destruct v; try discriminate. inversion R; subst; try (cbn [k_cells] in *; discriminate);
      erewrite rep_ld_bytes by eassumption; exact E.
Qed.
Lemma leaf_encode s H t a v S b f r : reads s t -> rep H t a v S -> l_encode (static s) b v f = OK r -> u_encode s H b a f = OK r.
Proof.
  destruct s as [w m|].
  - destruct m; cbn [reads u_encode].
    + intros _. apply base_encode. discriminate.
    + intros _. apply base_encode. discriminate.
    + intros -> R. apply rep_opt_inv in R as (fl & x & -> & -> & R & _). rewrite opt_leaf.
      cbn [l_encode optionCodec]. unfold encodeOption. cbn [rd_opt rbind fst snd of_opt].
      destruct fl; [|intros E; exact E]. intros E. eapply base_encode; [discriminate|exact R|exact E].
  - intros _ R E. cbn [u_encode static bytesCodec l_encode] in *. unfold encodeBytes in E.
    destruct v; try discriminate. inversion R; subst; try (cbn [k_cells] in *; discriminate);
      erewrite rep_ld_bytes by eassumption; exact E.
Qed.
End Load.

(** ** Stores *)
Notation rep := (rep D other true).

Lemma st_rep H k a v' : wt D v' (TScalar k) = true -> (exists l, load H a (kind_size k) = Some l) ->
  exists H', st_k H a v' = Some H' /\ rep H' (TScalar k) a v' none /\ touch (range a (kind_size k)) H H'.
Proof.
  intros W L.
  assert (Num : forall cs, k_cells v' = Some cs ->
    exists H', store H a cs = Some H' /\ rep H' (TScalar k) a v' none /\ touch (range a (kind_size k)) H H').
  { intros cs E. rewrite <- (k_cells_length _ _ _ _ W E) in *.
    destruct (store_spec cs H a L) as (H' & Es & T & _ & K). exists H'. split; [exact Es|]. split; [|exact T].
    eapply rep_num; eassumption. }
  destruct v' as [| | | | | | |s|[]| | |[]|[[]|]| |], k; try discriminate W; cbn [st_k k_cells];
    try (apply Num; reflexivity).
  cbn [wt] in W. cbn [kind_size] in *. destruct s as [|c s].
  - destruct (store_spec (str_hdr None 0) H a L) as (H' & Es & T & _ & K). exists H'. split; [exact Es|]. split; [|exact T].
    eapply rep_str; [reflexivity|constructor|exact K].
  - cbn [alloc]. set (H1 := H ++ [OStr (c :: s)]). set (n := length (c :: s)).
    assert (T1 : touch (range a 16) H H1) by apply alloc_touch.
    destruct (store_spec (str_hdr (Some (length H, 0)) n) H1 a) as (H' & Es & T & _ & K).
    { rewrite str_hdr_length. destruct L as [l L]. eapply extends_load; [apply (touch_ext _ _ _ T1)|exact L]. }
    rewrite str_hdr_length in T.
    exists H'. split; [exact Es|]. split.
    + eapply rep_str; [exact W| |exact K].
      assert (X : nth_error H' (length H) = Some (OStr (c :: s))).
      { apply touch_ext in T. specialize (T (length H)). unfold H1 in T. rewrite alloc_nth in T. exact T. }
      pose proof (text_some H' (length H) 0 (c :: s) n X (Nat.le_refl _)) as P.
      cbn [skipn] in P. unfold n in P. rewrite firstn_all in P. exact P.
    + eapply touch_trans; [exact T1|exact T|]. intros b o Hb. left. exact Hb.
Qed.

Lemma decode_any w b v k n e v' : wt D v (TScalar k) = true -> k = mem_kind w ->
  l_decode (static (SC w Normal)) b v = DRet v' n e -> match w, b with WBool, [] => v' = v /\ n = 0%Z /\ e = Some ErrUnexpectedEOF | _, _ => l_decode (static (SC w Normal)) b (zero_k k) = DRet v' n e end.
Proof.
  intros W -> E. destruct w, v as [| | | | | | |s|[]| | |[]|[[]|]| |]; try discriminate W; cbn [mem_kind zero_k] in *;
    try exact E.
  destruct b; cbn in E |- *; [inversion E; auto|exact E].
Qed.
Lemma base_decode w H b a v n e v' : rep H (TScalar (mem_kind w)) a v none -> bytes_okb b = true -> small b ->
  l_decode (static (SC w Normal)) b v = DRet v' n e ->
  exists H', u_decode_base w H b a = DRet H' n e /\ rep H' (TScalar (mem_kind w)) a v' none /\
    touch (range a (kind_size (mem_kind w))) H H'.
Proof.
  intros R B Sm E.
  assert (W : wt D v (TScalar (mem_kind w)) = true) by (inversion R; subst; assumption).
  assert (W' : wt D v' (TScalar (mem_kind w)) = true).
  { destruct (static_dec_ok D (SC w Normal) (TScalar (mem_kind w)) b v) as (v2 & n2 & e2 & E2 & W2); try assumption.
    - cbn [static_fits]. apply gotype_eqb_eq. destruct w; reflexivity.
    - rewrite E in E2. inversion E2; subst. exact W2. }
  pose proof (decode_any w b v (mem_kind w) n e v' W eq_refl E) as Q.
  assert (P : l_decode (static (SC w Normal)) b (zero_k (mem_kind w)) = DRet v' n e -> exists H',
    match l_decode (static (SC w Normal)) b (zero_k (mem_kind w)) with
    | DRet v n e => dopt (st_k H a v) n e | DCrash c => DCrash c | DFuel => DFuel end = DRet H' n e /\
    rep H' (TScalar (mem_kind w)) a v' none /\ touch (range a (kind_size (mem_kind w))) H H').
  { intros ->. destruct (st_rep H (mem_kind w) a v' W') as (H' & -> & R' & T).
    - apply rep_load in R. exact R.
    - exists H'. split; [reflexivity|]. split; assumption. }
  unfold u_decode_base. destruct w; try (apply P; exact Q). destruct b as [|c b]; [|apply P; exact Q].
  destruct Q as (-> & -> & ->). exists H. split; [reflexivity|]. split; [exact R|apply touch_refl].
Qed.
Lemma req_decode w b v : l_decode (static (SC w Required)) b v = l_decode (static (SC w Normal)) b v.
Proof. destruct w; reflexivity. Qed.
Lemma scalar_none H k a v S : rep H (TScalar k) a v S -> S = none.
Proof. intros R. inversion R; subst; reflexivity. Qed.

Lemma skipn_app_len {A} (l m : list A) : skipn (length l) (l ++ m) = m.
Proof. rewrite skipn_app, skipn_all, Nat.sub_diag. reflexivity. Qed.
(** After writing the start of an array, it holds the new bytes and some more. *)

Lemma zeros_bytes n : Forall is_byte (zeros n).
Proof. apply Forall_forall. intros c I. apply repeat_spec in I as ->. exists 0%N. split; reflexivity. Qed.
Lemma bytes_are d : bytes_okb d = true -> Forall is_byte (map MB d).
Proof.
  intros B. apply Forall_forall. intros c I. apply in_map_iff in I as (n & <- & I). exists n. split; [|reflexivity].
  unfold bytes_okb in B. rewrite forallb_forall in B. apply N.ltb_lt, B, I.
Qed.
Lemma Forall_skipn' {A} (P : A -> Prop) n : forall l, Forall P l -> Forall P (skipn n l).
Proof. induction n as [|n IH]; [auto|]. intros [|x l] F; [constructor|]. cbn. apply IH. inversion F; assumption. Qed.

Variable grow : nat -> nat.
Lemma bytes_decode H b a v S n e v' : rep H TBytes a v S -> disjoint (range a 24) S -> bytes_okb b = true -> small b ->
  l_decode (static SCBytes) b v = DRet v' n e ->
  exists H' S', u_decode_bytes grow H b a = DRet H' n e /\ rep H' TBytes a v' S' /\ disjoint (range a 24) S' /\
    subset S' (union S (unborn H)) /\ touch (union (range a 24) S) H H'.
Proof.
  intros R Dj B Sm E. cbn [static bytesCodec l_decode] in E. unfold decodeBytes in E. unfold u_decode_bytes.
  destruct (decodeVarlen_ok b Sm B) as (y & n0 & e0 & Ev & Hy). rewrite Ev in *.
  set (d := match y with Some d => d | None => [] end) in *.
  assert (exists o, v = VBytes o) as [o ->] by (inversion R; subst; eauto; cbn [k_cells] in *; discriminate).
  inversion E; subst v' n0 e0. clear E Ev.
  pose proof (rep_load _ _ _ _ _ _ _ _ R) as [la La]. cbn [tsize] in La.
  assert (Ra : subset (range a 24) (born H)) by (eapply range_born; exact La).
  (* a new array *)
  assert (New : forall r cs, cs = map MB d ++ r -> Forall is_byte r -> exists H' S',
    dopt (store (H ++ [OMem cs]) a (hdr (Some (length H, 0)) (length d) (length d + length r))) n e = DRet H' n e /\
    rep H' TBytes a (VBytes (Some d)) S' /\ disjoint (range a 24) S' /\
    subset S' (union S (unborn H)) /\ touch (union (range a 24) S) H H').
  { intros r cs -> Fr. set (H1 := H ++ [OMem (map MB d ++ r)]).
    assert (T1 : touch (union (range a 24) S) H H1) by apply alloc_touch.
    destruct (store_spec (hdr (Some (length H, 0)) (length d) (length d + length r)) H1 a) as (H2 & -> & T2 & _ & K2).
    { rewrite hdr_length. eapply extends_load; [apply (touch_ext _ _ _ T1)|exact La]. }
    rewrite hdr_length in T2.
    assert (Nx : subset (range (length H, 0) (length d + length r)) (unborn H)).
    { intros b0 o0 [-> _]. unfold unborn. cbn. lia. }
    exists H2. eexists. split; [reflexivity|]. split; [|split; [|split]].
    - eapply rep_bytes; [exact Hy|exact K2| |exact Fr]. eapply holds_move; [apply alloc_holds|].
      eapply same_load with (S := range (length H, 0) (length d + length r)).
      + eapply touch_same; [exact T2| |].
        * intros b0 o0 [-> _]. unfold born, H1. rewrite app_length. cbn. lia.
        * apply disjoint_sym. eapply disjoint_sub; [apply born_unborn; exact Ra|apply subset_refl|exact Nx].
      + rewrite app_length, map_length. apply subset_refl.
    - eapply disjoint_sub; [apply born_unborn; exact Ra|apply subset_refl|exact Nx].
    - intros b0 o0 Hb. right. apply Nx, Hb.
    - eapply touch_trans; [exact T1|exact T2|]. intros b0 o0 Hb. left. left. exact Hb. }
  (* an existing array *)
  assert (Old : forall H0 p c l0, extends H H0 -> load H0 p c = Some l0 -> length d <= c -> Forall is_byte (skipn (length d) l0) ->
    disjoint (range a 24) (range p c) ->
    exists H', match store H0 p (map MB d) with
               | Some H2 => dopt (store H2 a (hdr (Some p) (length d) c)) n e
               | None => DCrash Confused end = DRet H' n e /\
    rep H' TBytes a (VBytes (Some d)) (range p c) /\ touch (union (range a 24) (range p c)) H0 H').
  { intros H0 p c l0 X L0 Le Fl Dp.
    destruct (store_spec (map MB d) H0 p) as (H2 & -> & T2 & _ & K2).
    { rewrite map_length. pose proof (load_part _ _ _ _ 0 (length d) L0 ltac:(lia)) as P. rewrite shift_0 in P. eauto. }
    rewrite map_length in T2.
    destruct (store_spec (hdr (Some p) (length d) c) H2 a) as (H3 & -> & T3 & _ & K3).
    { rewrite hdr_length. eapply extends_load; [|exact La]. eapply extends_trans; [exact X|apply (touch_ext _ _ _ T2)]. }
    rewrite hdr_length in T3.
    assert (T : touch (union (range a 24) (range p c)) H0 H3).
    { eapply touch_trans; [eapply touch_weaken; [exact T2|]|exact T3|].
      - intros b0 o0 [-> ?]. left. right. split; [reflexivity|lia].
      - intros b0 o0 Hb. left. left. exact Hb. }
    exists H3. split; [reflexivity|]. split; [|exact T].
    destruct (extends_load _ _ _ _ _ (touch_ext _ _ _ T) L0) as [l3 L3].
    assert (Kd : holds H3 p (map MB d)).
    { eapply holds_move; [exact K2|]. rewrite map_length. eapply same_load with (S := range p (length d)); [|apply subset_refl].
      eapply touch_same; [exact T3| |].
      - destruct (extends_load _ _ _ _ _ (touch_ext _ _ _ T2) L0) as [l2 L2].
        eapply subset_trans; [|eapply range_born; exact L2]. intros b0 o0 [-> ?]. split; [reflexivity|lia].
      - apply disjoint_sym. eapply disjoint_sub; [exact Dp|apply subset_refl|]. intros b0 o0 [-> ?]. split; [reflexivity|lia]. }
    pose proof (load_length _ _ _ _ L0) as Ll0. set (r := skipn (length d) l0) in *.
    assert (Lr : length r = c - length d) by (unfold r; rewrite skipn_length; lia).
    assert (Kr : holds H3 p (map MB d ++ r)).
    { apply holds_app. split; [exact Kd|]. rewrite map_length. unfold holds. rewrite Lr.
      pose proof (load_part _ _ _ _ (length d) (c - length d) L0 ltac:(lia)) as P0. fold r in P0. rewrite firstn_all2 in P0 by lia.
      assert (S0 : subset (range (shift p (length d)) (c - length d)) (born H0)).
      { eapply range_born; exact P0. }
      assert (P2 : load H2 (shift p (length d)) (c - length d) = Some r).
      { rewrite <- P0. eapply same_load; [|apply subset_refl]. eapply touch_same; [exact T2|exact S0|].
        destruct p as [x0 o0]. intros b0 o1 [-> Q1] [_ Q2]. cbn [shift fst snd] in *. lia. }
      rewrite <- P2. eapply same_load; [|apply subset_refl]. eapply touch_same; [exact T3|eapply range_born; exact P2|].
      apply disjoint_sym. eapply disjoint_sub; [exact Dp|apply subset_refl|].
      destruct p as [x0 o0]. intros b0 o1 [-> Q1]. cbn [shift fst snd] in *. split; [reflexivity|]. cbn [snd]. lia. }
    clearbody r. replace c with (length d + length r) in * by lia.
    eapply rep_bytes; [exact Hy|exact K3|exact Kr|exact Fl]. }
  inversion R; subst.
  - match goal with K : holds _ a _ |- _ => apply holds_hdr in K as (-> & _ & ->) end. cbn [alloc].
    rewrite Nat.leb_refl.
    set (H0 := H ++ [OMem (zeros (length d))]).
    assert (X : touch (union (range a 24) none) H H0) by apply alloc_touch.
    assert (Nx : subset (range (length H, 0) (length d)) (unborn H)).
    { intros b0 o0 [-> _]. unfold unborn. cbn. lia. }
    assert (K0 : holds H0 (length H, 0) (zeros (length d))) by apply alloc_holds.
    apply holds_load in K0. unfold zeros in K0 at 1. rewrite repeat_length in K0.
    destruct (Old H0 (length H, 0) (length d) _ (touch_ext _ _ _ X) K0 (Nat.le_refl _)) as (H' & -> & R' & T).
    { rewrite skipn_all2; [constructor|]. unfold zeros. rewrite repeat_length. lia. }
    { eapply disjoint_sub; [apply born_unborn; exact Ra|apply subset_refl|exact Nx]. }
    exists H'. eexists. split; [reflexivity|]. split; [exact R'|]. split; [|split].
    + eapply disjoint_sub; [apply born_unborn; exact Ra|apply subset_refl|exact Nx].
    + intros b0 o0 Hb. right. apply Nx, Hb.
    + eapply touch_trans; [exact X|exact T|]. intros b0 o0 [Hb|Hb]; [left; left; exact Hb|right; apply Nx, Hb].
  - match goal with K : holds _ a _ |- _ => apply holds_hdr in K as (-> & _ & ->) end.
    match goal with K : holds _ p (map MB ?d1 ++ ?r1) |- _ => set (dd := d1) in *; set (rr := r1) in *;
      apply holds_load in K as L0; rewrite app_length, map_length in L0 end.
    assert (Fa : Forall is_byte (skipn (length d) (map MB dd ++ rr))).
    { apply Forall_skipn', Forall_app. split; [apply bytes_are; assumption|assumption]. }
    destruct (length d <=? length dd + length rr) eqn:Ele.
    + destruct (Old H p _ _ (extends_refl H) L0 ltac:(lia) ltac:(assumption) Dj) as (H' & -> & R' & T).
      exists H'. eexists. split; [reflexivity|]. split; [exact R'|]. split; [exact Dj|]. split; [|exact T].
      intros b0 o0 Hb. left. exact Hb.
    + cbn [alloc]. destruct (New (zeros (grow (length d))) _ eq_refl (zeros_bytes _)) as (H' & S' & E' & P).
      unfold zeros in E' at 2. rewrite repeat_length in E'. exists H', S'. split; [exact E'|exact P].
Qed.

Lemma leaf_decode s t H b a v S n e v' : static_fits s t = true -> rep H t a v S -> disjoint (range a (tsize t)) S ->
  bytes_okb b = true -> small b -> l_decode (static s) b v = DRet v' n e ->
  exists H' S', u_decode grow s H b a = DRet H' n e /\ rep H' t a v' S' /\ disjoint (range a (tsize t)) S' /\
    subset S' (union S (unborn H)) /\ touch (union (range a (tsize t)) S) H H'.
Proof.
  intros Hf R Dj B Sm E.
  assert (Base : forall w m, m <> Optional -> s = SC w m -> exists H' S', u_decode_base w H b a = DRet H' n e /\
    rep H' t a v' S' /\ disjoint (range a (tsize t)) S' /\ subset S' (union S (unborn H)) /\ touch (union (range a (tsize t)) S) H H').
  { intros w m Hm ->. assert (t = TScalar (mem_kind w)) as ->.
    { destruct m; cbn [static_fits] in Hf; try contradiction; apply gotype_eqb_eq in Hf; subst; destruct w; reflexivity. }
    pose proof (scalar_none _ _ _ _ _ R) as ->.
    assert (E' : l_decode (static (SC w Normal)) b v = DRet v' n e).
    { destruct m; [exact E|rewrite <- req_decode; exact E|contradiction]. }
    destruct (base_decode w H b a v n e v' R B Sm E') as (H' & -> & R' & T).
    exists H', none. split; [reflexivity|]. split; [exact R'|]. split; [apply disjoint_none_r|]. split; [intros b0 o0 []|].
    eapply touch_weaken; [exact T|]. intros b0 o0 Hb. left. left. exact Hb. }
  destruct s as [w m|]; [destruct m|].
  - apply (Base w Normal); [discriminate|reflexivity].
  - apply (Base w Required); [discriminate|reflexivity].
  - clear Base. cbn [static_fits u_decode] in *. apply gotype_eqb_eq in Hf.
    assert (t = TOption (mem_kind w)) as -> by (rewrite Hf; destruct w; reflexivity). clear Hf.
    pose proof (rep_load _ _ _ _ _ _ _ _ R) as [l L].
    apply rep_opt_inv in R as (f & x & -> & _ & R & K). rewrite opt_leaf in E. cbn [l_decode optionCodec decodeOption] in E.
    pose proof (scalar_none _ _ _ _ _ R) as ->.
    destruct (l_decode (static (SC w Normal)) b x) as [x' n' e'|c|] eqn:Ed; try discriminate. cbn [dmap] in E. inversion E; subst; clear E.
    destruct (store_spec [MB 1] H a) as (H1 & -> & T1 & _ & K1).
    { apply holds_load in K. cbn [length] in *. eauto. }
    cbn [length] in T1.
    pose proof (opt_value_pos (mem_kind w)). pose proof (opt_size (mem_kind w)) as Os.
    assert (R1 : rep H1 (TScalar (mem_kind w)) (shift a (opt_value (mem_kind w))) x none).
    { eapply rep_frame; [exact R|apply (touch_ext _ _ _ T1)|]. eapply touch_same; [exact T1| |].
      - apply subset_union; [eapply rep_range; exact R|intros b0 o0 []].
      - intros b0 o0 [[_ ?]|[]] [_ ?]. cbn [shift fst snd] in *. lia. }
    destruct (base_decode w H1 b _ x n e x' R1 B Sm Ed) as (H2 & -> & R2 & T2).
    exists H2, none. split; [reflexivity|]. split; [|split; [apply disjoint_none_r|split; [intros b0 o0 []|]]].
    + eapply rep_opt; [|exact R2]. eapply holds_move; [exact K1|]. eapply same_load; [|apply subset_refl].
      eapply touch_same; [exact T2| |].
      * eapply range_born. apply holds_load. exact K1.
      * intros b0 o0 [_ ?] [_ ?]. cbn [shift fst snd length] in *. lia.
    + rewrite Os. eapply touch_trans; [eapply touch_weaken; [exact T1|]|exact T2|].
      * intros b0 o0 [-> ?]. left. left. split; [reflexivity|lia].
      * intros b0 o0 [-> ?]. cbn [shift fst snd] in *. left. left. split; [reflexivity|lia].
  - cbn [static_fits u_decode] in *. apply gotype_eqb_eq in Hf. subst t. eapply bytes_decode; eassumption.
Qed.
End Leaf.
