(** The decoder of a schema's codecs against [merge_lib] and [merge]. *)
From Coq Require Import ZifyBool ZifyNat ZifyN.
From Verif Require Import Base Wire GoType Leaf Codec Tag Walker Resolve Typing SpecWire SpecTag SpecMsg SpecLib
  WireFacts DecodeFacts GenFacts TypingFacts TagFacts EncFacts MsgResolve MsgEnc.
Local Open Scope Z_scope.
Ltac Zify.zify_post_hook ::= Z.div_mod_to_equations.

(** ** Payloads *)
Lemma read_payload_len w r :
  match payload_len w r with
  | inl n => exists p, read_payload w r = Some (p, skipn n r) /\ (n <= length r)%nat
  | inr _ => read_payload w r = None
  end.
Proof.
  destruct (payload_len w r) as [n|e] eqn:E.
  - apply payload_len_ok in E as L. unfold payload_len, read_payload, wt_varint, wt_varlen, wt_fixed32, wt_fixed64 in *.
    destruct (w =? 0)%N eqn:E0.
    { destruct (read_varint r) as [v k r'| |] eqn:Er; try discriminate. inversion E; subst.
      apply read_varint_ok in Er. destruct Er as (_ & _ & <- & _). eauto. }
    destruct (w =? 1)%N eqn:E1.
    { replace (w =? 2)%N with false in E by lia. replace (w =? 5)%N with false in E by lia.
      destruct (Nat.ltb_spec (length r) 8); [discriminate|]. inversion E; subst.
      destruct (Nat.leb_spec 8 (length r)); [|lia]. eauto. }
    destruct (w =? 2)%N eqn:E2.
    { destruct (read_varint r) as [v k r'| |] eqn:Er; try discriminate.
      destruct (N.ltb_spec (N.of_nat (length r')) v); [discriminate|]. inversion E; subst.
      destruct (N.leb_spec v (N.of_nat (length r'))); [|lia].
      apply read_varint_ok in Er. destruct Er as (_ & _ & <- & _). rewrite skipn_skipn'. eauto. }
    destruct (w =? 5)%N eqn:E5; [|discriminate].
    destruct (Nat.ltb_spec (length r) 4); [discriminate|]. inversion E; subst.
    destruct (Nat.leb_spec 4 (length r)); [|lia]. eauto.
  - unfold payload_len, read_payload, wt_varint, wt_varlen, wt_fixed32, wt_fixed64 in *.
    destruct (w =? 0)%N eqn:E0; [destruct (read_varint r); congruence|].
    destruct (w =? 1)%N eqn:E1.
    { replace (w =? 2)%N with false in E by lia. replace (w =? 5)%N with false in E by lia.
      destruct (Nat.ltb_spec (length r) 8); [|discriminate]. destruct (Nat.leb_spec 8 (length r)); [lia|reflexivity]. }
    destruct (w =? 2)%N eqn:E2.
    { destruct (read_varint r) as [v k r'| |] eqn:Er; try reflexivity.
      destruct (N.ltb_spec (N.of_nat (length r')) v); [|discriminate]. destruct (N.leb_spec v (N.of_nat (length r'))); [lia|reflexivity]. }
    destruct (w =? 5)%N eqn:E5; [|reflexivity].
    destruct (Nat.ltb_spec (length r) 4); [|discriminate]. destruct (Nat.leb_spec 4 (length r)); [lia|reflexivity].
Qed.

Lemma vgroup_self b g r : vgroup b = Some (g, r) -> vgroup g = Some (g, []).
Proof.
  revert g r. induction b as [|c b IH]; intros g r; cbn [vgroup]; [discriminate|].
  destruct (c <? 128)%N eqn:E; [intros H; inversion H; cbn; rewrite E; reflexivity|].
  destruct (vgroup b) as [[g' r']|]; [|discriminate]. intros H; inversion H; subst.
  cbn [vgroup]. rewrite E, (IH _ _ eq_refl). reflexivity.
Qed.
(** A varint read from a prefix that contains it. *)
Lemma read_varint_firstn r v k r' n : read_varint r = VOk v k r' -> (k <= n)%nat ->
  read_varint (firstn n r) = VOk v k (firstn (n - k) r').
Proof.
  unfold read_varint. destruct (vgroup r) as [[g s]|] eqn:E; [|discriminate].
  destruct (_ || _)%bool eqn:B; [discriminate|]. intros H Hn; inversion H; subst.
  apply vgroup_self in E as V. apply vgroup_length in E. destruct E as [-> _].
  rewrite firstn_app, firstn_all2 by exact Hn. rewrite (vgroup_app _ _ _ _ V), B. reflexivity.
Qed.

(** ** Scalars *)
Lemma signed_32 u : (u < 2^64)%N -> s32 (s64 u) = signed 32 u.
Proof.
  intros H. change (2^64)%N with 18446744073709551616%N in H. unfold signed. change (2^32)%N with 4294967296%N. change (2^(32-1))%N with 2147483648%N.
  unfold s32, s64, Z31, Z32, Z63, Z64.
  destruct (_ <? 9223372036854775808) eqn:E1; destruct (_ <? 2147483648) eqn:E2; destruct (_ <? 2147483648)%N eqn:E3; lia.
Qed.
Lemma signed_64 u : (u < 2^64)%N -> s64 u = signed 64 u.
Proof.
  intros H. change (2^64)%N with 18446744073709551616%N in H. unfold signed. change (2^64)%N with 18446744073709551616%N. change (2^(64-1))%N with 9223372036854775808%N.
  unfold s64, Z63, Z64. destruct (_ <? 9223372036854775808) eqn:E1; destruct (_ <? 9223372036854775808)%N eqn:E3; lia.
Qed.
Lemma mod_32 u : u32 (Z.of_N u) = (u mod 2^32)%N.
Proof. unfold u32, Z32. change (2^32)%N with 4294967296%N. lia. Qed.
Lemma signed_range z : - Z31 <= as_signed (Z.to_N (z mod 2^32)) < Z31 /\ s32 z = as_signed (Z.to_N (z mod 2^32)).
Proof.
  unfold as_signed, s32, Z31, Z32. change (2^32) with 4294967296. change (2^31)%N with 2147483648%N.
  destruct (_ <? _) eqn:E1; destruct (_ <? _)%N eqn:E2; lia.
Qed.
Lemma zz_low z : - Z31 <= z < Z31 -> (zigzag z < 2^32)%N.
Proof. intros H. unfold zigzag, Z31 in *. change (2^32)%N with 4294967296%N. destruct (Z.ltb_spec z 0); lia. Qed.
Lemma zz_unzz z : - Z31 <= z < Z31 -> unzigzag (zigzag z) = z.
Proof.
  intros H. unfold unzigzag, zigzag, Z31 in *. destruct (Z.ltb_spec z 0).
  - replace (N.even (Z.to_N (-2 * z - 1))) with false; [lia|]. symmetry. apply not_true_iff_false. intros E.
    apply N.even_spec in E. destruct E as [m E]. lia.
  - replace (N.even (Z.to_N (2 * z))) with true; [lia|]. symmetry. apply N.even_spec. exists (Z.to_N z). lia.
Qed.
Lemma zz_32 u : (u < 2^64)%N -> s32 (decodeZigZag64 u) = unzigzag (zigzag (as_signed (Z.to_N (unzigzag u mod 2^32))) mod 2^32).
Proof.
  intros H. rewrite decodeZigZag64_spec by exact H. destruct (signed_range (unzigzag u)) as [R ->].
  rewrite N.mod_small by (apply zz_low, R). rewrite zz_unzz by exact R. reflexivity.
Qed.
Lemma zz_same u : (u < 2^32)%N -> zigzag (as_signed (Z.to_N (unzigzag u mod 2^32))) = u.
Proof.
  intros H. change (2^32)%N with 4294967296%N in H.
  assert (R : - Z31 <= unzigzag u < Z31) by (unfold unzigzag, Z31; destruct (N.even u); lia).
  destruct (signed_range (unzigzag u)) as [_ E]. rewrite <- E, s32_id by exact R.
  unfold zigzag, unzigzag. destruct (N.even u) eqn:Ev.
  - apply N.even_spec in Ev. destruct Ev as [m ->]. destruct (Z.ltb_spec (Z.of_N (2 * m / 2)) 0); lia.
  - assert (O : N.odd u = true) by (rewrite <- N.negb_even, Ev; reflexivity). apply N.odd_spec in O. destruct O as [m ->].
    destruct (Z.ltb_spec (- Z.of_N ((2 * m + 1) / 2) - 1) 0); lia.
Qed.

Definition plain_scalar (s : sty) (p : payload) (len : nat) : bool :=
  match s, p with
  | Y_bool, _ => Nat.eqb len 1
  | Y_sint32, PVar n => (n <? 2^32)%N
  | _, _ => true
  end.
(** How many bytes of a payload of [len] bytes a codec takes. *)
Definition takes (s : sty) (len : nat) : nat := match s with Y_bool => 1 | _ => len end.
Definition static_mode (m : mode) : bool := match m with Optional => false | _ => true end.

Lemma len_payload r n p r' : payload_len 2 r = inl n -> read_payload 2 r = Some (p, r') ->
  exists d k, p = PLen d /\ read_varint (firstn n r) = VOk (N.of_nat (length d)) k d /\ n = (k + length d)%nat /\ (1 <= k)%nat.
Proof.
  change (payload_len 2 r) with (match read_varint r with
    | VOk l n r' => if (N.of_nat (length r') <? l)%N then @inr nat err ErrUnexpectedEOF else inl (n + N.to_nat l)%nat
    | VEof => inr ErrUnexpectedEOF | VOverflow _ => inr ErrVarintOverflow end).
  change (read_payload 2 r) with (match read_varint r with
    | VOk l _ r => if (l <=? N.of_nat (length r))%N then Some (PLen (firstn (N.to_nat l) r), skipn (N.to_nat l) r) else None
    | _ => None end).
  destruct (read_varint r) as [l k r2| |] eqn:E; try discriminate.
  destruct (N.ltb_spec (N.of_nat (length r2)) l); [discriminate|]. intros Hn Hp. inversion Hn; subst n.
  destruct (N.leb_spec l (N.of_nat (length r2))); [|lia]. inversion Hp; subst p r'.
  exists (firstn (N.to_nat l) r2), k. split; [reflexivity|].
  rewrite (read_varint_firstn _ _ _ _ (k + N.to_nat l) E) by lia.
  replace (k + N.to_nat l - k)%nat with (N.to_nat l) by lia. rewrite firstn_length_le by lia. rewrite N2Nat.id.
  apply read_varint_ok in E. repeat split; lia.
Qed.
Lemma varlen_dec r n p r' : small r -> payload_len 2 r = inl n -> read_payload 2 r = Some (p, r') ->
  exists d, p = PLen d /\ decodeVarlen (firstn n r) = OK (Some d, Z.of_nat n, None) /\ (1 <= n)%nat.
Proof.
  intros Hs Hl Hp. destruct (len_payload _ _ _ _ Hl Hp) as (d & k & -> & E & -> & Hk). exists d. split; [reflexivity|].
  pose proof (decodeVarlen_spec (firstn (k + length d) r) (small_firstn _ _ Hs)) as S. rewrite E in S.
  destruct (N.ltb_spec (N.of_nat (length d)) (N.of_nat (length d))); [lia|]. rewrite S.
  split; [|lia]. rewrite firstn_all2 by lia. do 3 f_equal. lia.
Qed.

Lemma scalar_lib D s m r n p r' v : not_sfixed s = true -> static_mode m = true -> small r ->
  wt D v (TScalar (go_kind s)) = true ->
  payload_len (wire_sty s) r = inl n -> read_payload (wire_sty s) r = Some (p, r') ->
  exists v', read_scalar s (seen_as s r p) = Some v' /\ l_decode (static (SC (wk_of s) m)) (firstn n r) v = DRet v' (Z.of_nat (takes s n)) None.
Proof.
  intros Hs Hm Hsm Hw Hl Hp.
  assert (Var : wire_sty s = 0%N -> exists u, p = PVar u /\ (u < 2^64)%N /\ decodeVarint (firstn n r) = (u, Z.of_nat n, None)).
  { intros W. rewrite W in *.
    change (payload_len 0 r) with (match read_varint r with VOk _ n _ => inl n | VEof => @inr nat err ErrUnexpectedEOF | VOverflow _ => inr ErrVarintOverflow end) in Hl.
    change (read_payload 0 r) with (match read_varint r with VOk v _ r => Some (PVar v, r) | _ => None end) in Hp.
    destruct (read_varint r) as [u k r2| |] eqn:E; try discriminate. inversion Hl; inversion Hp; subst.
    exists u. split; [reflexivity|]. split; [apply read_varint_ok in E; apply E|].
    pose proof (decodeVarint_spec (firstn n r)) as S. rewrite (read_varint_firstn _ _ _ _ n E (le_n n)) in S. exact S. }
  assert (F32 : wire_sty s = 5%N -> p = PFix32 (le_value (firstn 4 r)) /\ n = 4%nat /\ decodeLE32 (firstn n r) = (le_value (firstn 4 r), 4, None)).
  { intros W. rewrite W in *.
    change (payload_len 5 r) with (if (length r <? 4)%nat then @inr nat err ErrUnexpectedEOF else inl 4%nat) in Hl.
    change (read_payload 5 r) with (if (4 <=? length r)%nat then Some (PFix32 (le_value (firstn 4 r)), skipn 4 r) else None) in Hp.
    destruct (Nat.ltb_spec (length r) 4); [discriminate|]. assert (n = 4%nat) by congruence. subst n.
    destruct (Nat.leb_spec 4 (length r)); [|lia]. split; [congruence|].
    split; [reflexivity|]. rewrite decodeLE32_spec, firstn_length_le, firstn_firstn by lia. reflexivity. }
  assert (F64 : wire_sty s = 1%N -> p = PFix64 (le_value (firstn 8 r)) /\ n = 8%nat /\ decodeLE64 (firstn n r) = (le_value (firstn 8 r), 8, None)).
  { intros W. rewrite W in *.
    change (payload_len 1 r) with (if (length r <? 8)%nat then @inr nat err ErrUnexpectedEOF else inl 8%nat) in Hl.
    change (read_payload 1 r) with (if (8 <=? length r)%nat then Some (PFix64 (le_value (firstn 8 r)), skipn 8 r) else None) in Hp.
    destruct (Nat.ltb_spec (length r) 8); [discriminate|]. assert (n = 8%nat) by congruence. subst n.
    destruct (Nat.leb_spec 8 (length r)); [|lia]. split; [congruence|].
    split; [reflexivity|]. rewrite decodeLE64_spec, firstn_length_le, firstn_firstn by lia. reflexivity. }
  destruct (match s with Y_bool | Y_string => true | _ => false end) eqn:Eb.
  { destruct s; try discriminate Eb; cbn [go_kind wire_sty] in *; wtd v.
    - destruct (Var eq_refl) as (u & -> & Hu & Hd). apply payload_len_ok in Hl.
      assert (Hn : (1 <= n)%nat).
      { destruct n; [|lia]. cbn [firstn] in Hd. discriminate Hd. }
      destruct r as [|c r]; [cbn [length] in Hl; lia|]. destruct n as [|n]; [lia|]. cbn [firstn seen_as hd read_scalar takes].
      eexists. split; [reflexivity|]. destruct m; try discriminate Hm; reflexivity.
    - destruct (varlen_dec _ _ _ _ Hsm Hl Hp) as (d & -> & Hd & Hn). eexists. split; [reflexivity|].
      destruct m; try discriminate Hm; cbn [wk_of static l_decode stringCodec stringRequiredCodec]; unfold decodeString; rewrite Hd.
      all: destruct (Z.eqb_spec (Z.of_nat n) 0); [lia|reflexivity]. }
  destruct s; try discriminate Hs; try discriminate Eb; cbn [go_kind wire_sty] in *;
    try (destruct (Var eq_refl) as (u & -> & Hu & Hd)); try (destruct (F32 eq_refl) as (-> & -> & Hd)); try (destruct (F64 eq_refl) as (-> & -> & Hd));
    wtd v; clear Var F32 F64; cbn [read_scalar seen_as takes]; destruct m; try discriminate Hm; cbn [wk_of static l_decode boolCodec boolRequiredCodec
      stringCodec stringRequiredCodec float32Codec float32RequiredCodec float64Codec float64RequiredCodec
      int32Codec int32RequiredCodec int64Codec int64RequiredCodec uint32Codec uint32RequiredCodec
      uint64Codec uint64RequiredCodec fixed32Codec fixed32RequiredCodec fixed64Codec fixed64RequiredCodec
      zigzag32Codec zigzag32RequiredCodec zigzag64Codec zigzag64RequiredCodec];
    unfold decodeBool, decodeString, decodeFloat32, decodeFloat64, decodeInt32, decodeInt64, decodeUint32,
      decodeUint64, decodeFixed32, decodeFixed64, decodeZigzag32, decodeZigzag64; try rewrite Hd; eexists; (split; [reflexivity|]);
    cbn [wr_bool wr_i32 wr_i64 wr_u32 wr_u64 wr_f32 wr_f64 wret]; try reflexivity;
    try (rewrite signed_32 by exact Hu; reflexivity); try (rewrite signed_64 by exact Hu; reflexivity);
    try (rewrite mod_32; reflexivity); try (rewrite zz_32 by exact Hu; reflexivity);
    try (rewrite decodeZigZag64_spec by exact Hu; reflexivity).
Qed.

(** Payloads on which the library does not deviate. *)
Lemma vgroup_shorter b : forall g r, vgroup b = Some (g, r) -> (length r < length b)%nat.
Proof.
  induction b as [|c b IH]; intros g r; cbn [vgroup]; [discriminate|]. destruct (c <? 128)%N.
  - intros H. injection H as _ ->. cbn [length]. lia.
  - destruct (vgroup b) as [[g' r']|]; [|discriminate]. intros H. injection H as _ <-. specialize (IH _ _ eq_refl). cbn [length]. lia.
Qed.
Lemma seen_plain s w r p len : w = wire_sty s -> read_payload w r = Some (p, skipn len r) -> (len <= length r)%nat -> plain_scalar s p len = true ->
  seen_as s r p = p /\ takes s len = len.
Proof.
  intros -> Hp Hl Hpl. destruct s; try (split; reflexivity).
  - destruct p; try (split; reflexivity). cbn [plain_scalar] in Hpl. apply N.ltb_lt in Hpl. cbn [seen_as]. rewrite zz_same by exact Hpl. split; reflexivity.
  - cbn [plain_scalar] in Hpl. apply Nat.eqb_eq in Hpl. subst len. split; [|reflexivity]. cbn [wire_sty seen_as] in *.
    destruct r as [|c r]; [cbn [length] in Hl; lia|]. cbn [skipn hd] in *. unfold read_payload in Hp. cbn [N.eqb] in Hp.
    unfold read_varint in Hp. cbn [vgroup] in Hp. destruct (N.ltb_spec c 128) as [Hc|Hc].
    + cbn [length vvalue Nat.ltb Nat.leb orb] in Hp. rewrite N.mul_0_r, N.add_0_r, N.mod_small in Hp by exact Hc.
      destruct (2^64 <=? c)%N; [discriminate Hp|]. injection Hp as <-. reflexivity.
    + destruct (vgroup r) as [[g r0]|] eqn:Eg; [|discriminate Hp]. apply vgroup_shorter in Eg.
      destruct (_ || _); [discriminate Hp|]. injection Hp as _ ->. lia.
Qed.
Lemma scalar_dec D s m r n p r' v : not_sfixed s = true -> static_mode m = true -> small r ->
  wt D v (TScalar (go_kind s)) = true ->
  payload_len (wire_sty s) r = inl n -> read_payload (wire_sty s) r = Some (p, r') ->
  plain_scalar s p n = true ->
  exists v', read_scalar s p = Some v' /\ l_decode (static (SC (wk_of s) m)) (firstn n r) v = DRet v' (Z.of_nat n) None.
Proof.
  intros Hs Hm Hsm Hw Hl Hp Hpl. destruct (scalar_lib D s m r n p r' v Hs Hm Hsm Hw Hl Hp) as (v' & R & E).
  pose proof (read_payload_len (wire_sty s) r) as RP. rewrite Hl in RP. destruct RP as (q & RP & Hle).
  rewrite RP in Hp. injection Hp as -> <-.
  destruct (seen_plain s _ r p n eq_refl RP Hle Hpl) as [Q1 Q2]. rewrite Q1 in R. rewrite Q2 in E. eauto.
Qed.

(** ** Looking up fields *)
Lemma find_field_in fs : forall i n j f, find_field i fs n = Some (j, f) -> (i <= j)%nat /\ nth_error fs (j - i) = Some (Field n f).
Proof.
  induction fs as [|[t|n' f'] fs IH]; intros i n j f; cbn [find_field]; [discriminate| |].
  - intros H. apply IH in H. destruct H as [H1 H2]. split; [lia|]. replace (j - i)%nat with (S (j - S i)) by lia. exact H2.
  - destruct (N.eqb_spec n' n).
    + intros H; inversion H; subst. split; [lia|]. rewrite Nat.sub_diag. reflexivity.
    + intros H. apply IH in H. destruct H as [H1 H2]. split; [lia|]. replace (j - i)%nat with (S (j - S i)) by lia. exact H2.
Qed.
Lemma find_field_none fs : forall i n, ~ In n (numbers fs) -> find_field i fs n = None.
Proof.
  induction fs as [|[t|n' f'] fs IH]; intros i n H; cbn [find_field numbers] in *; auto.
  destruct (N.eqb_spec n' n); [exfalso; apply H; left; assumption|]. apply IH. intros H'. apply H. right. assumption.
Qed.
Lemma find_app {A} p (a b : list A) : find p (a ++ b) = match find p a with Some x => Some x | None => find p b end.
Proof. induction a as [|x a IH]; [reflexivity|]. cbn. destruct (p x); [reflexivity|assumption]. Qed.
Lemma field_number_of {R} i n f (c : R) : (n < 2^61)%N -> fieldNumber (mkfield i (tag_of n f) c) = n /\ wireType (mkfield i (tag_of n f) c) = wire_fty f.
Proof.
  intros H. unfold fieldNumber, wireType, mkfield. cbn [f_meta meta_of wiretag]. rewrite tag_number_spec, tag_type_spec. unfold tag_of.
  pose proof (wire_fty_lt f). lia.
Qed.
Lemma nodup_not_in n l : negb (existsb (N.eqb n) l) = true -> ~ In n l.
Proof.
  intros H Hin. apply negb_true_iff in H. assert (existsb (N.eqb n) l = true); [|congruence].
  apply existsb_exists. exists n. split; [assumption|apply N.eqb_refl].
Qed.
Lemma lookup_spec fs n : nums_ok fs = true -> nodup_N (numbers fs) = true -> forall i,
  find (fun f => (fieldNumber f =? n)%N) (rev (spec_fields i fs)) =
  option_map (fun jf => mkfield (fst jf) (tag_of n (snd jf)) (pref_of n (snd jf))) (find_field i fs n).
Proof.
  induction fs as [|[t|n' f] fs IH]; intros Hn Hd i; cbn [spec_fields find_field rev]; [reflexivity|apply IH; assumption|].
  unfold nums_ok in Hn. cbn [numbers forallb nodup_N] in Hn, Hd. apply andb_true_iff in Hn. destruct Hn as [Hn1 Hn].
  apply andb_true_iff in Hn1. destruct Hn1 as [_ Hn1]. apply num_61 in Hn1. destruct Hn1 as [_ Hn1].
  apply andb_true_iff in Hd. destruct Hd as [Hd1 Hd]. rewrite find_app, IH by assumption.
  cbn [find]. destruct (field_number_of i n' f (pref_of n' f) Hn1) as [-> _].
  destruct (N.eqb_spec n' n) as [->|].
  - rewrite find_field_none by (apply nodup_not_in; assumption). reflexivity.
  - destruct (find_field (S i) fs n); reflexivity.
Qed.

(** ** Values up to [norm] *)
Definition norm_kv (kv : val * val) : val * val := match kv with (k, x) => (k, norm x) end.
Definition entries (m : option (list (val * val))) : list (val * val) := match m with Some l => l | None => [] end.
Lemma norm_map m : norm (VMap m) = VMap (match entries m with [] => None | l => Some (map norm_kv l) end).
Proof. destruct m as [[|kv l]|]; reflexivity. Qed.
Lemma norm_map_inv m y : norm (VMap m) = norm y -> exists m', y = VMap m' /\ map norm_kv (entries m) = map norm_kv (entries m').
Proof.
  rewrite norm_map. destruct y as [| | | | | | | | |[] |? [|]|m'|[]| |]; try (destruct m; discriminate); try discriminate.
  rewrite norm_map. intros H. exists m'. split; [reflexivity|].
  destruct (entries m), (entries m'); try discriminate; [reflexivity|]. inversion H; subst. cbn [map]. congruence.
Qed.
Lemma norm_ptr_inv o y : norm (VPtr o) = norm y -> exists o', y = VPtr o' /\ option_map norm o = option_map norm o'.
Proof.
  destruct y as [| | | | | | | | |[] |? [|]|[[]|]|o'| |]; try (destruct o; discriminate).
  intros H. exists o'. split; [reflexivity|]. destruct o, o'; try discriminate; inversion H; cbn; congruence.
Qed.
Lemma norm_struct_inv xs y : norm (VStruct xs) = norm y -> exists ys, y = VStruct ys /\ map norm xs = map norm ys.
Proof.
  destruct y as [| | | | | | | | |[] |? [|]|[[]|]|[]| |]; try discriminate. intros H; inversion H. eauto.
Qed.
Lemma norm_slice nn items spare : norm (VSlice nn items spare) = VSlice (match items with [] => false | _ => true end) (map norm items) [].
Proof. reflexivity. Qed.
Lemma norm_slice_inv nn items spare y : norm (VSlice nn items spare) = norm y ->
  exists nn' items' spare', y = VSlice nn' items' spare' /\ map norm items = map norm items'.
Proof.
  destruct y as [| | | | | | | | |[] |nn' items' spare'|[[]|]|[]| |]; try discriminate.
  rewrite !norm_slice. intros H; inversion H. eauto 6.
Qed.
Definition scalar (v : val) : bool :=
  match v with VBool _ | VI32 _ | VI64 _ | VU32 _ | VU64 _ | VF32 _ | VF64 _ | VStr _ => true | _ => false end.
Lemma scalar_norm v : scalar v = true -> norm v = v /\ fresh v = true.
Proof. destruct v; try discriminate; split; reflexivity. Qed.
Lemma scalar_norm_inv v w : scalar v = true -> norm v = norm w -> w = v.
Proof. intros H. rewrite (proj1 (scalar_norm v H)). destruct v; try discriminate; destruct w as [| | | | | | | | |[] |? [|]|[[]|]|[]| |]; cbn; congruence. Qed.
Lemma wt_scalar D v k : wt D v (TScalar k) = true -> scalar v = true.
Proof. intros H. wtd v; reflexivity. Qed.
Lemma read_scalar_scalar s p v : read_scalar s p = Some v -> scalar v = true.
Proof. destruct s, p; cbn; try discriminate; intros H; inversion H; reflexivity. Qed.

Lemma map_norm_set ys : forall xs i y z, map norm ys = map norm xs -> norm y = norm z ->
  map norm (list_set ys i y) = map norm (replace xs i z).
Proof.
  induction ys as [|a ys IH]; intros [|c xs] i y z H E; try discriminate; [reflexivity|]. inversion H.
  destruct i as [|i]; cbn [list_set replace map]; [congruence|]. f_equal; [assumption|]. apply IH; assumption.
Qed.
Lemma map_norm_nth ys : forall xs i y, map norm ys = map norm xs -> nth_error ys i = Some y ->
  exists z, nth_error xs i = Some z /\ norm y = norm z.
Proof.
  induction ys as [|a ys IH]; intros [|c xs] i y H; try discriminate; destruct i as [|i]; cbn [nth_error]; try discriminate; inversion H.
  - intros E; inversion E; subst. eauto.
  - apply IH. assumption.
Qed.
Lemma fresh_set ys : forall i y, forallb fresh ys = true -> fresh y = true -> forallb fresh (list_set ys i y) = true.
Proof.
  induction ys as [|a ys IH]; intros i y H E; [reflexivity|]. cbn [forallb] in H. apply andb_true_iff in H. destruct H.
  destruct i as [|i]; cbn [list_set forallb]; apply andb_true_iff; auto.
Qed.
Lemma fresh_nth ys i y : forallb fresh ys = true -> nth_error ys i = Some y -> fresh y = true.
Proof. rewrite forallb_forall. intros H E. apply H. eapply nth_error_In; eassumption. Qed.

Lemma same_key_eq D k a b : scope_key k = true -> wt D a (TScalar (go_kind k)) = true -> wt D b (TScalar (go_kind k)) = true ->
  key_eqb a b = same_key a b.
Proof. destruct k; try discriminate; intros _ Ha Hb; cbn [go_kind] in *; wtd a; wtd b; reflexivity. Qed.
Lemma assign_norm D k a x x' : scope_key k = true -> wt D a (TScalar (go_kind k)) = true -> norm x = norm x' ->
  forall l l', forallb (fun kv => wt D (fst kv) (TScalar (go_kind k))) l = true -> map norm_kv l = map norm_kv l' ->
  map norm_kv (map_assign l a x) = map norm_kv (put_entry l' a x').
Proof.
  intros Hk Ha Hx. induction l as [|[k1 x1] l IH]; intros [|[k2 x2] l'] Hl E; try discriminate.
  - cbn. congruence.
  - cbn [map norm_kv] in E. inversion E; subst. cbn [forallb fst] in Hl. apply andb_true_iff in Hl. destruct Hl as [Hl1 Hl].
    cbn [map_assign put_entry]. rewrite (same_key_eq D k k2 a Hk Hl1 Ha). destruct (same_key k2 a); cbn [map norm_kv]; [congruence|].
    f_equal; [congruence|]. apply IH; assumption.
Qed.
Lemma fresh_assign l a x : forallb (fun kv => match kv with (_, x) => fresh x end) l = true -> fresh x = true ->
  forallb (fun kv => match kv with (_, x) => fresh x end) (map_assign l a x) = true.
Proof.
  intros H Hx. rewrite forallb_forall in *. intros kv Hi. apply map_assign_in in Hi. destruct Hi as [Hi| ->]; [auto|assumption].
Qed.
Lemma assign_nonempty l a x : map_assign l a x <> [].
Proof. destruct l as [|[k y] l]; cbn; [discriminate|]. destruct (key_eqb k a); discriminate. Qed.
Lemma put_nonempty l a x : put_entry l a x <> [].
Proof. destruct l as [|[k y] l]; cbn; [discriminate|]. destruct (same_key k a); discriminate. Qed.

(** ** Entry messages *)
Definition loose_fld (f : sfld) : sfld := match f with Field n f => Field n (loose f) | h => h end.
Lemma put_loose sch sub f p y : put sch sub (loose f) p y = put sch sub f p y.
Proof. destruct f; reflexivity. Qed.
Lemma plain_loose sch sub f p n : plain_put sch sub (loose f) p n = plain_put sch sub f p n.
Proof. destruct f; reflexivity. Qed.
Lemma wire_loose f : wire_fty (loose f) = wire_fty f.
Proof. destruct f; reflexivity. Qed.
Lemma find_loose fs n : forall i, find_field i (map loose_fld fs) n = option_map (fun jf => (fst jf, loose (snd jf))) (find_field i fs n).
Proof.
  induction fs as [|[t|n' f] fs IH]; intros i; cbn [map loose_fld find_field]; auto.
  destruct (n' =? n)%N; [reflexivity|apply IH].
Qed.
Lemma merge_loose sch m fs : forall xs b, merge sch m (map loose_fld fs) xs b = merge sch m fs xs b.
Proof.
  induction m as [|m IH]; intros xs b; [reflexivity|]. cbn [merge]. destruct b as [|c b]; [reflexivity|].
  destruct (read_varint (c :: b)) as [tag k r| |]; try reflexivity. destruct (read_payload (tag mod 8) r) as [[p r']|]; [|reflexivity].
  rewrite find_loose. destruct (find_field 0 fs (tag / 8)) as [[i f]|]; cbn [option_map fst snd]; [|apply IH].
  rewrite wire_loose. destruct (negb _); [reflexivity|]. destruct (nth_error xs i) as [y|]; [|reflexivity].
  rewrite put_loose. destruct (put _ _ f p y); auto.
Qed.
Lemma scalar_loose f : scalar_of (loose f) = scalar_of f.
Proof. destruct f; reflexivity. Qed.
Lemma lib_loose sch m fs : forall xs b, merge_lib sch m (map loose_fld fs) xs b = merge_lib sch m fs xs b.
Proof.
  induction m as [|m IH]; intros xs b; [reflexivity|]. cbn [merge_lib]. destruct b as [|c b]; [reflexivity|].
  destruct (read_varint (c :: b)) as [tag k r| |]; try reflexivity. destruct (read_payload (tag mod 8) r) as [[p r']|]; [|reflexivity].
  rewrite find_loose. destruct (find_field 0 fs (tag / 8)) as [[i f]|]; cbn [option_map fst snd]; [|apply IH].
  rewrite wire_loose. destruct (negb _); [reflexivity|]. destruct (nth_error xs i) as [y|]; [|reflexivity].
  unfold seen, after. rewrite put_loose, scalar_loose. destruct (put _ _ f _ y); auto.
Qed.
Lemma plain_loose_msg sch m fs : forall b, plain sch m (map loose_fld fs) b = plain sch m fs b.
Proof.
  induction m as [|m IH]; intros b; [reflexivity|]. cbn [plain]. destruct b as [|c b]; [reflexivity|].
  destruct (read_varint (c :: b)) as [tag k r| |]; try reflexivity. destruct (read_payload (tag mod 8) r) as [[p r']|]; [|reflexivity].
  rewrite find_loose. destruct (find_field 0 fs (tag / 8)) as [[i f]|]; cbn [option_map fst snd]; rewrite IH; [|reflexivity].
  rewrite wire_loose, plain_loose. reflexivity.
Qed.

(** How many bytes of a payload of [len] bytes the codec of a field takes. *)
Definition taken (f : fty) (len : nat) : nat := match scalar_of f with Some s => takes s len | None => len end.
Lemma after_taken f r len : after f r (skipn len r) = skipn (taken f len) r.
Proof. unfold after, taken. destruct (scalar_of f) as [[]|]; reflexivity. Qed.

(** Without such payloads the library merges. *)
Lemma scalar_wire f s : scalar_of f = Some s -> wire_fty f = wire_sty s.
Proof. induction f; cbn [scalar_of wire_fty]; try discriminate; try (intros H; injection H as ->; reflexivity). assumption. Qed.
Lemma plain_put_scalar sch sub f s p len : scalar_of f = Some s -> plain_put sch sub f p len = plain_scalar s p len.
Proof. induction f; cbn [scalar_of plain_put]; try discriminate; try (intros H; injection H as ->; reflexivity). assumption. Qed.
Lemma put_sub sch f : forall sub sub' q p len y,
  (forall fs xs b, q fs b = true -> sub fs xs b = sub' fs xs b) -> plain_put sch q f p len = true -> put sch sub f p y = put sch sub' f p y.
Proof.
  induction f; intros sub sub' q p len y H Hp; cbn [put plain_put] in *; try reflexivity.
  - destruct p; try reflexivity. rewrite (H _ _ _ Hp). reflexivity.
  - rewrite (IHf sub sub' q p len _ H Hp). reflexivity.
  - destruct p; try reflexivity. rewrite (H _ _ _ Hp). reflexivity.
Qed.
Lemma seen_plain_put sch sub f r p len : read_payload (wire_fty f) r = Some (p, skipn len r) -> (len <= length r)%nat ->
  plain_put sch sub f p len = true -> seen f r p = p /\ taken f len = len.
Proof.
  intros Hp Hl Hpl. unfold seen, taken. destruct (scalar_of f) as [s|] eqn:E; [|split; reflexivity].
  rewrite (plain_put_scalar sch sub f s p len E) in Hpl. eapply seen_plain; [apply (scalar_wire f s E)|exact Hp|exact Hl|exact Hpl].
Qed.
Lemma lib_plain sch m : forall fs xs b, plain sch m fs b = true -> merge_lib sch m fs xs b = merge sch m fs xs b.
Proof.
  induction m as [|m IH]; intros fs xs b Hpl; [reflexivity|]. cbn [merge_lib merge plain] in *. destruct b as [|c b]; [reflexivity|].
  destruct (read_varint (c :: b)) as [tag k r| |]; try reflexivity. pose proof (read_payload_len (tag mod 8) r) as RP.
  destruct (payload_len (tag mod 8) r) as [len|]; [|rewrite RP; reflexivity].
  destruct RP as (p & RP & Hle). rewrite RP in *. apply andb_true_iff in Hpl. destruct Hpl as [P1 P2].
  destruct (find_field 0 fs (tag / 8)) as [[i f]|]; [|apply IH; exact P2].
  destruct (N.eqb_spec (wire_fty f) (tag mod 8)) as [E|E]; [|reflexivity]. cbn [negb orb] in *. rewrite <- E in RP.
  rewrite skipn_length in P1. replace (length r - (length r - len))%nat with len in P1 by lia.
  destruct (nth_error xs i) as [y|]; [|reflexivity].
  destruct (seen_plain_put _ _ _ _ _ _ RP Hle P1) as [S1 S2]. rewrite S1, after_taken, S2, (put_sub sch f (merge_lib sch m) (merge sch m) _ _ _ _ (fun fs xs b => IH fs xs b) P1).
  destruct (put _ _ _ _ _); [apply IH; exact P2|reflexivity|reflexivity].
Qed.

(** ** The decoder *)
Section Dec.
Variables (D : decls) (sch : schema).
Hypothesis HI : implements D sch = true.
Hypothesis HS : schema_ok sch = true.
Hypothesis HC : in_scope sch = true.
Hypothesis HD : decls_fit D = true.
Notation dec := (dec plook (piget D) D).
Notation ldecs := (ldecs plook (piget D) D).
Notation lib := (merge_lib sch).
Notation merge := (merge sch).
Notation plain := (plain sch).

Definition entry_key k e := SEntry (go_kind k) (go_type e) (tag_of 1 (FAlways k)) (tag_of 2 e).
Definition entry_fs k e := [Field 1 (FAlways k); Field 2 e].
(** The struct [k] holds a message of fields [fs]. *)
Definition key_fs (k : skey) (fs : list sfld) : Prop :=
  key_ok D k /\
  ((exists m, k = SNamed m /\ fs = msg sch m) \/
   (exists kk e, scope_key kk = true /\ scope_val e = true /\ k = entry_key kk e /\ fs = map loose_fld (entry_fs kk e))).

Lemma key_fs_facts k fs : key_fs k fs ->
  i_index (piget D k) = spec_fields 0 fs /\ key_types D k = map fld_type fs /\ zero_struct D k = VStruct (zeros fs) /\
  nums_ok fs = true /\ nodup_N (numbers fs) = true /\ (forall q, k <> SOpt q) /\
  (forall n f, In (Field n f) fs -> ok_fty f = true /\ (n < 2^61)%N).
Proof.
  intros [Hk [(m & -> & ->)|(kk & e & Hkk & He & -> & ->)]].
  - destruct (schema_ok_msg sch HS m) as (A & B & _). rewrite (piget_spec D sch HI HS HC). cbn [i_index key_types].
    rewrite (field_types_of D sch HI), (zero_struct_of D sch HI).
    repeat (split; [first [reflexivity|assumption|discriminate]|]).
    intros n f Hin. pose proof (scope_nth sch HC m) as S. unfold scope_msg in S. rewrite forallb_forall in S.
    split; [apply scope_ok, (S _ Hin)|]. unfold nums_ok in A. rewrite forallb_forall in A.
    assert (I : In n (numbers (msg sch m))).
    { clear - Hin. induction (msg sch m) as [|[t|n' f'] l IH]; [destruct Hin| |]; cbn [numbers].
      - apply IH. destruct Hin as [H|H]; [discriminate|assumption].
      - destruct Hin as [H|H]; [inversion H; left; reflexivity|right; auto]. }
    apply A in I. apply andb_true_iff in I. destruct I as [_ I]. apply num_61 in I. apply I.
  - pose proof (piget_entry D kk e Hkk He) as P. unfold entry_key. rewrite P. cbv zeta. cbn [i_index].
    split; [reflexivity|]. split; [destruct e; reflexivity|]. split; [destruct kk, e; reflexivity|].
    repeat (split; [first [reflexivity|discriminate]|]).
    intros n f [H|[H|[]]]; inversion H; subst; (split; [|reflexivity]).
    + destruct kk; try discriminate; reflexivity.
    + apply val_ok in He. destruct e; try discriminate; exact He.
Qed.

Definition agree_l (l : lres) (r : mres (list val)) : Prop :=
  l = LFuel \/
  match r with
  | MOk xs => exists ys, l = LOk (VStruct ys) /\ map norm ys = map norm xs /\ forallb fresh ys = true
  | MBad => exists x e, l = LErr x e
  | MFuel => False
  end.
Definition agree_d (d : dres val) (len : nat) (r : mres val) : Prop :=
  d = DFuel \/
  match r with
  | MOk z => exists y, d = DRet y (Z.of_nat len) None /\ norm y = norm z /\ fresh y = true
  | MBad => exists y n e, d = DRet y n (Some e)
  | MFuel => False
  end.
Definition merges (m : nat) : Prop := forall k fs b ys xs fuel, key_fs k fs -> (length b < m)%nat ->
  bytes_okb b = true -> small b -> wts D (VStruct ys) k = true -> forallb fresh ys = true -> map norm ys = map norm xs ->
  agree_l (ldecs fuel k b (VStruct ys)) (lib m fs xs b).

(** What the old value must have in common with the specification's. *)
Definition old_rel (f : fty) (y y' : val) : Prop :=
  match f with FMessage _ | FRepeated _ | FMap _ _ => norm y = norm y' | _ => True end.

Definition puts (m : nat) (f : fty) : Prop := forall n fuel y y' r len p r',
  codec_fits D (pref_of n f) (go_type f) = true -> (type_depth (go_type f) <= Nat.max 1 (decls_depth D))%nat ->
  wt D y (go_type f) = true -> fresh y = true -> old_rel f y y' ->
  bytes_okb r = true -> small r -> (length r <= m)%nat ->
  payload_len (wire_fty f) r = inl len -> read_payload (wire_fty f) r = Some (p, r') ->
  agree_d (dec fuel (pref_of n f) (firstn len r) y) (taken f len) (put sch (lib m) f (seen f r p) y').

Lemma puts_scalar s md fuel y r len p r' : not_sfixed s = true -> static_mode md = true -> small r ->
  wt D y (TScalar (go_kind s)) = true -> payload_len (wire_sty s) r = inl len -> read_payload (wire_sty s) r = Some (p, r') ->
  exists v, read_scalar s (seen_as s r p) = Some v /\ scalar v = true /\
    (dec fuel (PStatic (SC (wk_of s) md)) (firstn len r) y = DFuel \/
     dec fuel (PStatic (SC (wk_of s) md)) (firstn len r) y = DRet v (Z.of_nat (takes s len)) None).
Proof.
  intros H1 H2 H3 H4 H5 H6. destruct (scalar_lib D s md r len p r' y H1 H2 H3 H4 H5 H6) as (v & E1 & E2).
  exists v. split; [exact E1|]. split; [eapply read_scalar_scalar; eassumption|].
  destruct fuel as [|fuel]; [left; reflexivity|right]. rewrite dec_S. cbn [plook]. exact E2.
Qed.

Lemma zlen_firstn_le len (r : bytes) : (len <= length r)%nat -> zlen (firstn len r) = Z.of_nat len.
Proof. intros. unfold zlen. rewrite firstn_length_le by assumption. reflexivity. Qed.

Lemma puts_message m m0 : merges m -> puts m (FMessage m0).
Proof.
  intros IH n fuel y y' r len p r' Hfit Hdep Hw Hfr Hrel Hb Hs Hlen Hl Hp. unfold seen, taken; cbn [scalar_of].
  cbn [wire_fty go_type pref_of old_rel] in *. destruct fuel as [|fuel]; [left; reflexivity|].
  destruct (len_payload _ _ _ _ Hl Hp) as (d & k & -> & E & El & Hk). cbn [put] in *.
  apply payload_len_ok in Hl as Hle.
  assert (Hkk : key_ok D (SNamed m0)).
  { cbn [codec_fits flat_fits] in Hfit. btrue. assumption. }
  assert (Hkey : key_fs (SNamed m0) (msg sch m0)) by (split; [assumption|left; eauto]).
  destruct (key_fs_facts _ _ Hkey) as (_ & Ht & Hz & _ & _ & Hno & _).
  destruct (wt_msg _ _ _ Hw) as (o & -> & Hx). destruct (norm_ptr_inv _ _ Hrel) as (o' & -> & Ho).
  destruct (dec_struct plook (piget D) D fuel (PStruct (SNamed m0)) (SNamed m0) (SNamed m0) (firstn len r) o (small_firstn _ _ Hs) eq_refl) as [q Eq].
  rewrite Eq, E. clear Eq. cbv zeta.
  assert (Hd : d = skipn k (firstn len r)) by (apply read_varint_ok in E; symmetry; apply E).
  assert (Hbd : bytes_okb d = true) by (rewrite Hd; apply bytes_okb_skipn, bytes_okb_firstn; assumption).
  assert (Hsd : small d) by (rewrite Hd; apply small_skipn, small_firstn; assumption).
  assert (Hld : (length d < m)%nat) by lia.
  assert (S : exists ys xs, match o with Some x => x | None => zero_struct D (SNamed m0) end = VStruct ys /\
      match VPtr o' with VPtr (Some (VStruct xs)) => xs | _ => zeros (msg sch m0) end = xs /\
      wts D (VStruct ys) (SNamed m0) = true /\ forallb fresh ys = true /\ map norm ys = map norm xs).
  { destruct o as [x|], o' as [x'|]; try discriminate; cbn [option_map] in Ho.
    - destruct (wts_struct D x (SNamed m0) Hno Hx) as (ys & -> & _). inversion Ho as [Hn].
      destruct (norm_struct_inv ys x' Hn) as (xs & -> & Hm). exists ys, xs. repeat (split; [first [reflexivity|assumption]|]). assumption.
    - exists (zeros (msg sch m0)), (zeros (msg sch m0)). split; [exact Hz|]. split; [reflexivity|].
      split; [rewrite <- Hz; apply zero_struct_wts; assumption|]. split; [|reflexivity].
      unfold zeros. rewrite forallb_forall. intros v Hv. apply in_map_iff in Hv. destruct Hv as (f & <- & _).
      destruct (fld_type f) as [[]| |[]| | | | |]; reflexivity. }
  destruct S as (ys & xs & -> & -> & Wy & Fy & Ny).
  specialize (IH (SNamed m0) (msg sch m0) d ys xs fuel Hkey Hld Hbd Hsd Wy Fy Ny).
  destruct IH as [IH|IH]; [left; rewrite IH; reflexivity|]. right. destruct (lib m (msg sch m0) xs d) as [xs'| |]; cbn [mmap].
  - destruct IH as (ys' & -> & N' & F'). eexists. rewrite zlen_firstn_le by assumption. split; [reflexivity|].
    split; [cbn [norm]; rewrite N'; reflexivity|exact F'].
  - destruct IH as (x & e & ->). eauto.
  - exact IH.
Qed.

Lemma puts_bytes m : puts m FBytes.
Proof.
  intros n fuel y y' r len p r' Hfit Hdep Hw Hfr Hrel Hb Hs Hlen Hl Hp. unfold seen, taken; cbn [scalar_of].
  destruct fuel as [|fuel]; [left; reflexivity|]. right. cbn [wire_fty go_type pref_of] in *.
  destruct (varlen_dec _ _ _ _ Hs Hl Hp) as (d & -> & E & Hn). cbn [put].
  rewrite dec_S. cbn [plook static l_decode bytesCodec]. unfold decodeBytes. rewrite E.
  exists (VBytes (Some d)). split; [|split; reflexivity]. wtd y; reflexivity.
Qed.

Lemma puts_elem m e : merges m -> ok_elem e = true -> puts m e.
Proof.
  intros IH He. destruct e as [s|s|s|s| |m0|e|k e]; try discriminate; [|apply puts_bytes|apply puts_message; assumption].
  intros n fuel y y' r len p r' Hfit Hdep Hw Hfr Hrel Hb Hs Hlen Hl Hp. unfold seen, taken; cbn [scalar_of]. cbn [pref_of go_type wire_fty put] in *.
  destruct (puts_scalar s Required fuel y r len p r') as (v & -> & Sv & [Ev|Ev]); try assumption; try reflexivity; [left; exact Ev|].
  right. cbn [of_option]. exists v. split; [exact Ev|]. split; [reflexivity|apply scalar_norm, Sv].
Qed.

Lemma fresh_slot e (y : val) : ok_elem e = true -> wt D y (go_type e) = true ->
  match y with VPtr (Some _) => false | _ => true end = true -> fresh y = true /\ old_rel e y (zero (go_type e)).
Proof.
  intros He Hw Hy. destruct e as [s|s|s|s| |m0|e|k e]; try discriminate; cbn [go_type old_rel] in *.
  - split; [|exact Logic.I]. apply wt_scalar in Hw. apply scalar_norm. assumption.
  - split; [|exact Logic.I]. wtd y; reflexivity.
  - destruct (wt_msg _ _ _ Hw) as ([x|] & -> & _); [discriminate|]. split; reflexivity.
Qed.
Lemma zero_slot e : ok_elem e = true -> match zero (go_type e) with VPtr (Some _) => false | _ => true end = true.
Proof. destruct e as [s|s|s|s| |m0|e|k e]; try discriminate; [destruct s; reflexivity|reflexivity|reflexivity]. Qed.

Lemma puts_field m f : merges m -> ok_fty f = true -> puts m f.
Proof.
  intros IH Hf. destruct f as [s|s|s|s| |m0|e|k e]; cbn [ok_fty] in Hf.
  - intros n fuel y y' r len p r' Hfit Hdep Hw Hfr Hrel Hb Hs Hlen Hl Hp. unfold seen, taken; cbn [scalar_of]. cbn [pref_of go_type wire_fty put] in *.
    destruct (puts_scalar s Normal fuel y r len p r') as (v & -> & Sv & [Ev|Ev]); try assumption; try reflexivity; [left; exact Ev|].
    right. cbn [of_option]. exists v. split; [exact Ev|]. split; [reflexivity|apply scalar_norm, Sv].
  - intros n fuel y y' r len p r' Hfit Hdep Hw Hfr Hrel Hb Hs Hlen Hl Hp. unfold seen, taken; cbn [scalar_of]. cbn [pref_of go_type wire_fty put] in *.
    wtd y. cbn [wt] in Hw. destruct fuel as [|fuel]; [left; reflexivity|].
    destruct (puts_scalar s Required (S fuel) y r len p r') as (v & -> & Sv & [Ev|Ev]); try assumption; try reflexivity.
    + rewrite dec_S in Ev. cbn [plook] in Ev. left. rewrite dec_S. cbn [plook].
      replace (l_decode (static (SC (wk_of s) Optional)) (firstn len r) (VOpt some y)) with
        (dmap (VOpt true) (l_decode (static (SC (wk_of s) Required)) (firstn len r) y)) by (destruct s; reflexivity).
      rewrite Ev. reflexivity.
    + right. cbn [of_option mmap]. exists (VOpt true v). rewrite dec_S in *. cbn [plook] in *.
      replace (l_decode (static (SC (wk_of s) Optional)) (firstn len r) (VOpt some y)) with
        (dmap (VOpt true) (l_decode (static (SC (wk_of s) Required)) (firstn len r) y)) by (destruct s; reflexivity).
      rewrite Ev. repeat split.
  - intros n fuel y y' r len p r' Hfit Hdep Hw Hfr Hrel Hb Hs Hlen Hl Hp. unfold seen, taken; cbn [scalar_of]. cbn [pref_of go_type wire_fty put] in *.
    destruct (wt_ptr _ _ _ Hw) as (o & -> & Ho). destruct fuel as [|fuel]; [left; reflexivity|].
    rewrite dec_S. cbn [plook]. cbv zeta.
    assert (Wx : wt D (match o with Some x => x | None => zero (TScalar (go_kind s)) end) (TScalar (go_kind s)) = true) by (destruct o; [exact Ho|apply zero_wt]).
    destruct (puts_scalar s Normal fuel _ r len p r' Hf eq_refl Hs Wx Hl Hp) as (v & -> & Sv & [Ev|Ev]); rewrite Ev; [left; reflexivity|].
    right. cbn [of_option mmap dmap]. exists (VPtr (Some v)). split; [reflexivity|]. split; [reflexivity|]. cbn [fresh]. apply (scalar_norm v Sv).
  - apply puts_elem; assumption.
  - apply puts_bytes.
  - apply puts_message; assumption.
  - (* repeated *)
    intros n fuel y y' r len p r' Hfit Hdep Hw Hfr Hrel Hb Hs Hlen Hl Hp. unfold seen, taken; cbn [scalar_of]. cbn [pref_of go_type wire_fty put old_rel] in *.
    destruct (wt_slice _ _ _ Hw) as (nn & items & spare & -> & Hi & Hsp). destruct (norm_slice_inv _ _ _ _ Hrel) as (nn' & items' & spare' & -> & Hn).
    destruct fuel as [|fuel]; [left; reflexivity|]. rewrite dec_S. cbn [plook]. cbv zeta.
    cbn [fresh] in Hfr. apply andb_true_iff in Hfr. destruct Hfr as [Fi Fs].
    set (sp := match spare with [] => grow_spare (go_type e) (length items) | _ => spare end).
    assert (Wsp : forallb (fun x => wt D x (go_type e)) sp = true) by (unfold sp; destruct spare; [apply grow_spare_wt|assumption]).
    assert (Fsp : forallb (fun x => match x with VPtr (Some _) => false | _ => true end) sp = true).
    { unfold sp. destruct spare; [|assumption]. unfold grow_spare. apply forallb_forall. intros x Hx. apply repeat_spec in Hx. subst x. apply zero_slot. assumption. }
    assert (Hne : sp <> []) by (unfold sp; destruct spare; [apply grow_spare_nonempty|discriminate]). clearbody sp.
    destruct sp as [|slot sp]; [contradiction|]. cbn [forallb] in Wsp, Fsp. apply andb_true_iff in Wsp, Fsp. destruct Wsp as [Ws Wsp], Fsp as [Fs1 Fsp].
    destruct (fresh_slot e slot Hf Ws Fs1) as [Fr Or].
    assert (Hfit' : codec_fits D (pref_of n e) (go_type e) = true).
    { cbn [codec_fits] in Hfit. btrue. destruct e; try discriminate; assumption. }
    cbn [type_depth] in Hdep.
    destruct (puts_elem m e IH Hf n fuel slot (zero (go_type e)) r len p r' Hfit' ltac:(lia) Ws Fr Or Hb Hs Hlen Hl Hp) as [P|P]; [left; rewrite P; reflexivity|].
    right. fold (seen e r p). fold (taken e len). destruct (put sch (lib m) e (seen e r p) (zero (go_type e))) as [z| |]; cbn [mmap].
    + destruct P as (x & -> & Nx & Fx). eexists. split; [reflexivity|]. rewrite !norm_slice, !map_app, Hn. cbn [map]. rewrite Nx.
      split; [destruct items, items'; try discriminate Hn; reflexivity|]. cbn [fresh]. rewrite forallb_app, Fi. cbn [forallb]. rewrite Fx, Fsp. reflexivity.
    + destruct P as (x & q & e' & ->). eauto.
    + exact P.
  - (* map *)
    intros n fuel y y' r len p r' Hfit Hdep Hw Hfr Hrel Hb Hs Hlen Hl Hp. unfold seen, taken; cbn [scalar_of]. cbn [wire_fty go_type old_rel] in *.
    apply andb_true_iff in Hf. destruct Hf as [Hk He].
    destruct (len_payload _ _ _ _ Hl Hp) as (d & q & -> & E & El & Hq). cbn [put] in *.
    apply payload_len_ok in Hl as Hle. destruct (wt_map _ _ _ _ Hw) as (mm & -> & Hm).
    destruct (norm_map_inv _ _ Hrel) as (mm' & -> & Hn). destruct fuel as [|fuel]; [left; reflexivity|].
    assert (Hkk : key_ok D (entry_key k e)).
    { cbn [pref_of codec_fits] in Hfit. cbn [type_depth] in Hdep. btrue. split; [assumption|]. lia. }
    assert (Hkey : key_fs (entry_key k e) (map loose_fld (entry_fs k e))) by (split; [assumption|right; exists k, e; auto]).
    destruct (key_fs_facts _ _ Hkey) as (_ & Ht & Hz & _ & _ & Hno & _).
    destruct (dec_map plook (piget D) D fuel (pref_of n (FMap k e)) (8 * n + 2) (mkfield 0 (tag_of 1 (FAlways k)) (PStatic (SC (wk_of k) Required))) (mkfield 1 (tag_of 2 e) (pref_of 2 e)) (entry_key k e) (entry_key k e) (firstn len r) mm (small_firstn _ _ Hs) eq_refl) as [z Eq].
    rewrite Eq, E, Hz. clear Eq. cbv zeta.
    destruct (firstn len r) as [|c0 r0] eqn:E0.
    { exfalso. apply (f_equal (@length N)) in E0. rewrite firstn_length_le in E0 by assumption. cbn in E0. lia. }
    rewrite <- E0 in *. clear E0 c0 r0.
    assert (Hd : d = skipn q (firstn len r)) by (apply read_varint_ok in E; symmetry; apply E).
    assert (Hbd : bytes_okb d = true) by (rewrite Hd; apply bytes_okb_skipn, bytes_okb_firstn; assumption).
    assert (Hsd : small d) by (rewrite Hd; apply small_skipn, small_firstn; assumption).
    assert (Hld : (length d < m)%nat) by lia.
    assert (Zz : zeros (map loose_fld (entry_fs k e)) = zeros (entry_fs k e)) by (destruct e; reflexivity).
    assert (W0 : wts D (VStruct (zeros (map loose_fld (entry_fs k e)))) (entry_key k e) = true) by (rewrite <- Hz; apply zero_struct_wts; assumption).
    assert (F0 : forallb fresh (zeros (map loose_fld (entry_fs k e))) = true).
    { unfold zeros. rewrite forallb_forall. intros v Hv. apply in_map_iff in Hv. destruct Hv as (f & <- & _).
      destruct (fld_type f) as [[]| |[]| | | | |]; reflexivity. }
    change [Field 1 (FAlways k); Field 2 e] with (entry_fs k e) in *.
    pose proof (IH _ _ d _ _ fuel Hkey Hld Hbd Hsd W0 F0 eq_refl) as IH'. rewrite lib_loose, Zz in IH'.
    pose proof (proj2 (dec_ok D HD fuel) (entry_key k e) d _ Hkk W0 Hbd Hsd) as T. rewrite Zz in T |- *.
    destruct IH' as [IH'|IH']; [left; rewrite IH'; reflexivity|]. right.
    destruct (lib m (entry_fs k e) (zeros (entry_fs k e)) d) as [xs'| |]; cbn [mmap].
    + destruct IH' as (ys' & Ey & N' & F'). rewrite Ey in *.
      apply wts_struct in T; [|exact Hno]. destruct T as (fs & Ef & W). inversion Ef; subst fs. clear Ef. cbn [key_types entry_key] in W.
      destruct ys' as [|a [|x [|]]]; cbn in W; rewrite ?andb_false_r in W; try discriminate. rewrite andb_true_r in W.
      apply andb_true_iff in W. destruct W as [Wa Wx].
      destruct xs' as [|a' [|x' [|]]]; cbn [map] in N'; try discriminate. inversion N' as [[Na Nx]].
      apply scalar_norm_inv in Na; [|eapply wt_scalar; eassumption]. subst a'.
      cbn [forallb] in F'. rewrite andb_true_r in F'. apply andb_true_iff in F'. destruct F' as [Fa Fx].
      eexists. rewrite zlen_firstn_le by assumption. split; [reflexivity|]. fold (entries mm) (entries mm').
      assert (Hwk : forallb (fun kv => wt D (fst kv) (TScalar (go_kind k))) (entries mm) = true).
      { destruct mm as [l|]; [|reflexivity]. destruct Hm as [Hm _]. cbn [entries]. rewrite forallb_forall in *. intros [a1 x1] Hin. apply Hm in Hin. apply andb_true_iff in Hin. apply Hin. }
      split.
      * rewrite !norm_map. cbn [entries]. pose proof (assign_norm D k a x x' Hk Wa Nx (entries mm) (entries mm') Hwk Hn) as A.
        pose proof (assign_nonempty (entries mm) a x). pose proof (put_nonempty (entries mm') a x').
        destruct (map_assign (entries mm) a x), (put_entry (entries mm') a x'); try contradiction. congruence.
      * cbn [fresh]. apply fresh_assign; [|assumption]. destruct mm; [exact Hfr|reflexivity].
    + destruct IH' as (x & e' & ->). eauto.
    + exact IH'.
Qed.

Lemma merges_all m : merges m.
Proof.
  induction m as [|m IH]; intros k fs b ys xs fuel Hkey Hlen Hb Hs Hw Hfr Hn; [lia|].
  destruct fuel as [|fuel]; [left; reflexivity|]. cbn [DecodeFacts.ldecs merge_lib] in *.
  destruct b as [|c0 b0] eqn:Eb; [right; eauto|]. rewrite <- Eb in *. assert (Hne : (1 <= length b)%nat) by (rewrite Eb; cbn; lia). clear Eb c0 b0.
  destruct (key_fs_facts _ _ Hkey) as (Hix & Ht & Hz & Hnum & Hnd & Hno & Hok).
  unfold lstep. destruct (read_varint b) as [tag kk r| |] eqn:Er; [|right; eauto..].
  apply read_varint_ok in Er as Er'. destruct Er' as (Htag & _ & Hr & Hkk & _).
  assert (Hbr : bytes_okb r = true) by (rewrite <- Hr; apply bytes_okb_skipn; assumption).
  assert (Hsr : small r) by (rewrite <- Hr; apply small_skipn; assumption).
  assert (Hlr : (length r < length b)%nat) by (rewrite <- Hr, skipn_length; lia).
  unfold lookup_field. rewrite Hix, (lookup_spec fs (tag / 8) Hnum Hnd 0).
  pose proof (read_payload_len (tag mod 8) r) as RP.
  destruct (find_field 0 fs (tag / 8)) as [[i f]|] eqn:Ef; cbn [option_map fst snd].
  - apply find_field_in in Ef as Efi. destruct Efi as [_ Efi]. rewrite Nat.sub_0_r in Efi.
    apply nth_error_In in Efi as Hin. destruct (Hok _ _ Hin) as [Hf Hn61].
    destruct (field_number_of i (tag / 8) f (pref_of (tag / 8) f) Hn61) as [_ Hwt]. rewrite Hwt.
    destruct (N.eqb_spec (tag mod 8) (wire_fty f)) as [Ew|Ew]; cbn [negb].
    2:{ right. destruct (read_payload (tag mod 8) r) as [[p r']|]; [|eauto].
        destruct (N.eqb_spec (wire_fty f) (tag mod 8)); [congruence|]. cbn [negb]. eauto. }
    rewrite Ew in *. destruct (payload_len (wire_fty f) r) as [len|e] eqn:El.
    2:{ rewrite RP. right. eauto. }
    destruct RP as (p & RP & Hle). rewrite RP in *. rewrite N.eqb_refl. cbn [negb].
    pose proof (wts_struct D (VStruct ys) k Hno Hw) as (ys0 & Ey & W). inversion Ey; subst ys0. clear Ey. rewrite Ht in W.
    assert (Eti : nth_error (map fld_type fs) i = Some (go_type f)) by (rewrite (map_nth_error fld_type _ _ Efi); reflexivity).
    destruct (all2_nth _ _ _ _ _ W Eti) as (y & Eyi & Wy). cbn [mkfield f_idx f_codec get_field]. rewrite Eyi.
    destruct (map_norm_nth _ _ _ _ Hn Eyi) as (z & Ez & Nz). rewrite Ez.
    destruct Hkey as [Hko Hkc]. pose proof (conj Hko Hkc : key_fs k fs) as Hkey.
    assert (Hlk : In (mkfield i (tag_of (tag / 8) f) (pref_of (tag / 8) f)) (i_index (piget D k))).
    { apply (lookup_field_in (piget D k) (tag / 8)). unfold lookup_field. rewrite Hix, (lookup_spec fs (tag / 8) Hnum Hnd 0), Ef. reflexivity. }
    destruct (piget_field D k _ HD Hko Hlk) as (t & Et & Hfit & Hdep). cbn [mkfield f_idx f_codec] in Et, Hfit.
    rewrite Ht, Eti in Et. inversion Et; subst t. clear Et.
    assert (Hrel : old_rel f y z) by (destruct f; try exact Logic.I; exact Nz).
    assert (Hfy : fresh y = true) by (eapply fresh_nth; eassumption).
    pose proof (puts_field m f IH Hf (tag / 8)%N fuel y z r len p (skipn len r) Hfit Hdep Wy Hfy Hrel Hbr Hsr ltac:(lia) El RP) as P.
    destruct P as [P|P]; [left; rewrite P; reflexivity|].
    destruct (put sch (lib m) f (seen f r p) z) as [z'| |].
    + destruct P as (y' & P & Ny & Fy). rewrite P. rewrite Nat2Z.id, after_taken. cbn [set_field].
      pose proof (proj1 (dec_ok D HD fuel) (pref_of (tag / 8)%N f) (go_type f) (firstn len r) y Hfit Hdep Wy (bytes_okb_firstn _ _ Hbr) (small_firstn _ _ Hsr)) as T.
      rewrite P in T.
      apply IH; try assumption; try (apply bytes_okb_skipn; assumption); try (apply small_skipn; assumption).
      * rewrite skipn_length. lia.
      * apply struct_wts; try assumption. rewrite Ht. eapply all2_set; eassumption.
      * apply fresh_set; assumption.
      * apply map_norm_set; assumption.
    + destruct P as (y' & q & e & ->). right. eauto.
    + contradiction.
  - destruct (payload_len (tag mod 8) r) as [len|e] eqn:El.
    2:{ rewrite RP. right. eauto. }
    destruct RP as (p & RP & Hle). rewrite RP in *. 
    apply IH; try assumption; try (apply bytes_okb_skipn; assumption); try (apply small_skipn; assumption).
    rewrite skipn_length. lia.
Qed.
Lemma puts_plain m f : ok_fty f = true -> forall n fuel y y' r len p,
  codec_fits D (pref_of n f) (go_type f) = true -> (type_depth (go_type f) <= Nat.max 1 (decls_depth D))%nat ->
  wt D y (go_type f) = true -> fresh y = true -> old_rel f y y' ->
  bytes_okb r = true -> small r -> (length r <= m)%nat ->
  payload_len (wire_fty f) r = inl len -> read_payload (wire_fty f) r = Some (p, skipn len r) ->
  plain_put sch (plain m) f p len = true ->
  agree_d (dec fuel (pref_of n f) (firstn len r) y) len (put sch (merge m) f p y').
Proof.
  intros Hf n fuel y y' r len p Hfit Hdep Hw Hfr Hrel Hb Hs Hlen Hl Hp Hpl.
  pose proof (puts_field m f (merges_all m) Hf n fuel y y' r len p _ Hfit Hdep Hw Hfr Hrel Hb Hs Hlen Hl Hp) as P.
  destruct (seen_plain_put _ _ _ _ _ _ Hp (payload_len_ok _ _ _ Hl) Hpl) as [S1 S2]. rewrite S1, S2 in P.
  rewrite (put_sub sch f (lib m) (merge m) _ _ _ _ (fun fs xs b => lib_plain sch m fs xs b) Hpl) in P. exact P.
Qed.
Lemma merges_plain m k fs b ys xs fuel : key_fs k fs -> (length b < m)%nat ->
  bytes_okb b = true -> small b -> wts D (VStruct ys) k = true -> forallb fresh ys = true -> map norm ys = map norm xs ->
  plain m fs b = true -> agree_l (ldecs fuel k b (VStruct ys)) (merge m fs xs b).
Proof.
  intros H1 H2 H3 H4 H5 H6 H7 H8. rewrite <- lib_plain by exact H8. apply merges_all; assumption.
Qed.
End Dec.
