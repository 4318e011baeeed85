(** Decoding of every message of the types the generator makes. *)
From Coq Require Import ZifyBool ZifyNat ZifyN String.
From Verif Require Import Base Wire GoType Leaf Codec Tag Walker Api Resolve Typing SpecWire SpecTag SpecMsg SpecLib SpecProto SpecOut SpecIn
  WireFacts DecodeFacts GenFacts TypingFacts TagFacts EncFacts WalkSeq MsgResolve MsgEnc MsgDec MsgFit MsgApi ProtoGen ProtoFacts ProtoFit OutFacts.
From Verif Require Import SpecLib.
Local Open Scope Z_scope.
Ltac Zify.zify_post_hook ::= Z.div_mod_to_equations.

(** [t] is read in place of [s]. *)
Definition stands (t s : sty) : Prop :=
  go_kind t = go_kind s /\ not_sfixed t = true /\
  (wire_sty t = wire_sty s \/ wire_sty t = 0%N /\ match t with Y_int32 | Y_int64 | Y_uint32 | Y_uint64 => true | _ => false end = true).
Lemma own_stands s : stands (own s) s.
Proof. unfold stands. destruct s; cbn; intuition. Qed.
Lemma item_stands s : stands (item s) s.
Proof. unfold stands. destruct s; cbn; intuition. Qed.
Lemma entry_stands s : stands (in_entry s) s.
Proof. unfold stands. destruct s; cbn; intuition. Qed.

Lemma scalar_any D s t md r n p v : stands t s -> static_mode md = true -> small r -> wt D v (TScalar (go_kind s)) = true ->
  payload_len (wire_sty s) r = inl n -> read_payload (wire_sty s) r = Some (p, skipn n r) ->
  match take s t r p (skipn n r) with
  | Some (q, next) => exists v' k, read_scalar t q = Some v' /\ next = skipn k r /\ l_decode (static (SC (wk_of t) md)) (firstn n r) v = DRet v' (Z.of_nat k) None
  | None => exists v' k e, l_decode (static (SC (wk_of t) md)) (firstn n r) v = DRet v' k (Some e)
  end.
Proof.
  intros (G & S & W) Hm Hsm Hw Hl Hp. rewrite <- G in Hw. unfold take.
  destruct (N.eqb_spec (wire_sty t) (wire_sty s)) as [E|E].
  - rewrite <- E in *. destruct (scalar_lib D t md r n p _ v S Hm Hsm Hw Hl Hp) as (v' & R & Dn). exists v', (takes t n).
    split; [exact R|]. split; [|exact Dn]. destruct t; reflexivity || (cbn [takes]; destruct r; reflexivity).
  - destruct W as [W|(_ & T)]; [congruence|]. apply payload_len_ok in Hl as Hle. rewrite skipn_length. replace (length r - (length r - n))%nat with n by lia.
    pose proof (decodeVarint_spec (firstn n r)) as V. destruct (read_varint (firstn n r)) as [u k r2| |] eqn:Er.
    + apply read_varint_ok in Er. destruct Er as (Hu & _).
      destruct t; try discriminate T; cbn [go_kind] in Hw; wtd v; eexists; exists k; (split; [reflexivity|]); (split; [reflexivity|]);
        destruct md; try discriminate Hm; cbn [wk_of static l_decode int32Codec int32RequiredCodec int64Codec int64RequiredCodec uint32Codec uint32RequiredCodec uint64Codec uint64RequiredCodec];
        unfold decodeInt32, decodeInt64, decodeUint32, decodeUint64; rewrite V; cbn [wr_i32 wr_i64 wr_u32 wr_u64 wret];
        first [rewrite signed_32 by exact Hu|rewrite signed_64 by exact Hu|rewrite mod_32|idtac]; reflexivity.
    + destruct t; try discriminate T; cbn [go_kind] in Hw; wtd v; try (destruct V as (y & V));
        destruct md; try discriminate Hm; cbn [wk_of static l_decode int32Codec int32RequiredCodec int64Codec int64RequiredCodec uint32Codec uint32RequiredCodec uint64Codec uint64RequiredCodec];
        unfold decodeInt32, decodeInt64, decodeUint32, decodeUint64; rewrite V; do 3 eexists; reflexivity.
    + destruct t; try discriminate T; cbn [go_kind] in Hw; wtd v; try (destruct V as (y & V));
        destruct md; try discriminate Hm; cbn [wk_of static l_decode int32Codec int32RequiredCodec int64Codec int64RequiredCodec uint32Codec uint32RequiredCodec uint64Codec uint64RequiredCodec];
        unfold decodeInt32, decodeInt64, decodeUint32, decodeUint64; rewrite V; do 3 eexists; reflexivity.
Qed.

Lemma f32_parts n : (n < 4294967296)%N ->
  f32_nan n = ((n / 2^23) mod 2^8 =? 2^8 - 1)%N && negb (n mod 2^23 =? 0)%N /\
  (N.land n 2147483647 =? 0)%N = ((n / 2^23) mod 2^8 =? 0)%N && (n mod 2^23 =? 0)%N.
Proof.
  intros H. unfold f32_nan. change 2147483647%N with (N.ones 31). rewrite N.land_ones. change (2^31)%N with 2147483648%N. change (2^23)%N with 8388608%N. change (2^8)%N with 256%N. change (256 - 1)%N with 255%N. split; lia.
Qed.
Lemma f64_parts n : (n < M64)%N ->
  f64_nan n = ((n / 2^52) mod 2^11 =? 2^11 - 1)%N && negb (n mod 2^52 =? 0)%N /\
  (N.land n 9223372036854775807 =? 0)%N = ((n / 2^52) mod 2^11 =? 0)%N && (n mod 2^52 =? 0)%N.
Proof.
  intros H. unfold M64 in H. unfold f64_nan. change 9223372036854775807%N with (N.ones 63). rewrite N.land_ones. change (2^63)%N with 9223372036854775808%N. change (2^52)%N with 4503599627370496%N. change (2^11)%N with 2048%N. change (2048 - 1)%N with 2047%N. split; lia.
Qed.
Lemma same_key_any D k a b : wt D a (TScalar (go_kind k)) = true -> wt D b (TScalar (go_kind k)) = true ->
  key_eqb a b = same_key a b.
Proof.
  destruct k; intros Ha Hb; cbn [go_kind] in *; wtd a; wtd b; try reflexivity; cbn [wt] in Ha, Hb; apply N.ltb_lt in Ha, Hb; cbn [key_eqb same_key]; unfold same_float.
  - destruct (f32_parts _ Ha) as [-> ->], (f32_parts _ Hb) as [-> ->]. reflexivity.
  - destruct (f64_parts _ Ha) as [-> ->], (f64_parts _ Hb) as [-> ->]. reflexivity.
Qed.
Lemma assign_any D k a x x' : wt D a (TScalar (go_kind k)) = true -> norm x = norm x' ->
  forall l l', forallb (fun kv => wt D (fst kv) (TScalar (go_kind k))) l = true -> map norm_kv l = map norm_kv l' ->
  map norm_kv (map_assign l a x) = map norm_kv (put_entry l' a x').
Proof.
  intros Ha Hx. induction l as [|[k1 x1] l IH]; intros [|[k2 x2] l'] Hl E; try discriminate.
  - cbn. congruence.
  - cbn [map norm_kv] in E. inversion E; subst. cbn [forallb fst] in Hl. apply andb_true_iff in Hl. destruct Hl as [Hl1 Hl].
    cbn [map_assign put_entry]. rewrite (same_key_any D k k2 a Hl1 Ha). destruct (same_key k2 a); cbn [map norm_kv]; [congruence|].
    f_equal; [congruence|]. apply IH; assumption.
Qed.

(** The codec of a field of a message or of an entry. *)
Definition cod (n : N) (f : fty) : pref := match f with FAlways s => PStatic (SC (wk_of (in_entry s)) Normal) | _ => act n f end.
Fixpoint cod_fields (i : nat) (fs : list sfld) : list (sfield pref) :=
  match fs with
  | [] => []
  | Hidden _ :: fs => cod_fields (S i) fs
  | Field n f :: fs => mkfield i (tag_of n f) (cod n f) :: cod_fields (S i) fs
  end.
Lemma act_cod fs : generable_msg fs = true -> forall i, act_fields i fs = cod_fields i fs.
Proof.
  unfold generable_msg. induction fs as [|[t|n f] fs IH]; intros H i; cbn [act_fields cod_fields]; [reflexivity| |];
    cbn [forallb] in H; apply andb_true_iff in H; destruct H as [H1 H]; rewrite IH by exact H; [reflexivity|]. destruct f; try discriminate H1; reflexivity.
Qed.
Lemma lookup_cod fs n : nums_ok fs = true -> nodup_N (numbers fs) = true -> forall i,
  find (fun f => (fieldNumber f =? n)%N) (rev (cod_fields i fs)) =
  option_map (fun jf => mkfield (fst jf) (tag_of n (snd jf)) (cod n (snd jf))) (find_field i fs n).
Proof.
  induction fs as [|[t|n' f] fs IH]; intros Hn Hd i; cbn [cod_fields find_field rev]; [reflexivity|apply IH; assumption|].
  unfold nums_ok in Hn. cbn [numbers forallb nodup_N] in Hn, Hd. apply andb_true_iff in Hn. destruct Hn as [Hn1 Hn].
  apply andb_true_iff in Hn1. destruct Hn1 as [_ Hn1]. apply num_61 in Hn1. destruct Hn1 as [_ Hn1].
  apply andb_true_iff in Hd. destruct Hd as [Hd1 Hd]. rewrite find_app, IH by assumption.
  cbn [find]. destruct (field_number_of i n' f (cod n' f) Hn1) as [-> _].
  destruct (N.eqb_spec n' n) as [->|].
  - rewrite find_field_none by (apply nodup_not_in; assumption). reflexivity.
  - destruct (find_field (S i) fs n); reflexivity.
Qed.

(** A field that is read. *)
Definition okay_in (f : fty) : bool :=
  match f with
  | FImplicit _ | FOptional _ | FAlways _ | FBytes | FMessage _ => true
  | FRepeated e => generable_elem e
  | FMap _ e => generable_elem e
  | _ => false
  end.

Section In.
Variables (D : decls) (sch : schema).
Hypothesis HI : implements D sch = true.
Hypothesis HS : schema_ok sch = true.
Hypothesis HG : forallb generable_msg sch = true.
Hypothesis HD : decls_fit D = true.
Notation dec := (dec plook (piget D) D).
Notation ldecs := (ldecs plook (piget D) D).
Notation any := (merge_any sch).

Definition key_fs (k : skey) (fs : list sfld) : Prop :=
  key_ok D k /\
  ((exists m, k = SNamed m /\ fs = msg sch m) \/
   (exists kk e, generable_elem e = true /\ k = entry_key kk e /\ fs = entry_fs kk e)).

Lemma key_fs_facts k fs : key_fs k fs ->
  i_index (piget D k) = cod_fields 0 fs /\ key_types D k = map fld_type fs /\ zero_struct D k = VStruct (zeros fs) /\
  nums_ok fs = true /\ nodup_N (numbers fs) = true /\ (forall q, k <> SOpt q) /\
  (forall n f, In (Field n f) fs -> okay_in f = true /\ (n < 2^61)%N).
Proof.
  intros [Hk [(m & -> & ->)|(kk & e & He & -> & ->)]].
  - destruct (schema_ok_msg sch HS m) as (A & B & _). rewrite (act_info D sch HI HS HG). cbn [i_index key_types].
    rewrite (field_types_of D sch HI), (zero_struct_of D sch HI). rewrite (act_cod _ (gen_msg_nth sch HG m)).
    repeat (split; [first [reflexivity|assumption|discriminate]|]).
    intros n f Hin. pose proof (gen_msg_nth sch HG m) as S. unfold generable_msg in S. rewrite forallb_forall in S.
    split.
    { specialize (S _ Hin). cbn beta iota in S. destruct f; try discriminate S; try exact S; reflexivity. }
    unfold nums_ok in A. rewrite forallb_forall in A.
    assert (I : In n (numbers (msg sch m))).
    { clear - Hin. induction (msg sch m) as [|[t|n' f'] l IH]; [destruct Hin| |]; cbn [numbers].
      - apply IH. destruct Hin as [H|H]; [discriminate|assumption].
      - destruct Hin as [H|H]; [inversion H; left; reflexivity|right; auto]. }
    apply A in I. apply andb_true_iff in I. destruct I as [_ I]. apply num_61 in I. apply I.
  - unfold entry_key, piget, pinfo. cbn [struct_fields]. rewrite (act_entry kk e He). cbn [i_index].
    split; [destruct e; try discriminate He; destruct kk; try reflexivity; destruct s; reflexivity|]. split; [destruct e; reflexivity|]. split; [destruct kk, e; reflexivity|].
    repeat (split; [first [reflexivity|discriminate]|]).
    intros n f [H|[H|[]]]; inversion H; subst; (split; [|reflexivity]).
    + reflexivity.
    + destruct f; try discriminate He; reflexivity.
Qed.
Definition merges (m : nat) : Prop := forall k fs b ys xs fuel, key_fs k fs -> (length b < m)%nat ->
  bytes_okb b = true -> small b -> wts D (VStruct ys) k = true -> forallb fresh ys = true -> map norm ys = map norm xs ->
  agree_l (ldecs fuel k b (VStruct ys)) (any m fs xs b).

(** The field [f], read as [g] by the codec [c]. *)
Definition picks (f g : fty) (r : list N) (p : payload) (r' : list N) : option (payload * list N) :=
  match scalar_of f, scalar_of g with Some s, Some t => take s t r p r' | _, _ => Some (p, r') end.
Definition puts (m : nat) (c : pref) (f g : fty) : Prop := forall fuel y y' r len p,
  codec_fits D c (go_type f) = true -> (type_depth (go_type f) <= Nat.max 1 (decls_depth D))%nat ->
  wt D y (go_type f) = true -> fresh y = true -> old_rel f y y' ->
  bytes_okb r = true -> small r -> (length r <= m)%nat ->
  payload_len (wire_fty f) r = inl len -> read_payload (wire_fty f) r = Some (p, skipn len r) ->
  match picks f g r p (skipn len r) with
  | Some (q, next) => exists k, next = skipn k r /\ agree_d (dec fuel c (firstn len r) y) k (put sch (any m) g q y')
  | None => agree_d (dec fuel c (firstn len r) y) 0 MBad
  end.

Lemma puts_scalar s t md fuel y r len p : stands t s -> static_mode md = true -> small r ->
  wt D y (TScalar (go_kind s)) = true -> payload_len (wire_sty s) r = inl len -> read_payload (wire_sty s) r = Some (p, skipn len r) ->
  match take s t r p (skipn len r) with
  | Some (q, next) => exists v k, read_scalar t q = Some v /\ scalar v = true /\ next = skipn k r /\
      (dec fuel (PStatic (SC (wk_of t) md)) (firstn len r) y = DFuel \/ dec fuel (PStatic (SC (wk_of t) md)) (firstn len r) y = DRet v (Z.of_nat k) None)
  | None => dec fuel (PStatic (SC (wk_of t) md)) (firstn len r) y = DFuel \/
      exists v k e, dec fuel (PStatic (SC (wk_of t) md)) (firstn len r) y = DRet v k (Some e)
  end.
Proof.
  intros H1 H2 H3 H4 H5 H6. pose proof (scalar_any D s t md r len p y H1 H2 H3 H4 H5 H6) as A.
  destruct (take s t r p (skipn len r)) as [[q next]|].
  - destruct A as (v & k & E1 & E2 & E3). exists v, k.
    split; [exact E1|]. split; [eapply read_scalar_scalar; eassumption|]. split; [exact E2|].
    destruct fuel as [|fuel]; [left; reflexivity|right]. rewrite dec_S. cbn [plook]. exact E3.
  - destruct fuel as [|fuel]; [left; reflexivity|right]. rewrite dec_S. cbn [plook]. exact A.
Qed.
Lemma puts_plain_scalar m s t md f g : stands t s -> static_mode md = true -> 
  (forall sub q y, put sch sub g q y = of_option (read_scalar t q)) -> scalar_of f = Some s -> scalar_of g = Some t -> go_type f = TScalar (go_kind s) -> wire_fty f = wire_sty s ->
  puts m (PStatic (SC (wk_of t) md)) f g.
Proof.
  intros Hst Hmd Hput Ef Eg Et Ew fuel y y' r len p Hfit Hdep Hw Hfr Hrel Hb Hs Hlen Hl Hp. unfold picks. rewrite Ef, Eg. rewrite Et in Hw. rewrite Ew in Hl, Hp.
  pose proof (puts_scalar s t md fuel y r len p Hst Hmd Hs Hw Hl Hp) as A.
  destruct (take s t r p (skipn len r)) as [[q next]|].
  - destruct A as (v & k & E1 & Sv & E2 & A). exists k. split; [exact E2|]. rewrite Hput, E1. cbn [of_option].
    destruct A as [A|A]; [left; exact A|right]. exists v. split; [exact A|]. split; [reflexivity|apply scalar_norm, Sv].
  - destruct A as [A|A]; [left; exact A|right; exact A].
Qed.
Lemma puts_message m m0 : merges m -> puts m (PStruct (SNamed m0)) (FMessage m0) (FMessage m0).
Proof.
  intros IH fuel y y' r len p Hfit Hdep Hw Hfr Hrel Hb Hs Hlen Hl Hp. 
  cbn [wire_fty go_type old_rel] in *.   unfold picks. cbn [scalar_of]. exists len. split; [reflexivity|].
  destruct fuel as [|fuel]; [left; reflexivity|].
  destruct (len_payload _ _ _ _ Hl Hp) as (d & k & -> & E & El & Hk). cbn [put] in *.
  apply payload_len_ok in Hl as Hle.
  assert (Hkk : key_ok D (SNamed m0)).
  { cbn [codec_fits flat_fits] in Hfit. btrue. assumption. }
  assert (Hkey : key_fs (SNamed m0) (msg sch m0)) by (split; [assumption|left; eauto]).
  destruct (key_fs_facts _ _ Hkey) as (_ & Ht & Hz & _ & _ & Hno & _).
  destruct (wt_msg _ _ _ Hw) as (o & -> & Hx). destruct (norm_ptr_inv _ _ Hrel) as (o' & -> & Ho).
  destruct (dec_struct plook (piget D) D fuel (PStruct (SNamed m0)) (SNamed m0) (SNamed m0) (firstn len r) o (small_firstn _ _ Hs) eq_refl) as [q Eq].
  rewrite Eq, E. clear Eq. cbv zeta.
  assert (Hd : d = skipn k (firstn len r)) by (apply read_varint_ok in E; symmetry; apply E).
  assert (Hbd : bytes_okb d = true) by (rewrite Hd; apply bytes_okb_skipn, bytes_okb_firstn; assumption).
  assert (Hsd : small d) by (rewrite Hd; apply small_skipn, small_firstn; assumption).
  assert (Hld : (length d < m)%nat) by lia.
  assert (S : exists ys xs, match o with Some x => x | None => zero_struct D (SNamed m0) end = VStruct ys /\
      match VPtr o' with VPtr (Some (VStruct xs)) => xs | _ => zeros (msg sch m0) end = xs /\
      wts D (VStruct ys) (SNamed m0) = true /\ forallb fresh ys = true /\ map norm ys = map norm xs).
  { destruct o as [x|], o' as [x'|]; try discriminate; cbn [option_map] in Ho.
    - destruct (wts_struct D x (SNamed m0) Hno Hx) as (ys & -> & _). inversion Ho as [Hn].
      destruct (norm_struct_inv ys x' Hn) as (xs & -> & Hm). exists ys, xs. repeat (split; [first [reflexivity|assumption]|]). assumption.
    - exists (zeros (msg sch m0)), (zeros (msg sch m0)). split; [exact Hz|]. split; [reflexivity|].
      split; [rewrite <- Hz; apply zero_struct_wts; assumption|]. split; [|reflexivity].
      unfold zeros. rewrite forallb_forall. intros v Hv. apply in_map_iff in Hv. destruct Hv as (f & <- & _).
      destruct (fld_type f) as [[]| |[]| | | | |]; reflexivity. }
  destruct S as (ys & xs & -> & -> & Wy & Fy & Ny).
  specialize (IH (SNamed m0) (msg sch m0) d ys xs fuel Hkey Hld Hbd Hsd Wy Fy Ny).
  destruct IH as [IH|IH]; [left; rewrite IH; reflexivity|]. right. destruct (any m (msg sch m0) xs d) as [xs'| |]; cbn [mmap].
  - destruct IH as (ys' & -> & N' & F'). eexists. rewrite zlen_firstn_le by assumption. split; [reflexivity|].
    split; [cbn [norm]; rewrite N'; reflexivity|exact F'].
  - destruct IH as (x & e & ->). eauto.
  - exact IH.
Qed.


Lemma puts_bytes m : puts m (PStatic SCBytes) FBytes FBytes.
Proof.
  intros fuel y y' r len p Hfit Hdep Hw Hfr Hrel Hb Hs Hlen Hl Hp. unfold picks. cbn [scalar_of]. exists len. split; [reflexivity|].
  destruct fuel as [|fuel]; [left; reflexivity|]. right. cbn [wire_fty go_type] in *.
  destruct (varlen_dec _ _ _ _ Hs Hl Hp) as (d & -> & E & Hn). cbn [put].
  rewrite dec_S. cbn [plook static l_decode bytesCodec]. unfold decodeBytes. rewrite E.
  exists (VBytes (Some d)). split; [|split; reflexivity]. wtd y; reflexivity.
Qed.
(** Elements of lists. *)
Definition as_item (e : fty) : fty := match e with FAlways s => FAlways (item s) | _ => e end.
Lemma puts_elem m e : merges m -> generable_elem e = true -> puts m (act_elem e) e (as_item e).
Proof.
  intros IH He. destruct e as [s|s|s|s| |m0|e|k e]; try discriminate; [|apply puts_bytes|apply puts_message; assumption].
  cbn [act_elem as_item]. rewrite wk_item. apply (puts_plain_scalar m s); try reflexivity. apply item_stands.
Qed.
Lemma fresh_slot e (y : val) : generable_elem e = true -> wt D y (go_type e) = true ->
  match y with VPtr (Some _) => false | _ => true end = true -> fresh y = true /\ old_rel e y (zero (go_type e)).
Proof.
  intros He Hw Hy. destruct e as [s|s|s|s| |m0|e|k e]; try discriminate; cbn [go_type old_rel] in *.
  - split; [|exact Logic.I]. apply wt_scalar in Hw. apply scalar_norm. assumption.
  - split; [|exact Logic.I]. wtd y; reflexivity.
  - destruct (wt_msg _ _ _ Hw) as ([x|] & -> & _); [discriminate|]. split; reflexivity.
Qed.
Lemma zero_slot e : generable_elem e = true -> match zero (go_type e) with VPtr (Some _) => false | _ => true end = true.
Proof. destruct e as [s|s|s|s| |m0|e|k e]; try discriminate; [destruct s; reflexivity|reflexivity|reflexivity]. Qed.


Lemma puts_field m n f : merges m -> okay_in f = true -> puts m (cod n f) f (as_read f).
Proof.
  intros IH Hf. destruct f as [s|s|s|s| |m0|e|k e]; cbn [okay_in] in Hf; try discriminate Hf; cbn [cod act as_read].
  - rewrite wk_own. apply (puts_plain_scalar m s); try reflexivity. apply own_stands.
  - intros fuel y y' r len p Hfit Hdep Hw Hfr Hrel Hb Hs Hlen Hl Hp. unfold picks. cbn [scalar_of go_type wire_fty put] in *.
    wtd y. cbn [wt] in Hw. rewrite wk_own.
    pose proof (puts_scalar s (own s) Required (S fuel) y r len p (own_stands s) eq_refl Hs Hw Hl Hp) as A.
    assert (O : forall w b, l_decode (static (SC w Optional)) b (VOpt some y) = dmap (VOpt true) (l_decode (static (SC w Required)) b y)) by (intros [] b; reflexivity).
    rewrite dec_S in A. cbn [plook] in A.
    destruct (take s (own s) r p (skipn len r)) as [[q next]|].
    + destruct A as (v & k & E1 & Sv & E2 & A). exists k. split; [exact E2|]. rewrite E1. cbn [of_option mmap].
      destruct fuel as [|fuel]; [left; reflexivity|]. rewrite dec_S. cbn [plook]. rewrite O.
      destruct A as [A|A]; rewrite A; [left; reflexivity|right]. exists (VOpt true v). repeat split.
    + destruct fuel as [|fuel]; [left; reflexivity|]. rewrite dec_S. cbn [plook]. rewrite O.
      destruct A as [A|(v & k & e & A)]; rewrite A; [left; reflexivity|right]. do 3 eexists. reflexivity.
  - apply (puts_plain_scalar m s); try reflexivity. apply entry_stands.
  - apply puts_bytes.
  - apply puts_message; assumption.
  - (* repeated *)
    intros fuel y y' r len p Hfit Hdep Hw Hfr Hrel Hb Hs Hlen Hl Hp. cbn [go_type wire_fty old_rel] in *.
    destruct (wt_slice _ _ _ Hw) as (nn & items & spare & -> & Hi & Hsp). destruct (norm_slice_inv _ _ _ _ Hrel) as (nn' & items' & spare' & -> & Hn).
    cbn [fresh] in Hfr. apply andb_true_iff in Hfr. destruct Hfr as [Fi Fs].
    set (sp := match spare with [] => grow_spare (go_type e) (length items) | _ => spare end).
    assert (Wsp : forallb (fun x => wt D x (go_type e)) sp = true) by (unfold sp; destruct spare; [apply grow_spare_wt|assumption]).
    assert (Fsp : forallb (fun x => match x with VPtr (Some _) => false | _ => true end) sp = true).
    { unfold sp. destruct spare; [|assumption]. unfold grow_spare. apply forallb_forall. intros x Hx. apply repeat_spec in Hx. subst x. apply (zero_slot e Hf). }
    assert (Hne : sp <> []) by (unfold sp; destruct spare; [apply grow_spare_nonempty|discriminate]). destruct sp as [|slot sp'] eqn:Esp; [contradiction|]. cbn [forallb] in Wsp, Fsp. apply andb_true_iff in Wsp, Fsp. destruct Wsp as [Ws Wsp], Fsp as [Fs1 Fsp].
    destruct (fresh_slot e slot Hf Ws Fs1) as [Fr Or].
    assert (Hfit' : codec_fits D (act_elem e) (go_type e) = true).
    { cbn [codec_fits] in Hfit. btrue. destruct e; try discriminate; assumption. }
    cbn [type_depth] in Hdep.
    assert (G : picks (FRepeated e) match e with FAlways s => FRepeated (FAlways (item s)) | _ => FRepeated e end r p (skipn len r) = picks e (as_item e) r p (skipn len r))
      by (destruct e; try discriminate Hf; reflexivity).
    rewrite G. clear G.
    replace (match e with FAlways s => FRepeated (FAlways (item s)) | _ => FRepeated e end) with (FRepeated (as_item e)) by (destruct e; reflexivity).
    assert (Zt : go_type (as_item e) = go_type e) by (destruct e; try reflexivity; cbn [as_item go_type]; rewrite <- kind_item; reflexivity).
    destruct fuel as [|fuel].
    { destruct (picks e (as_item e) r p (skipn len r)) as [[q next]|] eqn:Ep; [|left; reflexivity].
      pose proof (puts_elem m e IH Hf O slot (zero (go_type e)) r len p Hfit' ltac:(lia) Ws Fr Or Hb Hs Hlen Hl Hp) as P. rewrite Ep in P.
      destruct P as (k & E & _). exists k. split; [exact E|left; reflexivity]. }
    rewrite dec_S. cbn [plook]. cbv zeta. fold sp. rewrite Esp. clear Esp.
    pose proof (puts_elem m e IH Hf fuel slot (zero (go_type e)) r len p Hfit' ltac:(lia) Ws Fr Or Hb Hs Hlen Hl Hp) as P.
    destruct (picks e (as_item e) r p (skipn len r)) as [[q next]|].
    + destruct P as (k & E & P). exists k. split; [exact E|]. destruct P as [P|P]; [left; rewrite P; reflexivity|].
      right. cbn [put]. rewrite Zt. destruct (put sch (any m) (as_item e) q (zero (go_type e))) as [z| |]; cbn [mmap].
      * destruct P as (x & -> & Nx & Fx). eexists. split; [reflexivity|]. rewrite !norm_slice, !map_app, Hn. cbn [map]. rewrite Nx.
        split; [destruct items, items'; try discriminate Hn; reflexivity|]. cbn [fresh]. rewrite forallb_app, Fi. cbn [forallb]. rewrite Fx, Fsp. reflexivity.
      * destruct P as (x & q' & e' & ->). do 3 eexists. reflexivity.
      * exact P.
    + destruct P as [P|(x & q' & e' & P)]; rewrite P; [left; reflexivity|right]. do 3 eexists. reflexivity.
  - (* map *)
    intros fuel y y' r len p Hfit Hdep Hw Hfr Hrel Hb Hs Hlen Hl Hp. cbn [wire_fty go_type old_rel] in *.
    pose proof Hf as He.
    unfold picks. cbn [scalar_of]. exists len. split; [reflexivity|].
    destruct (len_payload _ _ _ _ Hl Hp) as (d & q & -> & E & El & Hq). cbn [put] in *.
    apply payload_len_ok in Hl as Hle. destruct (wt_map _ _ _ _ Hw) as (mm & -> & Hm).
    destruct (norm_map_inv _ _ Hrel) as (mm' & -> & Hn). destruct fuel as [|fuel]; [left; reflexivity|].
    assert (Hkk : key_ok D (entry_key k e)).
    { cbn [codec_fits] in Hfit. cbn [type_depth] in Hdep. btrue. split; [assumption|]. lia. }
    assert (Hkey : key_fs (entry_key k e) (entry_fs k e)) by (split; [assumption|right; exists k, e; auto]).
    destruct (key_fs_facts _ _ Hkey) as (_ & Ht & Hz & _ & _ & Hno & _).
    destruct (dec_map plook (piget D) D fuel (act n (FMap k e)) (8 * n + 2) (mkfield 0 (tag_of 1 (FAlways k)) (act_elem (FAlways k))) (mkfield 1 (tag_of 2 e) (act_elem e)) (entry_key k e) (entry_key k e) (firstn len r) mm (small_firstn _ _ Hs) eq_refl) as [z Eq].
    cbn [act act_elem] in Eq |- *. rewrite Eq, E, Hz. clear Eq. cbv zeta.
    destruct (firstn len r) as [|c0 r0] eqn:E0.
    { exfalso. apply (f_equal (@length N)) in E0. rewrite firstn_length_le in E0 by assumption. cbn in E0. lia. }
    rewrite <- E0 in *. clear E0 c0 r0.
    assert (Hd : d = skipn q (firstn len r)) by (apply read_varint_ok in E; symmetry; apply E).
    assert (Hbd : bytes_okb d = true) by (rewrite Hd; apply bytes_okb_skipn, bytes_okb_firstn; assumption).
    assert (Hsd : small d) by (rewrite Hd; apply small_skipn, small_firstn; assumption).
    assert (Hld : (length d < m)%nat) by lia.
    assert (W0 : wts D (VStruct (zeros (entry_fs k e))) (entry_key k e) = true) by (rewrite <- Hz; apply zero_struct_wts; assumption).
    assert (F0 : forallb fresh (zeros (entry_fs k e)) = true).
    { unfold zeros. rewrite forallb_forall. intros v Hv. apply in_map_iff in Hv. destruct Hv as (f & <- & _).
      destruct (fld_type f) as [[]| |[]| | | | |]; reflexivity. }
    change [Field 1 (FAlways k); Field 2 e] with (entry_fs k e) in *.
    pose proof (IH _ _ d _ _ fuel Hkey Hld Hbd Hsd W0 F0 eq_refl) as IH'.
    pose proof (proj2 (dec_ok D HD fuel) (entry_key k e) d _ Hkk W0 Hbd Hsd) as T.
    destruct IH' as [IH'|IH']; [left; rewrite IH'; reflexivity|]. right.
    destruct (any m (entry_fs k e) (zeros (entry_fs k e)) d) as [xs'| |]; cbn [mmap].
    + destruct IH' as (ys' & Ey & N' & F'). rewrite Ey in *.
      apply wts_struct in T; [|exact Hno]. destruct T as (fs & Ef & W). inversion Ef; subst fs. clear Ef. cbn [key_types entry_key] in W.
      destruct ys' as [|a [|x [|]]]; cbn in W; rewrite ?andb_false_r in W; try discriminate. rewrite andb_true_r in W.
      apply andb_true_iff in W. destruct W as [Wa Wx].
      destruct xs' as [|a' [|x' [|]]]; cbn [map] in N'; try discriminate. inversion N' as [[Na Nx]].
      apply scalar_norm_inv in Na; [|eapply wt_scalar; eassumption]. subst a'.
      cbn [forallb] in F'. rewrite andb_true_r in F'. apply andb_true_iff in F'. destruct F' as [Fa Fx].
      eexists. rewrite zlen_firstn_le by assumption. split; [reflexivity|]. fold (entries mm) (entries mm').
      assert (Hwk : forallb (fun kv => wt D (fst kv) (TScalar (go_kind k))) (entries mm) = true).
      { destruct mm as [l|]; [|reflexivity]. destruct Hm as [Hm _]. cbn [entries]. rewrite forallb_forall in *. intros [a1 x1] Hin. apply Hm in Hin. apply andb_true_iff in Hin. apply Hin. }
      split.
      * rewrite !norm_map. cbn [entries]. pose proof (assign_any D k a x x' Wa Nx (entries mm) (entries mm') Hwk Hn) as A.
        pose proof (assign_nonempty (entries mm) a x). pose proof (put_nonempty (entries mm') a x').
        destruct (map_assign (entries mm) a x), (put_entry (entries mm') a x'); try contradiction. congruence.
      * cbn [fresh]. apply fresh_assign; [|assumption]. destruct mm; [exact Hfr|reflexivity].
    + destruct IH' as (x & e' & ->). eauto.
    + exact IH'.
Qed.

Lemma merges_all m : merges m.
Proof.
  induction m as [|m IH]; intros k fs b ys xs fuel Hkey Hlen Hb Hs Hw Hfr Hn; [lia|].
  destruct fuel as [|fuel]; [left; reflexivity|]. cbn [DecodeFacts.ldecs merge_any] in *.
  destruct b as [|c0 b0] eqn:Eb; [right; eauto|]. rewrite <- Eb in *. assert (Hne : (1 <= length b)%nat) by (rewrite Eb; cbn; lia). clear Eb c0 b0.
  destruct (key_fs_facts _ _ Hkey) as (Hix & Ht & Hz & Hnum & Hnd & Hno & Hok).
  unfold lstep. destruct (read_varint b) as [tag kk r| |] eqn:Er; [|right; eauto..].
  apply read_varint_ok in Er as Er'. destruct Er' as (Htag & _ & Hr & Hkk & _).
  assert (Hbr : bytes_okb r = true) by (rewrite <- Hr; apply bytes_okb_skipn; assumption).
  assert (Hsr : small r) by (rewrite <- Hr; apply small_skipn; assumption).
  assert (Hlr : (length r < length b)%nat) by (rewrite <- Hr, skipn_length; lia).
  unfold lookup_field. rewrite Hix, (lookup_cod fs (tag / 8) Hnum Hnd 0).
  pose proof (read_payload_len (tag mod 8) r) as RP.
  destruct (find_field 0 fs (tag / 8)) as [[i f]|] eqn:Ef; cbn [option_map fst snd].
  - apply find_field_in in Ef as Efi. destruct Efi as [_ Efi]. rewrite Nat.sub_0_r in Efi.
    apply nth_error_In in Efi as Hin. destruct (Hok _ _ Hin) as [Hf Hn61].
    destruct (field_number_of i (tag / 8) f (cod (tag / 8) f) Hn61) as [_ Hwt]. rewrite Hwt.
    destruct (N.eqb_spec (tag mod 8) (wire_fty f)) as [Ew|Ew]; cbn [negb].
    2:{ right. destruct (read_payload (tag mod 8) r) as [[p r']|]; [|eauto].
        destruct (N.eqb_spec (wire_fty f) (tag mod 8)); [congruence|]. cbn [negb]. eauto. }
    rewrite Ew in *. destruct (payload_len (wire_fty f) r) as [len|e] eqn:El.
    2:{ rewrite RP. right. eauto. }
    destruct RP as (p & RP & Hle). rewrite RP in *. rewrite N.eqb_refl. cbn [negb].
    pose proof (wts_struct D (VStruct ys) k Hno Hw) as (ys0 & Ey & W). inversion Ey; subst ys0. clear Ey. rewrite Ht in W.
    assert (Eti : nth_error (map fld_type fs) i = Some (go_type f)) by (rewrite (map_nth_error fld_type _ _ Efi); reflexivity).
    destruct (all2_nth _ _ _ _ _ W Eti) as (y & Eyi & Wy). cbn [mkfield f_idx f_codec get_field]. rewrite Eyi.
    destruct (map_norm_nth _ _ _ _ Hn Eyi) as (z & Ez & Nz). rewrite Ez.
    destruct Hkey as [Hko Hkc]. pose proof (conj Hko Hkc : key_fs k fs) as Hkey.
    assert (Hlk : In (mkfield i (tag_of (tag / 8) f) (cod (tag / 8) f)) (i_index (piget D k))).
    { apply (lookup_field_in (piget D k) (tag / 8)). unfold lookup_field. rewrite Hix, (lookup_cod fs (tag / 8) Hnum Hnd 0), Ef. reflexivity. }
    destruct (piget_field D k _ HD Hko Hlk) as (t & Et & Hfit & Hdep). cbn [mkfield f_idx f_codec] in Et, Hfit.
    rewrite Ht, Eti in Et. inversion Et; subst t. clear Et.
    assert (Hrel : old_rel f y z) by (destruct f; try exact Logic.I; exact Nz).
    assert (Hfy : fresh y = true) by (eapply fresh_nth; eassumption).
    pose proof (puts_field m (tag / 8)%N f IH Hf fuel y z r len p Hfit Hdep Wy Hfy Hrel Hbr Hsr ltac:(lia) El RP) as P.
    change (pick f r p (skipn len r)) with (picks f (as_read f) r p (skipn len r)).
    destruct (picks f (as_read f) r p (skipn len r)) as [[q next]|].
    2:{ destruct P as [P|(y' & q & e & P)]; rewrite P; [left; reflexivity|right]. eauto. }
    destruct P as (j & -> & P). destruct P as [P|P]; [left; rewrite P; reflexivity|].
    destruct (put sch (any m) (as_read f) q z) as [z'| |].
    + destruct P as (y' & P & Ny & Fy). rewrite P. rewrite Nat2Z.id. cbn [set_field].
      pose proof (proj1 (dec_ok D HD fuel) (cod (tag / 8)%N f) (go_type f) (firstn len r) y Hfit Hdep Wy (bytes_okb_firstn _ _ Hbr) (small_firstn _ _ Hsr)) as T.
      rewrite P in T.
      apply IH; try assumption; try (apply bytes_okb_skipn; assumption); try (apply small_skipn; assumption).
      * rewrite skipn_length. lia.
      * apply struct_wts; try assumption. rewrite Ht. eapply all2_set; eassumption.
      * apply fresh_set; assumption.
      * apply map_norm_set; assumption.
    + destruct P as (y' & q' & e & ->). right. eauto.
    + contradiction.
  - destruct (payload_len (tag mod 8) r) as [len|e] eqn:El.
    2:{ rewrite RP. right. eauto. }
    destruct RP as (p & RP & Hle). rewrite RP in *. 
    apply IH; try assumption; try (apply bytes_okb_skipn; assumption); try (apply small_skipn; assumption).
    rewrite skipn_length. lia.
Qed.
End In.
