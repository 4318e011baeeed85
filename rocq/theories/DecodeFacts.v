(** The decoder of Codec.v restated on lists: offsets replaced by the remaining
    input. Everything here is generic in the codec graph. *)
From Coq Require Import ZifyBool ZifyNat ZifyN.
From Verif Require Import Base Wire GoType Leaf Codec SpecWire WireFacts.
Local Open Scope Z_scope.
Ltac Zify.zify_post_hook ::= Z.div_mod_to_equations.

(** ** Slicing *)
Lemma from_ok b lo : 0 <= lo <= zlen b -> from_ b lo = Some (skipn (Z.to_nat lo) b).
Proof.
  intros. unfold from_. replace ((0 <=? lo) && (lo <=? zlen b))%bool with true by lia. reflexivity.
Qed.
Lemma sub_ok b lo hi : 0 <= lo <= hi -> hi <= zlen b ->
  sub_ b lo hi = Some (firstn (Z.to_nat (hi - lo)) (skipn (Z.to_nat lo) b)).
Proof.
  intros. unfold sub_. replace ((0 <=? lo) && (lo <=? hi) && (hi <=? zlen b))%bool with true by lia.
  reflexivity.
Qed.
Lemma zlen_skipn {A} (b : list A) n : zlen (skipn n b) = Z.max 0 (zlen b - Z.of_nat n).
Proof. unfold zlen. rewrite skipn_length. lia. Qed.
Lemma skipn_skipn' {A} (b : list A) n m : skipn n (skipn m b) = skipn (m + n) b.
Proof. revert b. induction m; intros; [reflexivity|]. destruct b; cbn; [now rewrite skipn_nil|apply IHm]. Qed.

(** ** Delimiting one record *)

(** Bytes of the payload of a record of wire type [wt] at the front of [r]:
    their number, or the error. *)
Definition payload_len (wt : N) (r : bytes) : nat + err :=
  if (wt =? wt_varint)%N then
    match read_varint r with
    | VOk _ n _ => inl n
    | VEof => inr ErrUnexpectedEOF
    | VOverflow _ => inr ErrVarintOverflow
    end
  else if (wt =? wt_varlen)%N then
    match read_varint r with
    | VOk l n r' => if (N.of_nat (length r') <? l)%N then inr ErrUnexpectedEOF
                    else inl (n + N.to_nat l)%nat
    | VEof => inr ErrUnexpectedEOF
    | VOverflow _ => inr ErrVarintOverflow
    end
  else if (wt =? wt_fixed32)%N then
    if (length r <? 4)%nat then inr ErrUnexpectedEOF else inl 4%nat
  else if (wt =? wt_fixed64)%N then
    if (length r <? 8)%nat then inr ErrUnexpectedEOF else inl 8%nat
  else inr ErrWireTypeUnknown.

Inductive lstep_res R :=
| LsErr (e : err)
| LsSkip (rest : bytes)
| LsDec (fn wt : N) (f : sfield R) (data : bytes) (rest : bytes).
Arguments LsErr {R} e.
Arguments LsSkip {R} rest.
Arguments LsDec {R} fn wt f data rest.

(** One turn of the loop of struct.go:58-139 on the remaining input [b].
    [rest] of [LsDec] starts at the payload. *)
Definition lstep {R} (info : sinfo R) (b : bytes) : lstep_res R :=
  match read_varint b with
  | VEof => LsErr ErrUnexpectedEOF
  | VOverflow _ => LsErr ErrVarintOverflow
  | VOk v _ r =>
    let fn := (v / 8)%N in
    let wt := (v mod 8)%N in
    match lookup_field info fn with
    | None =>
      match payload_len wt r with
      | inl n => LsSkip (skipn n r)
      | inr e => LsErr (fieldError fn wt e)
      end
    | Some f =>
      if negb (wt =? wireType f)%N then LsErr (fieldError fn wt (ErrExpectedWireType (wireType f)))
      else match payload_len wt r with
           | inl n => LsDec fn wt f (firstn n r) r
           | inr e => LsErr (fieldError fn wt e)
           end
    end
  end.

Lemma payload_len_ok wt r n : payload_len wt r = inl n -> (n <= length r)%nat.
Proof.
  unfold payload_len.
  destruct (wt =? wt_varint)%N; [|destruct (wt =? wt_varlen)%N;
    [|destruct (wt =? wt_fixed32)%N; [|destruct (wt =? wt_fixed64)%N]]].
  - destruct (read_varint r) as [v k r'| |] eqn:E; try discriminate.
    intros H; inversion H; subst. apply read_varint_ok in E. lia.
  - destruct (read_varint r) as [v k r'| |] eqn:E; try discriminate.
    destruct (N.ltb_spec (N.of_nat (length r')) v); [discriminate|]. intros H0; inversion H0; subst.
    apply read_varint_ok in E. destruct E as (_ & E & E2 & _ & L). 
    apply (f_equal (@length N)) in E2. rewrite skipn_length in E2. lia.
  - destruct (Nat.ltb_spec (length r) 4); [discriminate|]. intros H0; inversion H0; subst. lia.
  - destruct (Nat.ltb_spec (length r) 8); [discriminate|]. intros H0; inversion H0; subst. lia.
  - discriminate.
Qed.

(** Lengths of Go slices are below 2^63. *)
Definition small (b : bytes) : Prop := zlen b < Z63.

Lemma read_varint_skip b v k r : read_varint b = VOk v k r -> r = skipn k b /\ zlen r = zlen b - Z.of_nat k.
Proof.
  intros H. apply read_varint_ok in H. destruct H as (_ & _ & <- & _ & L).
  split; [reflexivity|]. rewrite zlen_skipn. unfold zlen. lia.
Qed.

Lemma u64_zlen z : 0 <= z < Z63 -> u64 z = Z.to_N z.
Proof. intros. apply u64_small. unfold Z63, Z64 in *. lia. Qed.

Lemma skip_unknown_spec b off wt : small b -> 0 <= off <= zlen b ->
  match payload_len wt (skipn (Z.to_nat off) b) with
  | inl n => skip_unknown b off wt = OK (off + Z.of_nat n, None)
  | inr e => exists o, skip_unknown b off wt = OK (o, Some e)
  end.
Proof.
  intros Hs Ho. unfold skip_unknown. rewrite from_ok by assumption.
  set (r := skipn (Z.to_nat off) b).
  assert (Hr : zlen r = zlen b - off) by (unfold r; rewrite zlen_skipn; lia).
  assert (Hrl : Z.of_nat (length r) = zlen b - off) by exact Hr.
  unfold payload_len, small in *. pose proof (decodeVarint_spec r) as Hd.
  destruct (wt =? wt_varint)%N; [|destruct (wt =? wt_varlen)%N;
    [|destruct (wt =? wt_fixed32)%N; [|destruct (wt =? wt_fixed64)%N]]].
  - destruct (read_varint r) as [v k r'| |k] eqn:E.
    + rewrite Hd. apply read_varint_ok in E.
      replace (off + Z.of_nat k <=? zlen b) with true by lia. reflexivity.
    + destruct Hd as [y Hd]. rewrite Hd. destruct (_ <=? _); eexists; reflexivity.
    + rewrite Hd. 
      assert (Hk : (k <= length r)%nat).
      { unfold read_varint in E. destruct (vgroup r) as [[g s]|] eqn:Eg; [|discriminate].
        destruct (_ || _)%bool; inversion E; subst.
        apply vgroup_length in Eg. destruct Eg as [Eg _].
        rewrite Eg, app_length. lia. }
      destruct (_ <=? _) eqn:E2; [eexists; reflexivity|]. exfalso. lia.
  - destruct (read_varint r) as [v k r'| |k] eqn:E.
    + rewrite Hd. apply read_varint_skip in E as E'. apply read_varint_ok in E. destruct E' as [E' E''].
      rewrite (u64_zlen (zlen b - Z.of_nat k)) by lia.
      destruct (N.ltb_spec (N.of_nat (length r')) v) as [L|L].
      * destruct (N.ltb_spec (Z.to_N (zlen b - Z.of_nat k)) v) as [L2|L2].
        -- destruct (_ <=? _); eexists; reflexivity.
        -- rewrite s64_small by lia.
           destruct (off + (Z.of_nat k + Z.of_N v) <=? zlen b) eqn:E3; [|eexists; reflexivity].
           exfalso. unfold zlen in *. lia.
      * destruct (N.ltb_spec (Z.to_N (zlen b - Z.of_nat k)) v) as [L2|L2].
        -- exfalso. unfold zlen in *. lia.
        -- rewrite s64_small by lia.
           replace (off + (Z.of_nat k + Z.of_N v) <=? zlen b) with true by (unfold zlen in *; lia).
           f_equal. f_equal. lia.
    + destruct Hd as [y Hd]. rewrite Hd. destruct (_ <=? _); eexists; reflexivity.
    + rewrite Hd. 
      assert (Hk : (k <= length r)%nat).
      { unfold read_varint in E. destruct (vgroup r) as [[g s]|] eqn:Eg; [|discriminate].
        destruct (_ || _)%bool; inversion E; subst.
        apply vgroup_length in Eg. destruct Eg as [Eg _].
        rewrite Eg, app_length. lia. }
      destruct (_ <=? _) eqn:E2; [eexists; reflexivity|]. exfalso. lia.
  - destruct (Nat.ltb_spec (length r) 4).
    + replace (off + 4 <=? zlen b) with false by lia. eexists; reflexivity.
    + replace (off + 4 <=? zlen b) with true by lia. reflexivity.
  - destruct (Nat.ltb_spec (length r) 8).
    + replace (off + 8 <=? zlen b) with false by lia. eexists; reflexivity.
    + replace (off + 8 <=? zlen b) with true by lia. reflexivity.
  - destruct (_ <=? _) eqn:E2; [eexists; reflexivity|]. exfalso. lia.
Qed.

Lemma field_data_spec b off wt : small b -> 0 <= off <= zlen b ->
  match payload_len wt (skipn (Z.to_nat off) b) with
  | inl n => field_data b off wt = FData (firstn n (skipn (Z.to_nat off) b))
  | inr e => exists o, field_data b off wt = FErr o e
  end.
Proof.
  intros Hs Ho. unfold field_data. rewrite from_ok by assumption.
  set (r := skipn (Z.to_nat off) b).
  assert (Hr : zlen r = zlen b - off) by (unfold r; rewrite zlen_skipn; lia).
  assert (Hrl : Z.of_nat (length r) = zlen b - off) by exact Hr.
  unfold payload_len, small in *. pose proof (decodeVarint_spec r) as Hd.
  destruct (wt =? wt_varint)%N; [|destruct (wt =? wt_varlen)%N;
    [|destruct (wt =? wt_fixed32)%N; [|destruct (wt =? wt_fixed64)%N]]].
  - destruct (read_varint r) as [v k r'| |k] eqn:E.
    + rewrite Hd. apply read_varint_ok in E.
      rewrite sub_ok by lia. fold r. do 2 f_equal. lia.
    + destruct Hd as [y Hd]. rewrite Hd. eexists; reflexivity.
    + rewrite Hd. eexists; reflexivity.
  - destruct (read_varint r) as [v k r'| |k] eqn:E.
    + rewrite Hd. apply read_varint_skip in E as E'. apply read_varint_ok in E. destruct E' as [E' E''].
      rewrite (u64_zlen (zlen b - (off + Z.of_nat k))) by lia.
      destruct (N.ltb_spec (N.of_nat (length r')) v) as [L|L].
      * destruct (N.ltb_spec (Z.to_N (zlen b - (off + Z.of_nat k))) v) as [L2|L2].
        -- eexists; reflexivity.
        -- exfalso. unfold zlen in *. lia.
      * destruct (N.ltb_spec (Z.to_N (zlen b - (off + Z.of_nat k))) v) as [L2|L2].
        -- exfalso. unfold zlen in *. lia.
        -- rewrite s64_small by lia. rewrite sub_ok by (unfold zlen in *; lia).
           fold r. do 2 f_equal. lia.
    + destruct Hd as [y Hd]. rewrite Hd. eexists; reflexivity.
    + rewrite Hd. eexists; reflexivity.
  - destruct (Nat.ltb_spec (length r) 4).
    + replace (zlen b <? off + 4) with true by lia. eexists; reflexivity.
    + replace (zlen b <? off + 4) with false by lia. rewrite sub_ok by lia. fold r. do 2 f_equal. lia.
  - destruct (Nat.ltb_spec (length r) 8).
    + replace (zlen b <? off + 8) with true by lia. eexists; reflexivity.
    + replace (zlen b <? off + 8) with false by lia. rewrite sub_ok by lia. fold r. do 2 f_equal. lia.
  - eexists; reflexivity.
Qed.

(** ** Static codecs: what they consume *)
Lemma wret_inv w n e v n' e' : wret w n e = DRet v n' e' -> w = Some v /\ n' = n /\ e' = e.
Proof. destruct w; cbn; [|discriminate]. intros H; inversion H; auto. Qed.

Lemma decodeVarint_n b v n : decodeVarint b = (v, n, None) -> 0 <= n <= zlen b.
Proof.
  intros H. pose proof (decodeVarint_spec b) as S.
  destruct (read_varint b) as [v' k r| |] eqn:E.
  - rewrite S in H. inversion H; subst. apply read_varint_ok in E. unfold zlen. lia.
  - destruct S as [y S]. rewrite S in H. discriminate.
  - rewrite S in H. discriminate.
Qed.
Lemma decodeLE32_n b v n : decodeLE32 b = (v, n, None) -> 0 <= n <= zlen b.
Proof. unfold decodeLE32. destruct (zlen b <? 4) eqn:E; intros H; inversion H; subst. lia. Qed.
Lemma decodeLE64_n b v n : decodeLE64 b = (v, n, None) -> 0 <= n <= zlen b.
Proof. unfold decodeLE64. destruct (zlen b <? 8) eqn:E; intros H; inversion H; subst. lia. Qed.

Lemma decodeVarlen_spec b : small b ->
  match read_varint b with
  | VOk l k r =>
    if (N.of_nat (length r) <? l)%N
    then decodeVarlen b = OK (None, Z.of_nat k, Some ErrUnexpectedEOF)
    else decodeVarlen b = OK (Some (firstn (N.to_nat l) r), Z.of_nat k + Z.of_N l, None)
  | VEof => decodeVarlen b = OK (None, zlen b, Some ErrUnexpectedEOF)
  | VOverflow k => decodeVarlen b = OK (None, Z.of_nat (k - 1), Some ErrVarintOverflow)
  end.
Proof.
  intros Hs. unfold decodeVarlen, small in *. pose proof (decodeVarint_spec b) as Hd.
  destruct (read_varint b) as [v k r'| |k] eqn:E.
  - rewrite Hd. apply read_varint_skip in E as E'. apply read_varint_ok in E. destruct E' as [E' E''].
    rewrite (u64_zlen (zlen b - Z.of_nat k)) by (unfold zlen in *; lia).
    destruct (N.ltb_spec (N.of_nat (length r')) v) as [L|L].
    + destruct (N.ltb_spec (Z.to_N (zlen b - Z.of_nat k)) v) as [L2|L2]; [reflexivity|].
      exfalso. unfold zlen in *. lia.
    + destruct (N.ltb_spec (Z.to_N (zlen b - Z.of_nat k)) v) as [L2|L2]; [exfalso; unfold zlen in *; lia|].
      rewrite s64_small by (unfold zlen in *; lia). rewrite sub_ok by (unfold zlen in *; lia).
      rewrite Nat2Z.id, <- E'. do 3 f_equal. f_equal. f_equal. lia.
  - destruct Hd as [y Hd]. rewrite Hd. reflexivity.
  - rewrite Hd. reflexivity.
Qed.

Lemma decodeVarlen_n b v n : small b -> decodeVarlen b = OK (v, n, None) -> 0 <= n <= zlen b.
Proof.
  intros Hs H. pose proof (decodeVarlen_spec b Hs) as S.
  destruct (read_varint b) as [l k r'| |k] eqn:E; [|rewrite S in H; discriminate..].
  apply read_varint_skip in E as E'. apply read_varint_ok in E. destruct E' as [E' E''].
  destruct (N.ltb_spec (N.of_nat (length r')) l) as [L|L]; rewrite S in H; inversion H; subst.
  unfold zlen in *. lia.
Qed.

Ltac inv_dec H :=
  match type of H with
  | context[let '(_, _) := ?x in _] => destruct x as [[? ?] ?] eqn:?
  | context[match ?x with OK _ => _ | CR _ => _ end] => destruct x as [[[? ?] ?]|] eqn:?; [|discriminate]
  | context[if ?x then _ else _] => destruct x eqn:?
  end.

Lemma static_n s b v v' n : small b -> l_decode (static s) b v = DRet v' n None -> 0 <= n <= zlen b.
Proof.
  intros Hs.
  assert (P : forall w m, m <> Optional -> forall v v' n, l_decode (static (SC w m)) b v = DRet v' n None -> 0 <= n <= zlen b).
  { intros w m Hm v0 v0' n0 H. destruct w, m; try contradiction; cbn [static l_decode boolCodec boolRequiredCodec
      stringCodec stringRequiredCodec float32Codec float32RequiredCodec float64Codec float64RequiredCodec
      int32Codec int32RequiredCodec int64Codec int64RequiredCodec uint32Codec uint32RequiredCodec
      uint64Codec uint64RequiredCodec fixed32Codec fixed32RequiredCodec fixed64Codec fixed64RequiredCodec
      zigzag32Codec zigzag32RequiredCodec zigzag64Codec zigzag64RequiredCodec] in H;
    cbv [decodeBool decodeString decodeFloat32 decodeFloat64 decodeInt32 decodeInt64 decodeUint32
      decodeUint64 decodeFixed32 decodeFixed64 decodeZigzag32 decodeZigzag64] in H;
    try (destruct b; [discriminate|]; apply wret_inv in H; destruct H as (_ & -> & _); rewrite zlen_cons;
         pose proof (zlen_nonneg b); lia);
    try (inv_dec H; apply wret_inv in H; destruct H as (_ & -> & He); subst;
         first [eapply decodeVarint_n; eassumption | eapply decodeLE32_n; eassumption | eapply decodeLE64_n; eassumption]).
    all: inv_dec H; inv_dec H; apply wret_inv in H; destruct H as (_ & -> & He); subst;
      pose proof (decodeVarlen_n _ _ _ Hs Heqr); pose proof (zlen_nonneg b); lia. }
  destruct s as [w m|].
  - destruct m; [apply P; discriminate..|]. intros H.
    assert (H' : decodeOption (l_decode (static (SC w Required))) b v = DRet v' n None)
      by (destruct w; exact H).
    unfold decodeOption in H'. destruct v; try discriminate.
    destruct (l_decode (static (SC w Required)) b v) as [v1 n1 e1| |] eqn:E; try discriminate.
    cbn in H'. inversion H'; subst. eapply P; [|eassumption]. discriminate.
  - cbn. unfold decodeBytes. intros H. inv_dec H. destruct v; try discriminate.
    inversion H; subst. eapply decodeVarlen_n; eassumption.
Qed.

(** ** The list decoder *)
Inductive lres := LOk (x : val) | LErr (x : val) (e : err) | LCrash (c : crash) | LFuel.

Definition abs (r : dres val) : lres :=
  match r with
  | DRet x _ None => LOk x
  | DRet x _ (Some e) => LErr x e
  | DCrash c => LCrash c
  | DFuel => LFuel
  end.

Section Gen.
Context {R I : Type}.
Variable look : R -> cbody R I.
Variable iget : I -> sinfo R.
Variable D : decls.

Notation dec := (dec look iget D).
Notation decs := (decs look iget D).

(** Unfolding equations. *)
Lemma dec_S fuel c b v : dec (S fuel) c b v =
    match look c with
    | BNil => DCrash NilFunc
    | BStatic s => l_decode (static s) b v
    | BPtr t c' =>
      match v with
      | VPtr o =>
        let x := match o with Some x => x | None => zero t end in
        dmap (fun x => VPtr (Some x)) (dec fuel c' b x)
      | _ => DCrash Confused
      end
    | BSlice t c' =>
      match v with
      | VSlice nn items spare =>
        let grown := match spare with [] => true | _ => false end in
        let spare := match spare with [] => grow_spare t (length items) | _ => spare end in
        match spare with
        | [] => DCrash Bounds
        | slot :: spare =>
          match dec fuel c' b slot with
          | DRet x n None => DRet (VSlice (nn || grown) (items ++ [x]) spare) n None
          | DRet x n (Some e) => DRet (VSlice (nn || grown) items (x :: spare)) n (Some e)
          | r => r
          end
        end
      | _ => DCrash Confused
      end
    | BStruct k i =>
      match v with
      | VPtr o =>
        let x := match o with Some x => x | None => zero_struct D k end in
        let '(_, n, e) := decodeVarint b in
        match e with
        | Some e => DRet (VPtr (Some x)) n (Some e)
        | None =>
          match from_ b n with
          | None => DCrash Bounds
          | Some b' =>
            match decs fuel i b' 0 x with
            | DRet x l e => DRet (VPtr (Some x)) (n + l) e
            | r => r
            end
          end
        end
      | _ => DCrash Confused
      end
    | BMap _ _ _ k i =>
      match v with
      | VMap m =>
        let m := match m with Some l => l | None => [] end in
        if zlen b =? 0 then DRet (VMap (Some m)) 0 None
        else
          let s := zero_struct D k in
          let '(_, nl, e) := decodeVarint b in
          match e with
          | Some e => DRet (VMap (Some m)) 0 (Some e)
          | None =>
            match from_ b nl with
            | None => DCrash Bounds
            | Some b' =>
              match decs fuel i b' 0 s with
              | DRet (VStruct [key; x]) n None => DRet (VMap (Some (map_assign m key x))) (n + nl) None
              | DRet _ n None => DCrash Confused
              | DRet _ n (Some e) => DRet (VMap (Some m)) (n + nl) (Some e)
              | r => r
              end
            end
          end
      | _ => DCrash Confused
      end
    end.
Proof. reflexivity. Qed.
Lemma decs_S fuel i b offset x : decs (S fuel) i b offset x =
    if offset <? zlen b then
      match from_ b offset with
      | None => DCrash Bounds
      | Some tl =>
        let '(fn, wt, n, e) := decodeTag tl in
        let offset := offset + n in
        match e with
        | Some e => DRet x offset (Some e)
        | None =>
          match lookup_field (iget i) fn with
          | None =>
            match skip_unknown b offset wt with
            | CR c => DCrash c
            | OK (offset, Some e) => DRet x offset (Some (fieldError fn wt e))
            | OK (offset, None) => decs fuel i b offset x
            end
          | Some f =>
            if negb (wt =? wireType f)%N then
              DRet x offset (Some (fieldError fn wt (ErrExpectedWireType (wireType f))))
            else
              match field_data b offset wt with
              | FCrash => DCrash Bounds
              | FErr offset e => DRet x offset (Some (fieldError fn wt e))
              | FData data =>
                match get_field x (f_idx f) with
                | None => DCrash Confused
                | Some y =>
                  match dec fuel (f_codec f) data y with
                  | DRet y n e =>
                    let x := set_field x (f_idx f) y in
                    let offset := offset + n in
                    match e with
                    | Some e => DRet x offset (Some (fieldError fn wt e))
                    | None => decs fuel i b offset x
                    end
                  | r => r
                  end
                end
              end
          end
        end
      end
    else DRet x offset None.
Proof. reflexivity. Qed.

(** decs with the remaining input instead of an offset. *)
Fixpoint ldecs (fuel : nat) (i : I) (b : bytes) (x : val) : lres :=
  match fuel with
  | O => LFuel
  | S fuel =>
    match b with
    | [] => LOk x
    | _ =>
      match lstep (iget i) b with
      | LsErr e => LErr x e
      | LsSkip r => ldecs fuel i r x
      | LsDec fn wt f data r =>
        match get_field x (f_idx f) with
        | None => LCrash Confused
        | Some y =>
          match dec fuel (f_codec f) data y with
          | DRet y n None => ldecs fuel i (skipn (Z.to_nat n) r) (set_field x (f_idx f) y)
          | DRet y n (Some e) => LErr (set_field x (f_idx f) y) (fieldError fn wt e)
          | DCrash c => LCrash c
          | DFuel => LFuel
          end
        end
      end
    end
  end.

Lemma small_firstn n b : small b -> small (firstn n b).
Proof. unfold small, zlen. rewrite firstn_length. lia. Qed.
Lemma small_skipn n b : small b -> small (skipn n b).
Proof. unfold small, zlen. rewrite skipn_length. lia. Qed.

(** Success consumes everything; and the offset version is the list version. *)
Lemma dec_decs_spec fuel :
  (forall c b v v' n, small b -> dec fuel c b v = DRet v' n None -> 0 <= n <= zlen b) /\
  (forall i b off x, small b -> 0 <= off <= zlen b ->
     abs (decs fuel i b off x) = ldecs fuel i (skipn (Z.to_nat off) b) x /\
     (forall x' n, decs fuel i b off x = DRet x' n None -> n = zlen b)).
Proof.
  induction fuel as [|fuel [IH1 IH2]]; [split; [discriminate|split; [reflexivity|discriminate]]|].
  split.
  - intros c b v v' n Hs. rewrite dec_S. cbv zeta. destruct (look c); try discriminate.
    + apply static_n; assumption.
    + destruct v; try discriminate. destruct (dec fuel c0 b _) as [v1 n1 e1| |] eqn:E; try discriminate.
      cbn. intros H; inversion H; subst. eapply IH1; eassumption.
    + destruct v; try discriminate.
      destruct (match spare with [] => _ | _ => _ end) as [|slot sp]; [discriminate|].
      destruct (dec fuel c0 b slot) as [v1 n1 [e1|]| |] eqn:E; try discriminate.
      intros H; inversion H; subst. eapply IH1; eassumption.
    + destruct v; try discriminate. destruct (decodeVarint b) as [[u q] [e|]] eqn:E; [discriminate|].
      pose proof (decodeVarint_n _ _ _ E). rewrite from_ok by assumption. cbv zeta.
      destruct (decs fuel i _ 0 _) as [v1 n1 e1| |] eqn:E1; try discriminate.
      intros H'; inversion H'; subst.
      apply IH2 in E1; [|apply small_skipn; assumption|pose proof (zlen_nonneg (skipn (Z.to_nat q) b)); lia].
      rewrite zlen_skipn in E1. lia.
    + destruct v; try discriminate. destruct (zlen b =? 0) eqn:Z; [intros H; inversion H; subst; lia|].
      destruct (decodeVarint b) as [[u q] [e|]] eqn:E; [discriminate|].
      pose proof (decodeVarint_n _ _ _ E). rewrite from_ok by assumption. cbv zeta.
      destruct (decs fuel i _ 0 _) as [v1 n1 e1| |] eqn:E1; try discriminate.
      destruct e1; [destruct v1 as [| | | | | | | | | | | | |[|? [|? []]]|]; discriminate|].
      destruct v1 as [| | | | | | | | | | | | |[|? [|? []]]|]; try discriminate.
      intros H'; inversion H'; subst.
      apply IH2 in E1; [|apply small_skipn; assumption|pose proof (zlen_nonneg (skipn (Z.to_nat q) b)); lia].
      rewrite zlen_skipn in E1. lia.
  - intros i b off x Hs Ho. rewrite decs_S. cbn [ldecs].
    destruct (off <? zlen b) eqn:Eo.
    2:{ assert (off = zlen b) by lia. subst off.
        replace (skipn (Z.to_nat (zlen b)) b) with (@nil N).
        2:{ symmetry. apply skipn_all2. unfold zlen. lia. }
        split; [reflexivity|]. intros x' n H; inversion H; reflexivity. }
    rewrite from_ok by assumption. set (tl := skipn (Z.to_nat off) b).
    assert (Htl : zlen tl = zlen b - off) by (unfold tl; rewrite zlen_skipn; lia).
    destruct tl as [|c0 tl0] eqn:Etl; [rewrite zlen_nil in Htl; lia|]. rewrite <- Etl in *. clear tl0 Etl.
    unfold decodeTag, lstep. pose proof (decodeVarint_spec tl) as Hd.
    destruct (read_varint tl) as [v k r| |k] eqn:Ev.
    2:{ destruct Hd as [y Hd]. rewrite Hd. split; [reflexivity|discriminate]. }
    2:{ rewrite Hd. split; [reflexivity|discriminate]. }
    rewrite Hd. apply read_varint_ok in Ev as Ev'. apply read_varint_skip in Ev as [Er1 Er2].
    assert (Ho' : 0 <= off + Z.of_nat k <= zlen b) by (unfold zlen in *; lia).
    assert (Hr : skipn (Z.to_nat (off + Z.of_nat k)) b = r).
    { rewrite Er1. unfold tl. rewrite skipn_skipn'. f_equal. lia. }
    rewrite tag_number_spec, tag_type_spec.
    destruct (lookup_field (iget i) (v / 8)) as [f|].
    + destruct (negb (v mod 8 =? wireType f)%N); [split; [reflexivity|discriminate]|].
      pose proof (field_data_spec b (off + Z.of_nat k) (v mod 8) Hs Ho') as Hf. rewrite Hr in Hf.
      destruct (payload_len (v mod 8) r) as [n|e] eqn:Ep.
      2:{ destruct Hf as [o Hf]. rewrite Hf. split; [reflexivity|discriminate]. }
      rewrite Hf. destruct (get_field x (f_idx f)) as [y|]; [|split; [reflexivity|discriminate]].
      assert (Hsd : small (firstn n r)) by (apply small_firstn; rewrite <- Hr; apply small_skipn; assumption).
      destruct (dec fuel (f_codec f) (firstn n r) y) as [y' n' [e|]| |] eqn:Ed.
      * split; [reflexivity|discriminate].
      * apply IH1 in Ed as Hn; [|assumption].
        assert (zlen (firstn n r) <= zlen r) by (unfold zlen; rewrite firstn_length; lia).
        assert (Ho2 : 0 <= off + Z.of_nat k + n' <= zlen b) by lia.
        destruct (IH2 i b (off + Z.of_nat k + n') (set_field x (f_idx f) y') Hs Ho2) as [A B].
        split; [|exact B]. rewrite A. f_equal. rewrite <- Hr, skipn_skipn'. f_equal. lia.
      * split; [reflexivity|discriminate].
      * split; [reflexivity|discriminate].
    + pose proof (skip_unknown_spec b (off + Z.of_nat k) (v mod 8) Hs Ho') as Hf. rewrite Hr in Hf.
      destruct (payload_len (v mod 8) r) as [n|e] eqn:Ep.
      2:{ destruct Hf as [o Hf]. rewrite Hf. split; [reflexivity|discriminate]. }
      rewrite Hf. apply payload_len_ok in Ep.
      assert (Ho2 : 0 <= off + Z.of_nat k + Z.of_nat n <= zlen b) by (unfold zlen in *; lia).
      destruct (IH2 i b (off + Z.of_nat k + Z.of_nat n) x Hs Ho2) as [A B].
      split; [|exact B]. rewrite A. f_equal. rewrite <- Hr, skipn_skipn'. f_equal. lia.
Qed.

Lemma dec_consumes fuel c b v v' n : small b -> dec fuel c b v = DRet v' n None -> 0 <= n <= zlen b.
Proof. apply dec_decs_spec. Qed.
Lemma decs_consumes fuel i b x x' n : small b -> decs fuel i b 0 x = DRet x' n None -> n = zlen b.
Proof. intros. pose proof (zlen_nonneg b). eapply (proj2 (dec_decs_spec fuel)); [eassumption| |eassumption]. lia. Qed.
Lemma decs_ldecs fuel i b x : small b -> abs (decs fuel i b 0 x) = ldecs fuel i b x.
Proof. intros. pose proof (zlen_nonneg b). apply (proj2 (dec_decs_spec fuel) i b 0 x); [assumption|lia]. Qed.

(** The struct and map codecs in terms of the list decoder; the count is the
    whole input on success. *)
Lemma dec_struct fuel c k i b o : small b -> look c = BStruct k i ->
  exists n, dec (S fuel) c b (VPtr o) =
  let x := match o with Some x => x | None => zero_struct D k end in
  match read_varint b with
  | VEof => DRet (VPtr (Some x)) n (Some ErrUnexpectedEOF)
  | VOverflow _ => DRet (VPtr (Some x)) n (Some ErrVarintOverflow)
  | VOk _ _ r =>
    match ldecs fuel i r x with
    | LOk x => DRet (VPtr (Some x)) (zlen b) None
    | LErr x e => DRet (VPtr (Some x)) n (Some e)
    | LCrash c => DCrash c
    | LFuel => DFuel
    end
  end.
Proof.
  intros Hs Hl. rewrite dec_S. rewrite Hl. pose proof (decodeVarint_spec b) as Hd.
  set (x := match o with Some x => x | None => zero_struct D k end). cbv zeta.
  destruct (read_varint b) as [v n r| |n] eqn:E.
  - rewrite Hd. apply read_varint_ok in E as E'. apply read_varint_skip in E as [Er1 Er2].
    rewrite from_ok by (unfold zlen; lia). rewrite Nat2Z.id, <- Er1.
    assert (Hsr : small r) by (rewrite Er1; apply small_skipn; assumption).
    pose proof (decs_ldecs fuel i r x Hsr) as H.
    destruct (decs fuel i r 0 x) as [x' n' [e|]| |] eqn:Ed; cbn in H; rewrite <- H.
    + eexists; reflexivity.
    + exists 0. f_equal. apply decs_consumes in Ed; [|assumption]. unfold zlen in *. lia.
    + exists 0; reflexivity.
    + exists 0; reflexivity.
  - destruct Hd as [y Hd]. rewrite Hd. eexists; reflexivity.
  - rewrite Hd. eexists; reflexivity.
Qed.

Lemma dec_map fuel c tag kf vf k i b m : small b -> look c = BMap tag kf vf k i ->
  exists n, dec (S fuel) c b (VMap m) =
  let l := match m with Some l => l | None => [] end in
  match b with
  | [] => DRet (VMap (Some l)) 0 None
  | _ =>
    match read_varint b with
    | VEof => DRet (VMap (Some l)) n (Some ErrUnexpectedEOF)
    | VOverflow _ => DRet (VMap (Some l)) n (Some ErrVarintOverflow)
    | VOk _ _ r =>
      match ldecs fuel i r (zero_struct D k) with
      | LOk (VStruct [key; x]) => DRet (VMap (Some (map_assign l key x))) (zlen b) None
      | LOk _ => DCrash Confused
      | LErr _ e => DRet (VMap (Some l)) n (Some e)
      | LCrash c => DCrash c
      | LFuel => DFuel
      end
    end
  end.
Proof.
  intros Hs Hl. rewrite dec_S. rewrite Hl. pose proof (decodeVarint_spec b) as Hd.
  set (l := match m with Some x => x | None => [] end). cbv zeta.
  destruct (zlen b =? 0) eqn:Z.
  { destruct b; [exists 0; reflexivity|rewrite zlen_cons in Z; pose proof (zlen_nonneg b); lia]. }
  destruct b as [|c0 b0] eqn:Eb; [rewrite zlen_nil in Z; lia|]. rewrite <- Eb in *. clear Eb.
  destruct (read_varint b) as [v n r| |n] eqn:E.
  - rewrite Hd. apply read_varint_ok in E as E'. apply read_varint_skip in E as [Er1 Er2].
    rewrite from_ok by (unfold zlen; lia). rewrite Nat2Z.id, <- Er1.
    assert (Hsr : small r) by (rewrite Er1; apply small_skipn; assumption).
    pose proof (decs_ldecs fuel i r (zero_struct D k) Hsr) as H.
    destruct (decs fuel i r 0 (zero_struct D k)) as [x' n' [e|]| |] eqn:Ed; cbn in H; rewrite <- H.
    + eexists. destruct x' as [| | | | | | | | | | | | |[|? [|? []]]|]; reflexivity.
    + exists 0. apply decs_consumes in Ed; [|assumption].
      destruct x' as [| | | | | | | | | | | | |[|? [|? []]]|]; try reflexivity.
      f_equal. unfold zlen in *. lia.
    + exists 0; reflexivity.
    + exists 0; reflexivity.
  - destruct Hd as [y Hd]. rewrite Hd. eexists; reflexivity.
  - rewrite Hd. eexists; reflexivity.
Qed.

End Gen.
