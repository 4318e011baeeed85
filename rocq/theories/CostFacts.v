(** Proofs about the cost of decoding. *)
From Coq Require Import ZifyBool ZifyNat ZifyN.
From Verif Require Import Base Wire GoType Leaf Codec Tag Walker Api Typing SpecWire SpecCost Cost CostWork
  WireFacts DecodeFacts AliasSim CodecSim WalkInv WalkSpec WalkFuel WalkSeq AnyWalk ApiFacts AnyApi DepthFacts.
Local Open Scope Z_scope.

Lemma total_app l m : total (l ++ m) = total l + total m.
Proof. unfold total. induction l as [|a l IH]; cbn [app fold_right]; [lia|]. rewrite IH. lia. Qed.
Lemma total_cons a l : total (a :: l) = a + total l.
Proof. reflexivity. Qed.
Lemma total_repeat z n : total (repeat z n) = Z.of_nat n * z.
Proof. induction n as [|n IH]; [reflexivity|]. cbn [repeat]. rewrite total_cons, IH. lia. Qed.
Lemma map_repeat_ {A B} (f : A -> B) x n : map f (repeat x n) = repeat (f x) n.
Proof. induction n as [|n IH]; [reflexivity|]. cbn. rewrite IH. reflexivity. Qed.
Lemma repeat_app_one {A} (x : A) n : repeat x (S n) = x :: repeat x n.
Proof. reflexivity. Qed.

(** ** Memory and potential: a slice whose array is more than half full has
    saved up for the next growth. *)
Definition saved (n m : nat) : Z := 72 * Z.max 0 (Z.of_nat n - Z.of_nat m).
Fixpoint pot (v : val) : Z :=
  match v with
  | VStr b => 16 + zlen b
  | VBytes o => 24 + match o with Some b => zlen b | None => 0 end
  | VOpt _ x => 8 + pot x
  | VSlice _ items spare => 24 + total (map pot items) + total (map pot spare) + saved (length items) (length spare)
  | VMap o => 8 + match o with Some l => total (map (fun kv => match kv with (k, x) => pot k + pot x end) l) | None => 0 end
  | VPtr o => 8 + match o with Some x => pot x | None => 0 end
  | VStruct fs => 8 + total (map pot fs)
  | _ => 8
  end.

Lemma saved_pos n m : 0 <= saved n m.
Proof. unfold saved. lia. Qed.
Lemma total_between (l : list val) (f g : val -> Z) (a : Z) : Forall (fun v => a <= f v <= g v) l ->
  a * zlen l <= total (map f l) <= total (map g l).
Proof.
  induction 1 as [|v l H _ IH]; [unfold zlen; cbn; lia|]. cbn [map]. rewrite !total_cons, zlen_cons. lia.
Qed.
Lemma total_ten72 (l : list val) : Forall (fun v => pot v + 72 <= 10 * mem v) l -> total (map pot l) + 72 * zlen l <= 10 * total (map mem l).
Proof. induction 1 as [|v l H _ IH]; [unfold zlen; cbn; lia|]. cbn [map]. rewrite !total_cons, zlen_cons. lia. Qed.
Lemma pot_mem : forall v, (8 <= mem v <= pot v) /\ pot v + 72 <= 10 * mem v.
Proof.
  assert (A : forall l, Forall (fun v => (8 <= mem v <= pot v) /\ pot v + 72 <= 10 * mem v) l ->
      8 * zlen l <= total (map mem l) <= total (map pot l) /\ total (map pot l) + 72 * zlen l <= 10 * total (map mem l)).
  { intros l H. split; [apply total_between|apply total_ten72]; (eapply Forall_impl; [|exact H]); cbn beta; intros a [Ha Hb]; assumption. }
  induction v as [v IH] using val_ind2. destruct v as [| | | | | | |b|o|s x|nn items spare|o|o|fs|]; cbn [mem pot]; try lia.
  - pose proof (zlen_nonneg b). lia.
  - destruct o as [b|]; [pose proof (zlen_nonneg b)|]; lia.
  - destruct IH as [I1 I2]. pose proof (A items I1). pose proof (A spare I2). unfold saved. unfold zlen in *. lia.
  - destruct o as [l|]; [|lia].
    assert (0 <= total (map (fun kv => match kv with (k, x) => mem k + mem x end) l) <= total (map (fun kv => match kv with (k, x) => pot k + pot x end) l) /\
      total (map (fun kv => match kv with (k, x) => pot k + pot x end) l) <= 10 * total (map (fun kv => match kv with (k, x) => mem k + mem x end) l)).
    { induction IH as [|[k x] l [H1 H2] _ IH]; [cbn; lia|]. cbn [map]. rewrite !total_cons. cbn [fst snd] in *. lia. }
    lia.
  - destruct o as [x|]; [|lia]. destruct IH as [IH _]. lia.
  - pose proof (A fs IH). pose proof (zlen_nonneg fs). lia.
Qed.
Lemma pot_8 v : 8 <= pot v.
Proof. pose proof (pot_mem v). lia. Qed.

Lemma zero_mem t : 8 <= mem (zero t) <= 24 /\ pot (zero t) = mem (zero t).
Proof. destruct t as [k| | | | |k| |]; try destruct k; cbn; split; try lia; reflexivity. Qed.
Lemma zeros_mem fs : 0 <= total (map mem (map (fun f => zero (gf_type f)) fs)) <= 24 * zlen fs /\
  total (map pot (map (fun f => zero (gf_type f)) fs)) = total (map mem (map (fun f => zero (gf_type f)) fs)).
Proof.
  induction fs as [|f fs IH]; [unfold zlen; cbn; lia|]. cbn [map]. rewrite !total_cons, zlen_cons.
  destruct (zero_mem (gf_type f)) as [A B]. lia.
Qed.
Lemma width_nth D i fs : nth_error D i = Some fs -> (length fs <= decls_width D)%nat.
Proof.
  revert i. induction D as [|g D IH]; intros [|i]; try discriminate; cbn [nth_error decls_width fold_right].
  - intros [= <-]. lia.
  - intros H. apply IH in H. unfold decls_width in *. lia.
Qed.
Lemma zero_struct_mem D k : 0 <= mem (zero_struct D k) <= 48 + 24 * Z.of_nat (decls_width D) /\ pot (zero_struct D k) = mem (zero_struct D k).
Proof.
  destruct k as [sid|k v kt vt|k]; cbn [zero_struct].
  - destruct (nth_error D sid) as [fs|] eqn:E; [|cbn [mem pot map total fold_right]; lia]. apply width_nth in E. destruct (zeros_mem fs) as [A B].
    cbn [mem pot]. unfold zlen in A. lia.
  - cbn [mem pot map]. rewrite !total_cons. cbn [total fold_right]. destruct (zero_mem v) as [A B].
    destruct k; cbn [zero_k mem pot]; unfold zlen; cbn [length]; lia.
  - destruct k; cbn [zero zero_k mem pot]; unfold zlen; cbn [length]; lia.
Qed.
Lemma pot_list_set fs : forall i y y', nth_error fs i = Some y ->
  total (map pot (list_set fs i y')) = total (map pot fs) - pot y + pot y'.
Proof.
  induction fs as [|f fs IH]; intros [|i] y y'; try discriminate; cbn [nth_error list_set map]; rewrite !total_cons.
  - intros [= <-]. lia.
  - intros H. rewrite (IH i y y' H). lia.
Qed.
Lemma pot_set x i y y' : get_field x i = Some y -> pot (set_field x i y') = pot x - pot y + pot y'.
Proof. destruct x; try discriminate. cbn [get_field set_field pot]. intros H. rewrite (pot_list_set fs i y y' H). lia. Qed.
Lemma pot_assign l k x : total (map (fun kv => match kv with (k, x) => pot k + pot x end) (map_assign l k x)) <=
  total (map (fun kv => match kv with (k, x) => pot k + pot x end) l) + (pot k + pot x).
Proof.
  induction l as [|[k0 x0] l IH]; cbn [map_assign map]; [rewrite total_cons; lia|].
  pose proof (pot_8 k0). pose proof (pot_8 x0).
  destruct (key_eqb k0 k); cbn [map]; rewrite !total_cons; lia.
Qed.

(** ** Leaf codecs *)
Lemma varlen_copied b d n e : small b -> decodeVarlen b = OK (d, n, e) ->
  match d with Some d => e = None /\ zlen d <= n | None => e <> None end.
Proof.
  intros Hs H. pose proof (decodeVarlen_spec b Hs) as S. destruct (read_varint b) as [l k r| |].
  - destruct (N.ltb_spec (N.of_nat (length r)) l); rewrite S in H; inversion H; subst; [discriminate|]. split; [reflexivity|].
    unfold zlen. rewrite firstn_length. lia.
  - rewrite S in H. inversion H. discriminate.
  - rewrite S in H. inversion H. discriminate.
Qed.
Lemma varlen_zero b d e : small b -> decodeVarlen b = OK (Some d, 0, e) -> d = [].
Proof. intros Hs H. apply varlen_copied in H; [|exact Hs]. destruct H as [_ H]. destruct d; [reflexivity|]. rewrite zlen_cons in H. pose proof (zlen_nonneg d). lia. Qed.
Lemma copied_pos s b : 0 <= copied s b.
Proof. destruct s as [[]|]; cbn; try lia; destruct (decodeVarlen b) as [[[[d|] n] e]|]; try lia; apply zlen_nonneg. Qed.
Lemma copied_len s b : small b -> copied s b <= zlen b.
Proof.
  intros Hs. pose proof (zlen_nonneg b). destruct s as [[]|]; cbn; try lia; destruct (decodeVarlen b) as [[[[d|] n] e]|] eqn:E; try lia;
  pose proof (varlen_copied _ _ _ _ Hs E) as [-> A]; pose proof (decodeVarlen_n _ _ _ Hs E); lia.
Qed.
Lemma wr_pot p :
  (forall x v, wr_bool p x = Some v -> pot v <= pot p) /\ (forall x v, wr_i32 p x = Some v -> pot v <= pot p) /\
  (forall x v, wr_i64 p x = Some v -> pot v <= pot p) /\ (forall x v, wr_u32 p x = Some v -> pot v <= pot p) /\
  (forall x v, wr_u64 p x = Some v -> pot v <= pot p) /\ (forall x v, wr_f32 p x = Some v -> pot v <= pot p) /\
  (forall x v, wr_f64 p x = Some v -> pot v <= pot p) /\ (forall x v, wr_str p x = Some v -> pot v <= pot p + zlen x).
Proof.
  pose proof (pot_8 p).
  repeat split; intros x v E; destruct p; cbn in E; try discriminate; inversion E; subst; cbn [pot] in *; try lia.
  pose proof (zlen_nonneg b). lia.
Qed.
Lemma static_pot s b v v' n e : small b -> l_decode (static s) b v = DRet v' n e ->
  pot v' <= pot v + copied s b /\ copied s b <= match e with None => n | Some _ => zlen b end.
Proof.
  intros Hs.
  assert (P : forall w m, m <> Optional -> forall v v', l_decode (static (SC w m)) b v = DRet v' n e ->
     pot v' <= pot v + copied (SC w m) b /\ copied (SC w m) b <= match e with None => n | Some _ => zlen b end).
  { intros w m Hm p q H. pose proof (wr_pot p) as (W1 & W2 & W3 & W4 & W5 & W6 & W7 & W8). pose proof (zlen_nonneg b) as Zb.
    assert (N0 : 0 <= match e with None => n | Some _ => zlen b end) by (destruct e; [lia|]; apply static_n in H; [lia|assumption]).
    destruct w, m; try contradiction; cbn [static l_decode boolCodec boolRequiredCodec
      stringCodec stringRequiredCodec float32Codec float32RequiredCodec float64Codec float64RequiredCodec
      int32Codec int32RequiredCodec int64Codec int64RequiredCodec uint32Codec uint32RequiredCodec
      uint64Codec uint64RequiredCodec fixed32Codec fixed32RequiredCodec fixed64Codec fixed64RequiredCodec
      zigzag32Codec zigzag32RequiredCodec zigzag64Codec zigzag64RequiredCodec copied] in H |- *;
    cbv [decodeBool decodeString decodeFloat32 decodeFloat64 decodeInt32 decodeInt64 decodeUint32
      decodeUint64 decodeFixed32 decodeFixed64 decodeZigzag32 decodeZigzag64] in H;
    try (destruct b; [inversion H; subst; split; [lia|exact N0]|]; apply wret_inv in H; destruct H as (H & _ & _); split; [rewrite Z.add_0_r; eauto|exact N0]);
    try (inv_dec H; apply wret_inv in H; destruct H as (H & _ & _); split; [rewrite Z.add_0_r; eauto|exact N0]).
    all: destruct (decodeVarlen b) as [[[d k] e0]|] eqn:E; [|discriminate]; pose proof (varlen_copied _ _ _ _ Hs E) as C;
      destruct (k =? 0) eqn:Ek; apply wret_inv in H; destruct H as (H & -> & ->); apply W8 in H;
      (destruct d as [d|]; [destruct C as [-> C]; pose proof (zlen_nonneg d)|destruct e0; [|contradiction]]); unfold zlen in *; cbn [length] in *; lia. }
  destruct s as [w m|].
  - destruct m; [apply P; discriminate..|]. intros H.
    assert (H' : decodeOption (l_decode (static (SC w Required))) b v = DRet v' n e) by (destruct w; exact H).
    unfold decodeOption in H'. destruct v; try discriminate.
    destruct (l_decode (static (SC w Required)) b v) as [v1 n1 e1| |] eqn:E; try discriminate.
    cbn in H'. inversion H'; subst. destruct (P w Required ltac:(discriminate) _ _ E) as [A B].
    assert (copied (SC w Optional) b = copied (SC w Required) b) as -> by reflexivity. cbn [pot]. lia.
  - cbn [static l_decode bytesCodec copied]. unfold decodeBytes. destruct (decodeVarlen b) as [[[d k] e0]|] eqn:E; [|discriminate].
    pose proof (varlen_copied _ _ _ _ Hs E) as C. intros H. destruct v; try discriminate. inversion H; subst. cbn [pot]. pose proof (zlen_nonneg b).
    assert (0 <= match o with Some b0 => zlen b0 | None => 0 end) by (destruct o; [apply zlen_nonneg|lia]).
    destruct d as [d|]; [destruct C as [-> C]; lia|]. destruct e; [|contradiction]. change (zlen (@nil N)) with 0. lia.
Qed.

(** ** The whole decoder *)
Lemma skip_range b o wt o' e : small b -> 0 <= o -> skip_unknown b o wt = OK (o', e) -> e = None -> o <= o' <= zlen b.
Proof.
  intros Hs Ho H ->. unfold skip_unknown in H. destruct (from_ b o) as [tl|] eqn:Ef; [|discriminate].
  destruct (wt =? wt_varint)%N.
  { destruct (decodeVarint tl) as [[v n] e] eqn:E. destruct (o + n <=? zlen b) eqn:L; [|discriminate].
    inversion H; subst. apply decodeVarint_n in E. lia. }
  destruct (wt =? wt_varlen)%N.
  { destruct (decodeVarint tl) as [[v n] [e|]] eqn:E; [destruct (o + n <=? zlen b); discriminate|].
    apply decodeVarint_n in E. destruct (u64 (zlen b - n) <? v)%N eqn:L1; [destruct (o + n <=? zlen b); discriminate|].
    destruct (o + (n + s64 v) <=? zlen b) eqn:L; [|discriminate]. inversion H; subst.
    apply from_inv in Ef. destruct Ef as [_ Ef].
    assert (0 <= s64 v); [|lia]. unfold small in Hs. rewrite u64_zlen in L1 by (unfold zlen in *; lia).
    rewrite s64_small; unfold zlen in *; lia. }
  destruct (wt =? wt_fixed32)%N; [destruct (o + 4 <=? zlen b) eqn:L; [|discriminate]; inversion H; lia|].
  destruct (wt =? wt_fixed64)%N; [destruct (o + 8 <=? zlen b) eqn:L; [|discriminate]; inversion H; lia|].
  destruct (o + 0 <=? zlen b); discriminate.
Qed.
Lemma grow_spare_len t n : exists m, grow_spare t n = repeat (zero t) (S m) /\ S m = match n with O => 10%nat | _ => n end.
Proof.
  destruct n as [|n]; [exists 9%nat; split; reflexivity|]. exists n. split; [|reflexivity]. unfold grow_spare.
  replace (match (2 * S n)%nat with O => 10%nat | c => c end - S n)%nat with (S n); [reflexivity|]. cbn. lia.
Qed.

Section Whole.
Context {R I : Type}.
Variable look : R -> cbody R I.
Variable iget : I -> sinfo R.
Variable D : decls.
Notation dec := (dec look iget D).
Notation decs := (decs look iget D).
Notation work := (work look iget D).
Notation works := (works look iget D).
Variable P : R -> Prop.
Variable PI : I -> Prop.
Variable rank : R -> nat.
Variable B : nat.
Hypothesis Hlook : forall c, P c ->
  match look c with
  | BPtr _ c' | BSlice _ c' => P c' /\ (rank c' < rank c)%nat
  | BStruct _ i => PI i
  | BMap _ _ _ e i => PI i /\ mem (zero_struct D e) <= 48
  | _ => True
  end.
Hypothesis Hinfo : forall i, PI i -> Forall (fun f => P (f_codec f) /\ (rank (f_codec f) <= B)%nat) (i_index (iget i)).

Lemma work_S fuel c b v : work (S fuel) c b v =
    1 + match look c with
    | BNil => 0
    | BStatic s => copied s b
    | BPtr t c' =>
      match v with
      | VPtr None => mem (zero t) + work fuel c' b (zero t)
      | VPtr (Some x) => work fuel c' b x
      | _ => 0
      end
    | BSlice t c' =>
      match v with
      | VSlice _ items [] =>
        (zlen items + zlen (grow_spare t (length items))) * mem (zero t) +
        match grow_spare t (length items) with [] => 0 | slot :: _ => work fuel c' b slot end
      | VSlice _ items (slot :: _) => work fuel c' b slot
      | _ => 0
      end
    | BStruct k i =>
      match v with
      | VPtr o =>
        match o with Some _ => 0 | None => mem (zero_struct D k) end +
        let '(_, n, e) := decodeVarint b in
        match e, from_ b n with
        | None, Some b' => works fuel i b' 0 (match o with Some x => x | None => zero_struct D k end)
        | _, _ => 0
        end
      | _ => 0
      end
    | BMap _ _ _ k i =>
      match v with
      | VMap m =>
        match m with Some _ => 0 | None => 10 * mem (zero_struct D k) end +
        if zlen b =? 0 then 0
        else
          2 * mem (zero_struct D k) +
          let '(_, n, e) := decodeVarint b in
          match e, from_ b n with
          | None, Some b' => works fuel i b' 0 (zero_struct D k)
          | _, _ => 0
          end
      | _ => 0
      end
    end.
Proof. reflexivity. Qed.
Lemma works_S fuel i b offset x : works (S fuel) i b offset x =
    1 +
    if offset <? zlen b then
      match from_ b offset with
      | None => 0
      | Some tl =>
        let '(fn, wt, n, e) := decodeTag tl in
        let offset := offset + n in
        match e with
        | Some e => 0
        | None =>
          match lookup_field (iget i) fn with
          | None =>
            match skip_unknown b offset wt with
            | OK (offset, None) => works fuel i b offset x
            | _ => 0
            end
          | Some f =>
            if negb (wt =? wireType f)%N then 0
            else
              match field_data b offset wt with
              | FData data =>
                match get_field x (f_idx f) with
                | None => 0
                | Some y =>
                  work fuel (f_codec f) data y +
                    match dec fuel (f_codec f) data y with
                    | DRet y n None => works fuel i b (offset + n) (set_field x (f_idx f) y)
                    | _ => 0
                    end
                end
              | _ => 0
              end
          end
        end
      end
    else 0.
Proof. reflexivity. Qed.

Definition AA : Z := 700 + 48 * Z.of_nat (decls_width D).
Definition KK : Z := 500 * Z.of_nat B + AA + 2.
Definition cc (c : R) : Z := 500 * Z.of_nat (rank c) + AA.

Lemma AA_pos : 700 <= AA.
Proof. unfold AA. lia. Qed.
Lemma cc_pos c : AA <= cc c.
Proof. unfold cc. lia. Qed.
Lemma cc_lt c c' : (rank c' < rank c)%nat -> cc c' + 500 <= cc c.
Proof. unfold cc. lia. Qed.
Lemma cc_B c : (rank c <= B)%nat -> cc c + 2 <= KK.
Proof. unfold cc, KK. lia. Qed.
Lemma KK_pos : AA + 2 <= KK.
Proof. unfold KK. lia. Qed.

Definition dgood (w : Z) (r : dres val) (p c : Z) (b : bytes) : Prop :=
  match r with
  | DRet v n None => w + pot v <= p + KK * n + c
  | DRet v n (Some _) => w + pot v <= p + KK * zlen b + c
  | _ => w <= p + KK * zlen b + c
  end.
Definition sgood (w : Z) (r : dres val) (p l : Z) : Prop :=
  match r with
  | DRet x _ _ => w + pot x <= p + KK * l + 1
  | _ => w <= p + KK * l + 1
  end.

Lemma work_bound fuel :
  (forall c b v, P c -> small b -> dgood (work fuel c b v) (dec fuel c b v) (pot v) (cc c) b) /\
  (forall i b o x, PI i -> small b -> 0 <= o <= zlen b -> sgood (works fuel i b o x) (decs fuel i b o x) (pot x) (zlen b - o)).
Proof.
  pose proof AA_pos as A0. pose proof KK_pos as K0.
  induction fuel as [|fuel [IH1 IH2]].
  { split.
    - intros c b v _ _. cbn [dgood CostWork.work Codec.dec]. pose proof (pot_8 v). pose proof (zlen_nonneg b). pose proof (cc_pos c). nia.
    - intros i b o x _ _ Ho. cbn [sgood CostWork.works Codec.decs]. pose proof (pot_8 x). nia. }
  split.
  - intros c b v HP Hs. pose proof (Hlook c HP) as HL. pose proof (cc_pos c) as C0. pose proof (zlen_nonneg b) as Zb. pose proof (pot_8 v) as V0.
    rewrite dec_S, work_S. destruct (look c) as [|s|t c'|t c'|k i|tag kf vf k i].
    + cbn [dgood]. nia.
    + pose proof (copied_pos s b) as Cp. pose proof (copied_len s b Hs) as Cl.
      destruct (l_decode (static s) b v) as [v' n e| |] eqn:E; cbn [dgood]; [|nia..].
      destruct (static_pot s b v v' n e Hs E) as [S1 S2].
      destruct e; [|assert (0 <= n) by (apply static_n in E; [lia|assumption])]; nia.
    + destruct HL as [HL1 HL2]. apply cc_lt in HL2. destruct (zero_mem t) as [Z1 Z2].
      destruct v; try (cbn [dgood]; nia). destruct o as [x|]; cbv zeta.
      * specialize (IH1 c' b x HL1 Hs). destruct (dec fuel c' b x) as [v' n [e|]| |]; cbn [dgood dmap pot] in *; lia.
      * specialize (IH1 c' b (zero t) HL1 Hs). destruct (dec fuel c' b (zero t)) as [v' n [e|]| |]; cbn [dgood dmap pot] in *; lia.
    + destruct HL as [HL1 HL2]. apply cc_lt in HL2. destruct (zero_mem t) as [Z1 Z2].
      destruct v; try (cbn [dgood]; nia). cbv zeta. destruct spare as [|slot spare].
      * destruct (grow_spare_len t (length items)) as (m & -> & Hm). rewrite repeat_app_one.
        specialize (IH1 c' b (zero t) HL1 Hs).
        assert (G : (zlen items + zlen (zero t :: repeat (zero t) m)) * mem (zero t) + pot (zero t) + total (map pot (repeat (zero t) m)) +
            saved (S (length items)) m <= saved (length items) 0 + 480).
        { rewrite map_repeat_, total_repeat, Z2. unfold saved, zlen. cbn [length]. rewrite List.repeat_length, Hm.
          destruct (length items) as [|n]; cbn [length]; [|].
          - assert (m = 9%nat) by lia. subst m. cbn -[Z.mul mem]. lia.
          - assert (m = n) by lia. subst m. nia. }
        assert (G' : saved (length items) (S m) <= saved (S (length items)) m) by (unfold saved; lia).
        destruct (dec fuel c' b (zero t)) as [v' n [e|]| |]; cbn [dgood pot map length] in *.
        -- rewrite total_cons. rewrite List.repeat_length. cbn [total fold_right]. lia.
        -- rewrite map_app, total_app, app_length, List.repeat_length. cbn [map length]. rewrite total_cons. cbn [total fold_right].
           rewrite Nat.add_1_r. lia.
        -- pose proof (saved_pos (S (length items)) m).
           assert (0 <= total (map pot (repeat (zero t) m))) by (rewrite map_repeat_, total_repeat; nia). 
           assert (0 <= total (map pot items)) by (pose proof (proj1 (total_between items (fun _ => 0) pot 0 ltac:(apply Forall_forall; intros y _; pose proof (pot_8 y); lia))); assert (0 <= zlen items) by apply zlen_nonneg; pose proof (proj2 (total_between items (fun _ => 0) pot 0 ltac:(apply Forall_forall; intros y _; pose proof (pot_8 y); lia))); lia).
           cbn [total fold_right]. lia.
        -- pose proof (saved_pos (S (length items)) m).
           assert (0 <= total (map pot (repeat (zero t) m))) by (rewrite map_repeat_, total_repeat; nia). 
           assert (0 <= total (map pot items)) by (pose proof (proj1 (total_between items (fun _ => 0) pot 0 ltac:(apply Forall_forall; intros y _; pose proof (pot_8 y); lia))); assert (0 <= zlen items) by apply zlen_nonneg; pose proof (proj2 (total_between items (fun _ => 0) pot 0 ltac:(apply Forall_forall; intros y _; pose proof (pot_8 y); lia))); lia).
           cbn [total fold_right]. lia.
      * specialize (IH1 c' b slot HL1 Hs).
        assert (G : saved (S (length items)) (length spare) <= saved (length items) (S (length spare)) + 144) by (unfold saved; lia).
        assert (T : forall l, 0 <= total (map pot l)).
        { intros l. induction l as [|y l IHl]; [cbn; lia|]. cbn [map]. rewrite total_cons. pose proof (pot_8 y). lia. }
        pose proof (T items). pose proof (T spare). pose proof (saved_pos (length items) (S (length spare))).
        destruct (dec fuel c' b slot) as [v' n [e|]| |]; cbn [dgood pot map length] in *; rewrite ?total_cons in *.
        -- lia.
        -- rewrite map_app, total_app, app_length. cbn [map length]. rewrite total_cons. cbn [total fold_right]. rewrite Nat.add_1_r. lia.
        -- lia.
        -- lia.
    + destruct v; try (cbn [dgood]; nia). cbv zeta. destruct (zero_struct_mem D k) as [Z1 Z2].
      set (x := match o with Some x => x | None => zero_struct D k end).
      assert (Px : match o with Some _ => 0 | None => mem (zero_struct D k) end + pot (VPtr (Some x)) <= pot (VPtr o) + (AA - 2)).
      { unfold AA. destruct o; subst x; cbn [pot]; lia. }
      destruct (decodeVarint b) as [[u m] [e|]] eqn:Ev; [cbn [dgood]; nia|].
      apply decodeVarint_pos in Ev. destruct (from_ b m) as [b'|] eqn:Ef; [|cbn [dgood]; pose proof (pot_8 (VPtr (Some x))); nia].
      assert (Hb' : zlen b' = zlen b - m) by (apply from_inv in Ef; unfold zlen in *; lia).
      assert (Hs' : small b') by (unfold small in *; lia).
      specialize (IH2 i b' 0 x HL Hs' ltac:(pose proof (zlen_nonneg b'); lia)).
      pose proof (pot_8 x). assert (M1 : KK * (zlen b' - 0) + KK <= KK * zlen b) by nia. assert (M2 : KK * (zlen b' - 0) + KK <= KK * (m + zlen b')) by nia.
      destruct (decs fuel i b' 0 x) as [x' l e| |] eqn:Ed; cbn [sgood dgood pot] in *.
      * destruct e as [e|]; [lia|]. apply decs_consumes in Ed; [|exact Hs']. subst l. lia.
      * lia.
      * lia.
    + destruct v; try (cbn [dgood]; nia). cbv zeta. destruct (zero_struct_mem D k) as [Z1 Z2].
      set (l0 := match m with Some l => l | None => [] end).
      assert (Pm : pot (VMap (Some l0)) = pot (VMap m)) by (destruct m; reflexivity).
      assert (Q : match m with Some _ => 0 | None => 10 * mem (zero_struct D k) end + 3 * mem (zero_struct D k) <= AA - 2).
      { destruct HL as [_ HL]. unfold AA. destruct m; lia. }
      assert (Q0 : 0 <= match m with Some _ => 0 | None => 10 * mem (zero_struct D k) end) by (destruct m; lia).
      destruct (zlen b =? 0) eqn:Eb; [cbn [dgood]; nia|].
      destruct (decodeVarint b) as [[u q] [e|]] eqn:Ev; [cbn [dgood]; nia|].
      apply decodeVarint_pos in Ev. destruct (from_ b q) as [b'|] eqn:Ef; [|cbn [dgood]; nia].
      assert (Hb' : zlen b' = zlen b - q) by (apply from_inv in Ef; unfold zlen in *; lia).
      assert (Hs' : small b') by (unfold small in *; lia).
      specialize (IH2 i b' 0 (zero_struct D k) (proj1 HL) Hs' ltac:(pose proof (zlen_nonneg b'); lia)).
      assert (M1 : KK * (zlen b' - 0) + KK <= KK * zlen b) by nia. assert (M2 : KK * (zlen b' - 0) + KK <= KK * (zlen b' + q)) by nia.
      destruct (decs fuel i b' 0 (zero_struct D k)) as [x' l [e|]| |] eqn:Ed; cbn [sgood] in IH2.
      * pose proof (pot_8 x'). destruct x' as [| | | | | | | | | | | | |[|? [|? [|? ?]]]|]; cbn [dgood]; rewrite Pm; lia.
      * apply decs_consumes in Ed; [|exact Hs']. subst l.
        pose proof (pot_8 x'). 
        assert (W : match m with Some _ => 0 | None => 10 * mem (zero_struct D k) end + (2 * mem (zero_struct D k) + works fuel i b' 0 (zero_struct D k)) + pot x' + 1 <= AA + KK * (zlen b' + q)) by lia.
        destruct x' as [| | | | | | | | | | | | |[|key [|x1 [|? ?]]]|]; try (cbn [dgood]; nia).
        cbn [dgood]. pose proof (pot_assign l0 key x1) as Pa. cbn [pot map] in W, Pm |- *. rewrite !total_cons in W. cbn [total fold_right] in W. lia.
      * cbn [dgood]. nia.
      * cbn [dgood]. nia.
  - intros i b o x HP Hs Ho. pose proof (pot_8 x) as X0. pose proof (zlen_nonneg b) as Zb.
    rewrite decs_S, works_S. destruct (o <? zlen b) eqn:El; [|cbn [sgood]; nia].
    destruct (from_ b o) as [tl|] eqn:Ef; [|cbn [sgood]; nia]. apply from_inv in Ef.
    destruct (decodeTag tl) as [[[fn w] n] [e|]] eqn:Et; cbv zeta; [cbn [sgood]; nia|].
    assert (Hn : 1 <= n <= zlen tl).
    { unfold decodeTag in Et. destruct (decodeVarint tl) as [[u m] e] eqn:Ev. inversion Et; subst.
      apply decodeVarint_pos in Ev. lia. }
    assert (Hn' : n <= zlen b - o) by (unfold zlen in *; lia).
    destruct (lookup_field (iget i) fn) as [f|] eqn:Elf.
    + destruct (negb _); [cbn [sgood]; nia|]. destruct (field_data b (o + n) w) as [d| |] eqn:Ed; try (cbn [sgood]; nia).
      apply field_data_inv in Ed. destruct Ed as (_ & Ed & _). destruct (get_field x (f_idx f)) as [y|] eqn:Eg; [|cbn [sgood]; nia].
      assert (Hd : zlen d <= zlen b - o - n) by (unfold zlen in *; lia).
      assert (Hsd : small d) by (unfold small in *; lia).
      pose proof (Hinfo i HP) as HF. rewrite Forall_forall in HF. destruct (HF f (lookup_In (iget i) fn f Elf)) as [HF1 HF2].
      apply cc_B in HF2. specialize (IH1 (f_codec f) d y HF1 Hsd).
      pose proof (pot_8 y) as Y0. assert (pot y <= pot x).
      { pose proof (pot_set x (f_idx f) y (VBool true) Eg). pose proof (pot_8 (set_field x (f_idx f) (VBool true))). cbn [pot] in H. lia. }
      destruct (dec fuel (f_codec f) d y) as [y' n' [e|]| |] eqn:Edd; cbn [dgood] in IH1.
      * cbn [sgood]. rewrite (pot_set x (f_idx f) y y' Eg). nia.
      * apply dec_consumes in Edd; [|exact Hsd]. specialize (IH2 i b (o + n + n') (set_field x (f_idx f) y') HP Hs ltac:(lia)).
        rewrite (pot_set x (f_idx f) y y' Eg) in IH2.
        destruct (decs fuel i b (o + n + n') _) as [x' l e| |]; cbn [sgood] in IH2 |- *; nia.
      * cbn [sgood]. nia.
      * cbn [sgood]. nia.
    + destruct (skip_unknown b (o + n) w) as [[o' [e|]]|] eqn:Es; try (cbn [sgood]; nia).
      apply skip_range in Es; [|exact Hs|lia|reflexivity]. specialize (IH2 i b o' x HP Hs ltac:(lia)).
      destruct (decs fuel i b o' x) as [x' l e| |]; cbn [sgood] in IH2 |- *; nia.
Qed.
End Whole.

(** ** Unmarshal *)
Lemma heap_bound D G s i b x : AI D G s -> (i < length (g_infos s))%nat -> small b ->
  let w := works (hlook s) (higet s) D (decode_fuel D b) i b 0 x in
  match decs (hlook s) (higet s) D (decode_fuel D b) i b 0 x with
  | DRet y _ _ => w + mem y <= 10 * mem x + per_byte D * zlen b
  | _ => w <= 10 * mem x + per_byte D * zlen b
  end.
Proof.
  intros HA Hi Hs. cbv zeta.
  assert (S : sgood D (DD D) (works (hlook s) (higet s) D (decode_fuel D b) i b 0 x) (decs (hlook s) (higet s) D (decode_fuel D b) i b 0 x) (pot x) (zlen b - 0)).
  { eapply (proj2 (work_bound (hlook s) (higet s) D (inr_ G) (fun i => i < length (g_infos s))%nat (rk G) (DD D) _ _ (decode_fuel D b))); try assumption.
    pose proof (zlen_nonneg b). lia.
    Unshelve.
    - intros c Hc. destruct c as [x0|n]; cbn [hlook]; [exact Logic.I|]. cbn [inr_] in Hc. rewrite (a_len _ _ _ HA) in Hc.
      destruct (nth_error (g_cells s) n) as [bd|] eqn:E; [|exact Logic.I]. pose proof (a_cells _ _ _ HA n bd E) as B.
      destruct bd; cbn [body_in] in B; auto. destruct B as (_ & _ & B & k & v & kt & vt & ->). split; [exact B|].
      cbn [zero_struct mem map]. rewrite !total_cons. change (total []) with 0. destruct (zero_mem v) as [Z1 _].
      destruct k; cbn [zero_k mem]; change (zlen (@nil N)) with 0; lia.
    - intros j Hj. unfold higet. apply nth_error_Some in Hj. destruct (nth_error (g_infos s) j) as [y|] eqn:E; [|contradiction].
      apply (a_infos _ _ _ HA j y E). }
  assert (K : KK D (DD D) <= per_byte D) by (unfold KK, AA, per_byte, DD; lia).
  pose proof (zlen_nonneg b). pose proof (pot_mem x).
  assert (KK D (DD D) * (zlen b - 0) <= per_byte D * zlen b) by nia.
  destruct (decs _ _ _ _ _ _ _ _) as [y n e| |]; cbn [sgood] in S; [pose proof (pot_mem y)|..]; lia.
Qed.

(** ** The counter *)
Lemma pair_eq {A B} (a a' : A) (b b' : B) : a = a' -> b = b' -> (a, b) = (a', b').
Proof. congruence. Qed.
Ltac counted := apply pair_eq; [lia|try reflexivity; match goal with |- match ?d with _ => _ end = _ => destruct d as [? ? [?|]| |]; reflexivity end].
Lemma counted_same {R I} (look : R -> cbody R I) (iget : I -> sinfo R) D fuel :
  (forall c b v, cdec look iget D fuel c b v = (work look iget D fuel c b v, dec look iget D fuel c b v)) /\
  (forall i b o x, cdecs look iget D fuel i b o x = (works look iget D fuel i b o x, decs look iget D fuel i b o x)).
Proof.
  induction fuel as [|fuel [IH1 IH2]]; [split; reflexivity|]. split.
  - intros c b v. rewrite dec_S, work_S. cbn [cdec]. destruct (look c) as [|s|t c'|t c'|k i|tag kf vf k i]; try (destruct v; reflexivity).
    + unfold free, spend. counted.
    + destruct v; try reflexivity. destruct o as [x|]; cbv zeta; rewrite IH1; unfold free, spend, dthen; counted.
    + destruct v; try reflexivity. cbv zeta. destruct spare as [|slot spare].
      * destruct (grow_spare t (length items)) as [|slot spare]; unfold free, spend; cbn [dthen]; [counted|]. rewrite IH1. unfold dthen, spend. counted.
      * rewrite IH1. unfold free, spend, dthen. counted.
    + destruct v; try reflexivity. cbv zeta. destruct (decodeVarint b) as [[w n] [e|]]; [destruct o; unfold free, spend; counted|].
      destruct (from_ b n) as [b'|]; [|destruct o; unfold free, spend; counted]. rewrite IH2. destruct o; unfold free, spend, dthen; counted.
    + destruct v; try reflexivity. cbv zeta. destruct (zlen b =? 0); [destruct m; unfold free, spend; counted|].
      destruct (decodeVarint b) as [[w n] [e|]]; [destruct m; unfold free, spend; counted|].
      destruct (from_ b n) as [b'|]; [|destruct m; unfold free, spend; counted]. rewrite IH2. destruct m; unfold free, spend, dthen; counted.
  - intros i b o x. rewrite decs_S, works_S. cbn [cdecs]. destruct (o <? zlen b); [|unfold free, spend; counted]. destruct (from_ b o) as [tl|]; [|reflexivity].
    destruct (decodeTag tl) as [[[fn w] n] [e|]]; cbv zeta; [reflexivity|]. destruct (lookup_field (iget i) fn) as [f|].
    + destruct (negb _); [reflexivity|]. destruct (field_data b (o + n) w) as [d| |]; try reflexivity. destruct (get_field x (f_idx f)) as [y|]; [|reflexivity].
      rewrite IH1. unfold dthen. destruct (dec look iget D fuel (f_codec f) d y) as [y' n' [e|]| |]; cbv zeta; try (unfold free, spend; counted).
      rewrite IH2. reflexivity.
    + destruct (skip_unknown b (o + n) w) as [[o' [e|]]|]; try reflexivity. rewrite IH2. reflexivity.
Qed.
Lemma unmarshal_same_proof D b k x s : snd (Unmarshal_counted D b k x s) = fst (Unmarshal D b (IPtr k (Some x)) s).
Proof.
  unfold Unmarshal_counted, Unmarshal. destruct (zlen b =? 0); [reflexivity|]. unfold with_info. destruct (run _ s) as [[i| |] s']; try reflexivity.
  rewrite (proj2 (counted_same _ _ _ _)). reflexivity.
Qed.
Lemma unmarshal_work_eq D b k x s : unmarshal_work D b k x s = if zlen b =? 0 then 0 else
  match run (cachedStructInfoOf D (walk_fuel D) k) s with
  | (Done i, s') => works (hlook s') (higet s') D (decode_fuel D b) i b 0 x
  | _ => 0
  end.
Proof.
  unfold unmarshal_work, Unmarshal_counted. destruct (zlen b =? 0); [reflexivity|]. destruct (run _ s) as [[i| |] s']; try reflexivity.
  rewrite (proj2 (counted_same _ _ _ _)). reflexivity.
Qed.

Lemma unmarshal_cost D s k b x : reachable D s -> user_key D k = true -> small b ->
  match fst (Unmarshal D b (IPtr k (Some x)) s) with
  | Returns (IPtr _ (Some y), _) => unmarshal_work D b k x s + mem y <= 10 * mem x + per_byte D * zlen b
  | _ => unmarshal_work D b k x s <= 10 * mem x + per_byte D * zlen b
  end.
Proof.
  intros Hr Hk Hs. destruct (reachable_AI D s Hr) as [G HA]. rewrite unmarshal_work_eq. unfold Unmarshal.
  assert (M : 8 <= mem x) by apply pot_mem. pose proof (zlen_nonneg b).
  assert (0 <= per_byte D * zlen b) by (unfold per_byte; nia).
  destruct (zlen b =? 0) eqn:Ez; [cbn [fst]; lia|].
  pose proof (info_any D k G s Hk HA) as T. unfold with_info.
  destruct (run (cachedStructInfoOf D (walk_fuel D) k) s) as [[i| |] s']; cbn [fst]; [|lia..].
  destruct T as (G' & A1 & _ & L & _). pose proof (heap_bound D G' s' i b x A1 L Hs) as Q. cbv zeta in Q.
  destruct (decs _ _ _ _ _ _ _ _) as [y n [e|]| |]; exact Q.
Qed.
Lemma cost_proof D s k b x y e : reachable D s -> user_key D k = true -> zlen b < Z63 ->
  fst (Unmarshal D b (IPtr k (Some x)) s) = Returns (IPtr k (Some y), e) ->
  unmarshal_work D b k x s + mem y <= 10 * mem x + per_byte D * zlen b.
Proof. intros Hr Hk Hs H. pose proof (unmarshal_cost D s k b x Hr Hk Hs) as Q. rewrite H in Q. exact Q. Qed.
Lemma work_nonneg {R I} (look : R -> cbody R I) (iget : I -> sinfo R) D fuel :
  (forall c b v, 0 <= work look iget D fuel c b v) /\ (forall i b o x, 0 <= works look iget D fuel i b o x).
Proof.
  induction fuel as [|fuel [IH1 IH2]]; [split; intros; cbn; lia|]. split.
  - intros c b v. rewrite work_S. destruct (look c) as [|s|t c'|t c'|k i|tag kf vf k i]; [lia|pose proof (copied_pos s b); lia|..].
    + destruct (zero_mem t) as [Z _]. destruct v; try lia. destruct o; [specialize (IH1 c' b v)|specialize (IH1 c' b (zero t))]; lia.
    + destruct (zero_mem t) as [Z _]. destruct v; try lia. destruct spare as [|slot spare]; [|specialize (IH1 c' b slot); lia].
      pose proof (zlen_nonneg items). pose proof (zlen_nonneg (grow_spare t (length items))).
      assert (0 <= match grow_spare t (length items) with [] => 0 | slot :: _ => work look iget D fuel c' b slot end) by (destruct (grow_spare t _); [lia|apply IH1]). nia.
    + destruct (zero_struct_mem D k) as [Z _]. destruct v; try lia. set (x := match o with Some x => x | None => zero_struct D k end).
      destruct (decodeVarint b) as [[? n] [?|]]; [destruct o; lia|]. destruct (from_ b n) as [b'|]; [|destruct o; lia]. specialize (IH2 i b' 0 x). destruct o; lia.
    + destruct (zero_struct_mem D k) as [Z _]. destruct v; try lia. destruct (zlen b =? 0); [destruct m; lia|].
      destruct (decodeVarint b) as [[? n] [?|]]; [destruct m; lia|]. destruct (from_ b n) as [b'|]; [|destruct m; lia]. specialize (IH2 i b' 0 (zero_struct D k)). destruct m; lia.
  - intros i b o x. rewrite works_S. destruct (o <? zlen b); [|lia]. destruct (from_ b o) as [tl|]; [|lia].
    destruct (decodeTag tl) as [[[fn w] n] [e|]]; cbv zeta; [lia|]. destruct (lookup_field (iget i) fn) as [f|].
    + destruct (negb _); [lia|]. destruct (field_data b (o + n) w) as [d| |]; try lia. destruct (get_field x (f_idx f)) as [y|]; [|lia].
      specialize (IH1 (f_codec f) d y). destruct (dec look iget D fuel (f_codec f) d y) as [y' n' [e|]| |]; try lia.
      specialize (IH2 i b (o + n + n') (set_field x (f_idx f) y')). lia.
    + destruct (skip_unknown b (o + n) w) as [[o' [e|]]|]; try lia. specialize (IH2 i b o' x). lia.
Qed.
Lemma memory_proof D s k b x y e : reachable D s -> user_key D k = true -> zlen b < Z63 ->
  fst (Unmarshal D b (IPtr k (Some x)) s) = Returns (IPtr k (Some y), e) ->
  mem y <= 10 * mem x + per_byte D * zlen b.
Proof.
  intros Hr Hk Hs H. pose proof (cost_proof D s k b x y e Hr Hk Hs H) as Q.
  assert (0 <= unmarshal_work D b k x s); [|lia]. rewrite unmarshal_work_eq. destruct (zlen b =? 0); [lia|].
  destruct (run _ s) as [[i| |] s']; try lia. apply work_nonneg.
Qed.
Lemma work_proof D s k b x : reachable D s -> user_key D k = true -> zlen b < Z63 ->
  unmarshal_work D b k x s <= 10 * mem x + per_byte D * zlen b.
Proof.
  intros Hr Hk Hs. pose proof (unmarshal_cost D s k b x Hr Hk Hs) as Q.
  destruct (fst (Unmarshal D b (IPtr k (Some x)) s)) as [[[| | |k' [y|]] e]| |]; try exact Q. pose proof (pot_mem y). lia.
Qed.
