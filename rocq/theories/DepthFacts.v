(** Proofs about recursion depth. *)
From Coq Require Import ZifyBool ZifyNat ZifyN.
From Verif Require Import Base Wire GoType Leaf Codec Tag Walker Api SpecWire SpecMsg Depth SpecDepth
  WireFacts DecodeFacts AliasSim CodecSim Resolve Typing TypingFacts WalkInv WalkSpec WalkFuel WalkSeq ApiFacts MsgResolve MsgDec MsgApi.
Local Open Scope Z_scope.

Section Eqs.
Context {R I : Type} (look : R -> cbody R I) (iget : I -> sinfo R) (D : decls).
Notation depth := (depth look iget D).
Notation depths := (depths look iget D).
Lemma depth_S fuel c b v : depth (S fuel) c b v =
    match look c with
    | BNil | BStatic _ => O
    | BPtr t c' =>
      match v with
      | VPtr o => depth fuel c' b (match o with Some x => x | None => zero t end)
      | _ => O
      end
    | BSlice t c' =>
      match v with
      | VSlice _ items spare =>
        match (match spare with [] => grow_spare t (length items) | _ => spare end) with
        | [] => O
        | slot :: _ => depth fuel c' b slot
        end
      | _ => O
      end
    | BStruct k i =>
      match v with
      | VPtr o =>
        let '(_, n, e) := decodeVarint b in
        match e, from_ b n with
        | None, Some b' => S (depths fuel i b' 0 (match o with Some x => x | None => zero_struct D k end))
        | _, _ => O
        end
      | _ => O
      end
    | BMap _ _ _ k i =>
      match v with
      | VMap _ =>
        if zlen b =? 0 then O
        else
          let '(_, n, e) := decodeVarint b in
          match e, from_ b n with
          | None, Some b' => S (depths fuel i b' 0 (zero_struct D k))
          | _, _ => O
          end
      | _ => O
      end
    end.
Proof. reflexivity. Qed.
Lemma depths_S fuel i b offset x : depths (S fuel) i b offset x =
    if offset <? zlen b then
      match from_ b offset with
      | None => O
      | Some tl =>
        let '(fn, wt, n, e) := decodeTag tl in
        let offset := offset + n in
        match e with
        | Some e => O
        | None =>
          match lookup_field (iget i) fn with
          | None =>
            match skip_unknown b offset wt with
            | OK (offset, None) => depths fuel i b offset x
            | _ => O
            end
          | Some f =>
            if negb (wt =? wireType f)%N then O
            else
              match field_data b offset wt with
              | FData data =>
                match get_field x (f_idx f) with
                | None => O
                | Some y =>
                  Nat.max (depth fuel (f_codec f) data y)
                    match dec look iget D fuel (f_codec f) data y with
                    | DRet y n None => depths fuel i b (offset + n) (set_field x (f_idx f) y)
                    | _ => O
                    end
                end
              | _ => O
              end
          end
        end
      end
    else O.
Proof. reflexivity. Qed.

(** ** Upper bound *)
Lemma decodeVarint_pos b v n : decodeVarint b = (v, n, None) -> 1 <= n <= zlen b.
Proof.
  intros H. pose proof (decodeVarint_spec b) as S.
  destruct (read_varint b) as [v' k r| |] eqn:E.
  - rewrite S in H. inversion H; subst. apply read_varint_ok in E. unfold zlen. lia.
  - destruct S as [y S]. rewrite S in H. discriminate.
  - rewrite S in H. discriminate.
Qed.
Lemma from_inv b o d : from_ b o = Some d -> 0 <= o /\ (length d + Z.to_nat o = length b)%nat.
Proof.
  unfold from_. destruct (_ && _)%bool eqn:E; [|discriminate]. intros [= <-]. rewrite skipn_length. unfold zlen in E. lia.
Qed.

Lemma depth_bound fuel :
  (forall c b v, (2 * depth fuel c b v <= length b + 1)%nat) /\
  (forall i b o x, (2 * depths fuel i b o x <= length b)%nat).
Proof.
  induction fuel as [|fuel [IH1 IH2]]; [split; intros; cbn; lia|]. split.
  - intros c b v. rewrite depth_S. destruct (look c) as [|s|t c'|t c'|k i|tag kf vf k i].
    1,2: lia.
    + destruct v; try lia. apply IH1.
    + destruct v; try lia. destruct (match spare with [] => _ | _ => _ end); [lia|]. apply IH1.
    + destruct v; try lia. destruct (decodeVarint b) as [[u n] [e|]] eqn:Ev; [lia|].
      destruct (from_ b n) as [b'|] eqn:Ef; [|lia]. apply decodeVarint_pos in Ev. apply from_inv in Ef.
      specialize (IH2 i b' 0 match o with Some x => x | None => zero_struct D k end). lia.
    + destruct v; try lia. destruct (zlen b =? 0); [lia|]. destruct (decodeVarint b) as [[u n] [e|]] eqn:Ev; [lia|].
      destruct (from_ b n) as [b'|] eqn:Ef; [|lia]. apply decodeVarint_pos in Ev. apply from_inv in Ef.
      specialize (IH2 i b' 0 (zero_struct D k)). lia.
  - intros i b o x. rewrite depths_S. destruct (o <? zlen b); [|lia].
    destruct (from_ b o) as [tl|] eqn:Ef; [|lia]. apply from_inv in Ef.
    destruct (decodeTag tl) as [[[fn w] n] [e|]] eqn:Et; cbv zeta; [lia|].
    assert (Hn : 1 <= n).
    { unfold decodeTag in Et. destruct (decodeVarint tl) as [[u m] e] eqn:Ev. inversion Et; subst.
      apply decodeVarint_pos in Ev. lia. }
    destruct (lookup_field (iget i) fn) as [f|].
    + destruct (negb _); [lia|]. destruct (field_data b (o + n) w) as [d| |] eqn:Ed; try lia.
      apply field_data_inv in Ed. destruct (get_field x (f_idx f)) as [y|]; [|lia].
      specialize (IH1 (f_codec f) d y).
      destruct (dec look iget D fuel (f_codec f) d y) as [y' n' [e|]| |]; try lia.
      specialize (IH2 i b (o + n + n') (set_field x (f_idx f) y')). lia.
    + destruct (skip_unknown b (o + n) w) as [[o' [e|]]|]; try lia. apply IH2.
Qed.
Notation bdec := (bdec look iget D).
Notation bdecs := (bdecs look iget D).
Lemma bdec_S d fuel c b v : bdec d (S fuel) c b v =
    match look c with
    | BNil => Some (DCrash NilFunc)
    | BStatic s => Some (l_decode (static s) b v)
    | BPtr t c' =>
      match v with
      | VPtr o =>
        option_map (dmap (fun x => VPtr (Some x))) (bdec d fuel c' b match o with Some x => x | None => zero t end)
      | _ => Some (DCrash Confused)
      end
    | BSlice t c' =>
      match v with
      | VSlice nn items spare =>
        let grown := match spare with [] => true | _ => false end in
        match (match spare with [] => grow_spare t (length items) | _ => spare end) with
        | [] => Some (DCrash Bounds)
        | slot :: spare =>
          option_map (fun r => match r with
          | DRet x n None => DRet (VSlice (nn || grown) (items ++ [x]) spare) n None
          | DRet x n (Some e) => DRet (VSlice (nn || grown) items (x :: spare)) n (Some e)
          | r => r
          end) (bdec d fuel c' b slot)
        end
      | _ => Some (DCrash Confused)
      end
    | BStruct k i =>
      match v with
      | VPtr o =>
        let x := match o with Some x => x | None => zero_struct D k end in
        let '(_, n, e) := decodeVarint b in
        match e, from_ b n, d with
        | Some e, _, _ => Some (DRet (VPtr (Some x)) n (Some e))
        | None, None, _ => Some (DCrash Bounds)
        | None, Some _, O => None
        | None, Some b', S d =>
          option_map (fun r => match r with
          | DRet x l e => DRet (VPtr (Some x)) (n + l) e
          | r => r
          end) (bdecs d fuel i b' 0 x)
        end
      | _ => Some (DCrash Confused)
      end
    | BMap _ _ _ k i =>
      match v with
      | VMap m =>
        let m := match m with Some l => l | None => [] end in
        if zlen b =? 0 then Some (DRet (VMap (Some m)) 0 None)
        else
          let '(_, nl, e) := decodeVarint b in
          match e, from_ b nl, d with
          | Some e, _, _ => Some (DRet (VMap (Some m)) 0 (Some e))
          | None, None, _ => Some (DCrash Bounds)
          | None, Some _, O => None
          | None, Some b', S d =>
            option_map (fun r => match r with
            | DRet (VStruct [key; x]) n None => DRet (VMap (Some (map_assign m key x))) (n + nl) None
            | DRet _ n None => DCrash Confused
            | DRet _ n (Some e) => DRet (VMap (Some m)) (n + nl) (Some e)
            | r => r
            end) (bdecs d fuel i b' 0 (zero_struct D k))
          end
      | _ => Some (DCrash Confused)
      end
    end.
Proof. reflexivity. Qed.
Lemma bdecs_S d fuel i b offset x : bdecs d (S fuel) i b offset x =
    if offset <? zlen b then
      match from_ b offset with
      | None => Some (DCrash Bounds)
      | Some tl =>
        let '(fn, wt, n, e) := decodeTag tl in
        let offset := offset + n in
        match e with
        | Some e => Some (DRet x offset (Some e))
        | None =>
          match lookup_field (iget i) fn with
          | None =>
            match skip_unknown b offset wt with
            | CR c => Some (DCrash c)
            | OK (offset, Some e) => Some (DRet x offset (Some (fieldError fn wt e)))
            | OK (offset, None) => bdecs d fuel i b offset x
            end
          | Some f =>
            if negb (wt =? wireType f)%N then
              Some (DRet x offset (Some (fieldError fn wt (ErrExpectedWireType (wireType f)))))
            else
              match field_data b offset wt with
              | FCrash => Some (DCrash Bounds)
              | FErr offset e => Some (DRet x offset (Some (fieldError fn wt e)))
              | FData data =>
                match get_field x (f_idx f) with
                | None => Some (DCrash Confused)
                | Some y =>
                  match bdec d fuel (f_codec f) data y with
                  | Some (DRet y n e) =>
                    let x := set_field x (f_idx f) y in
                    let offset := offset + n in
                    match e with
                    | Some e => Some (DRet x offset (Some (fieldError fn wt e)))
                    | None => bdecs d fuel i b offset x
                    end
                  | r => r
                  end
                end
              end
          end
        end
      end
    else Some (DRet x offset None).
Proof. reflexivity. Qed.

(** The bounded stack overflows exactly on inputs that go deeper. *)
Definition cut {A} (n d : nat) (r : A) : option A := if (n <=? d)%nat then Some r else None.
Lemma cut_map {A B} n d (r : A) (f : A -> B) : option_map f (cut n d r) = cut n d (f r).
Proof. unfold cut. destruct (n <=? d)%nat; reflexivity. Qed.
Lemma bdec_cut fuel :
  (forall d c b v, bdec d fuel c b v = cut (depth fuel c b v) d (dec look iget D fuel c b v)) /\
  (forall d i b o x, bdecs d fuel i b o x = cut (depths fuel i b o x) d (decs look iget D fuel i b o x)).
Proof.
  induction fuel as [|fuel [IH1 IH2]]; [split; reflexivity|]. split.
  - intros d c b v. rewrite bdec_S, depth_S, dec_S. destruct (look c) as [|s|t c'|t c'|k i|tag kf vf k i].
    1,2: reflexivity.
    + destruct v; try reflexivity. cbv zeta. rewrite IH1, cut_map. reflexivity.
    + destruct v; try reflexivity. cbv zeta. destruct (match spare with [] => _ | _ => _ end); [reflexivity|].
      rewrite IH1, cut_map. destruct (dec look iget D fuel c' b v) as [? ? []| |]; reflexivity.
    + destruct v; try reflexivity. cbv zeta. destruct (decodeVarint b) as [[u n] [e|]]; [reflexivity|].
      destruct (from_ b n) as [b'|]; [|reflexivity]. destruct d as [|d]; [reflexivity|].
      rewrite IH2, cut_map.
      match goal with |- cut _ _ match ?r with _ => _ end = _ => destruct r as [? ? []| |] end; reflexivity.
    + destruct v; try reflexivity. cbv zeta. destruct (zlen b =? 0); [reflexivity|].
      destruct (decodeVarint b) as [[u n] [e|]]; [reflexivity|].
      destruct (from_ b n) as [b'|]; [|reflexivity]. destruct d as [|d]; [reflexivity|].
      rewrite IH2, cut_map.
      match goal with |- cut _ _ match ?r with _ => _ end = _ => destruct r as [? ? []| |] end; reflexivity.
  - intros d i b o x. rewrite bdecs_S, depths_S, decs_S. destruct (o <? zlen b); [|reflexivity].
    destruct (from_ b o) as [tl|]; [|reflexivity].
    destruct (decodeTag tl) as [[[fn w] n] [e|]]; cbv zeta; [reflexivity|].
    destruct (lookup_field (iget i) fn) as [f|].
    + destruct (negb _); [reflexivity|]. destruct (field_data b (o + n) w) as [a| |]; try reflexivity.
      destruct (get_field x (f_idx f)) as [y|]; [|reflexivity]. rewrite IH1.
      unfold cut at 1. destruct (Nat.leb_spec (depth fuel (f_codec f) a y) d) as [L|L].
      * destruct (dec look iget D fuel (f_codec f) a y) as [y' n' [e|]| |].
        -- unfold cut. rewrite Nat.max_0_r. destruct (Nat.leb_spec (depth fuel (f_codec f) a y) d); [reflexivity|lia].
        -- rewrite IH2. unfold cut. destruct (Nat.leb_spec (depths fuel i b (o + n + n') (set_field x (f_idx f) y')) d);
             destruct (Nat.leb_spec (Nat.max (depth fuel (f_codec f) a y) (depths fuel i b (o + n + n') (set_field x (f_idx f) y'))) d); try reflexivity; lia.
        -- unfold cut. rewrite Nat.max_0_r. destruct (Nat.leb_spec (depth fuel (f_codec f) a y) d); [reflexivity|lia].
        -- unfold cut. rewrite Nat.max_0_r. destruct (Nat.leb_spec (depth fuel (f_codec f) a y) d); [reflexivity|lia].
      * unfold cut. match goal with |- None = if (Nat.max ?p ?q <=? d)%nat then _ else _ => destruct (Nat.leb_spec (Nat.max p q) d); [lia|reflexivity] end.
    + destruct (skip_unknown b (o + n) w) as [[o' [e|]]|]; try reflexivity. apply IH2.
Qed.
End Eqs.

Lemma stack_cut d D b k x s :
  stack_unmarshal d D b k x s = cut (unmarshal_depth D b k x s) d (Unmarshal D b (IPtr k (Some x)) s).
Proof.
  unfold stack_unmarshal, unmarshal_depth, Unmarshal, with_info. destruct (zlen b =? 0); [reflexivity|].
  destruct (run _ s) as [[i| |] s']; try reflexivity.
  rewrite (proj2 (bdec_cut _ _ _ _)), cut_map. reflexivity.
Qed.

Lemma depth_half : forall D b k x s, (2 * unmarshal_depth D b k x s <= length b)%nat.
Proof.
  intros. unfold unmarshal_depth. destruct (zlen b =? 0); [lia|].
  destruct (run _ s) as [[i| |] s']; try lia. apply depth_bound.
Qed.

(** ** The heap and the pure resolution go equally deep *)
Section Sim.
Context {R1 I1 R2 I2 : Type}.
Variable look1 : R1 -> cbody R1 I1.
Variable iget1 : I1 -> sinfo R1.
Variable look2 : R2 -> cbody R2 I2.
Variable iget2 : I2 -> sinfo R2.
Variable D : decls.
Variable RR : R1 -> R2 -> Prop.
Variable RI : I1 -> I2 -> Prop.
Hypothesis Hlook : forall c1 c2, RR c1 c2 -> body_rel RR RI (look1 c1) (look2 c2).
Hypothesis Hinfo : forall i1 i2, RI i1 i2 -> info_rel RR (iget1 i1) (iget2 i2).
Lemma depth_rel fuel :
  (forall c1 c2 b v, RR c1 c2 -> depth look1 iget1 D fuel c1 b v = depth look2 iget2 D fuel c2 b v) /\
  (forall i1 i2 b off x, RI i1 i2 -> depths look1 iget1 D fuel i1 b off x = depths look2 iget2 D fuel i2 b off x).
Proof.
  induction fuel as [|fuel [IH1 IH2]]; [split; reflexivity|]. split.
  - intros c1 c2 b v Hc. rewrite !depth_S.
    destruct (Hlook c1 c2 Hc) as [s'|t d1 d2 Hd|t d1 d2 Hd|k i1 i2 Hi|tag kf1 vf1 kf2 vf2 e i1 i2 Hk Hv Hi].
    + reflexivity.
    + destruct v; try reflexivity. apply IH1; assumption.
    + destruct v; try reflexivity. destruct (match spare with [] => _ | _ => _ end); [reflexivity|].
      apply IH1; assumption.
    + destruct v; try reflexivity. destruct (decodeVarint b) as [[u q] [e|]]; [reflexivity|].
      destruct (from_ b q); [|reflexivity]. rewrite (IH2 _ _ _ _ _ Hi). reflexivity.
    + destruct v; try reflexivity. destruct (zlen b =? 0); [reflexivity|].
      destruct (decodeVarint b) as [[u q] [e'|]]; [reflexivity|].
      destruct (from_ b q); [|reflexivity]. rewrite (IH2 _ _ _ _ _ Hi). reflexivity.
  - intros i1 i2 b off x Hi. rewrite !depths_S. destruct (off <? zlen b); [|reflexivity].
    destruct (from_ b off) as [b0|]; [|reflexivity].
    destruct (decodeTag b0) as [[[fn w] n] [e|]]; [reflexivity|]. cbv zeta.
    pose proof (lookup_rel iget1 iget2 RR RI Hinfo i1 i2 fn Hi) as L.
    destruct (lookup_field (iget1 i1) fn) as [f1|], (lookup_field (iget2 i2) fn) as [f2|]; try contradiction.
    + destruct L as (Li & Lm & Lc). unfold wireType. rewrite Li, Lm.
      destruct (negb _); [reflexivity|]. destruct (field_data b (off + n) w); try reflexivity.
      destruct (get_field x (f_idx f2)); [|reflexivity]. rewrite (IH1 _ _ _ _ Lc). f_equal.
      rewrite (proj1 (dec_rel look1 iget1 look2 iget2 D RR RI (fun c1 c2 H => bs_rel _ _ _ _ (Hlook c1 c2 H)) Hinfo fuel) _ _ _ _ Lc).
      destruct (dec look2 iget2 D fuel (f_codec f2) d v) as [y' n' [e|]| |]; try reflexivity.
      apply IH2. assumption.
    + destruct (skip_unknown b (off + n) w) as [[o [e|]]|]; try reflexivity. apply IH2. assumption.
Qed.
End Sim.

(** ** No constant limit *)
Lemma nest_cons n p : nest (n :: p) = vint (8 * n + 2) ++ vint (N.of_nat (length (nest p))) ++ nest p.
Proof. cbn [nest ser map concat]. unfold ser. cbn [map concat]. unfold ser_rec. cbn [fst snd wire_of ser_payload]. rewrite app_nil_r. reflexivity. Qed.

Section Deep.
Variable D : decls.
Variable sch : schema.
Hypothesis HV : covers D sch = true.
Let HI := proj1 (covers_facts D sch HV).
Let HS := proj1 (proj2 (covers_facts D sch HV)).
Let HC := proj1 (proj2 (proj2 (covers_facts D sch HV))).
Let HP := proj2 (proj2 (proj2 (covers_facts D sch HV))).

Lemma follow_cons m n p m' : follow sch m (n :: p) = Some m' ->
  exists i f q, find_field 0 (msg sch m) n = Some (i, f) /\ (f = FMessage q \/ f = FRepeated (FMessage q)) /\ follow sch q p = Some m'.
Proof.
  cbn [follow]. destruct (find_field 0 (msg sch m) n) as [[i f]|]; [|discriminate].
  destruct f as [| | | | |q|[]|]; try discriminate; eauto 8.
Qed.
Lemma zeros_nth m n i f : find_field 0 (msg sch m) n = Some (i, f) -> nth_error (zeros (msg sch m)) i = Some (zero (go_type f)).
Proof.
  intros H. apply find_field_in in H. destruct H as [_ H]. rewrite Nat.sub_0_r in H. unfold zeros. rewrite nth_error_map, H. reflexivity.
Qed.
Lemma msg_lt m n i f : find_field 0 (msg sch m) n = Some (i, f) -> (m < length sch)%nat.
Proof.
  intros H. destruct (Nat.ltb_spec m (length sch)); [assumption|]. unfold msg in H. rewrite nth_overflow in H by assumption. discriminate.
Qed.
Lemma num_lt m n i f : find_field 0 (msg sch m) n = Some (i, f) -> (n < 2^61)%N.
Proof.
  intros H. apply find_field_in in H as [_ H]. rewrite Nat.sub_0_r in H. apply nth_error_In in H.
  destruct (schema_ok_msg sch HS m) as (A & _). unfold nums_ok in A. rewrite forallb_forall in A.
  assert (I : In n (numbers (msg sch m))).
  { clear - H. induction (msg sch m) as [|[t|n' f'] l IH]; [destruct H| |]; cbn [numbers].
    - apply IH. destruct H as [H|H]; [discriminate|assumption].
    - destruct H as [H|H]; [inversion H; left; reflexivity|right; auto]. }
  apply A in I. lia.
Qed.
Lemma tag_ok n : (n < 2^61)%N -> (8 * n + 2 < 2^64)%N /\ ((8 * n + 2) mod 8 = 2)%N /\ ((8 * n + 2) / 8 = n)%N.
Proof. change (2^61)%N with 2305843009213693952%N. change (2^64)%N with 18446744073709551616%N. lia. Qed.

Lemma nest_read n p : (n < 2^61)%N -> zlen (nest (n :: p)) < Z63 ->
  read_varint (nest (n :: p)) = VOk (8 * n + 2) (length (vint (8 * n + 2))) (vint (N.of_nat (length (nest p))) ++ nest p) /\
  read_payload 2 (vint (N.of_nat (length (nest p))) ++ nest p) = Some (PLen (nest p), []).
Proof.
  intros Hn Hs. destruct (tag_ok n Hn) as (A & _). rewrite nest_cons in *. rewrite !zlen_app in Hs.
  assert (L : (N.of_nat (length (nest p)) < 2^64)%N).
  { unfold Z63, zlen in Hs. change (2^64)%N with 18446744073709551616%N. lia. }
  split; [apply read_varint_vint; assumption|]. unfold read_payload. cbn [N.eqb Pos.eqb].
  rewrite read_varint_vint by assumption. rewrite N.leb_refl, Nat2N.id, firstn_all, skipn_all. reflexivity.
Qed.
Lemma nest_length n p : (length (nest p) + 2 <= length (nest (n :: p)))%nat.
Proof.
  rewrite nest_cons, !app_length. pose proof (vint_nonempty (8 * n + 2)). pose proof (vint_nonempty (N.of_nat (length (nest p)))).
  destruct (vint (8 * n + 2)); [congruence|]. destruct (vint (N.of_nat _)); [congruence|]. cbn [length]. lia.
Qed.

Lemma nest_merge p : forall m m' fuel, follow sch m p = Some m' -> zlen (nest p) < Z63 -> (length (nest p) < fuel)%nat ->
  (exists zs, merge sch fuel (msg sch m) (zeros (msg sch m)) (nest p) = MOk zs) /\ plain sch fuel (msg sch m) (nest p) = true.
Proof.
  induction p as [|n p IH]; intros m m' fuel Hf Hs Hl.
  { destruct fuel; [lia|]. split; [eexists|]; reflexivity. }
  apply follow_cons in Hf. destruct Hf as (i & f & q & Ef & Hq & Hf).
  pose proof (nest_length n p) as HL. pose proof (num_lt _ _ _ _ Ef) as Hn.
  destruct (nest_read n p Hn Hs) as (R1 & R2). destruct (tag_ok n Hn) as (_ & T2 & T3).
  destruct fuel as [|fuel]; [lia|]. destruct (IH q m' fuel) as [[zs IHm] IHp]; [assumption|unfold zlen in *; lia|lia|].
  destruct (nest (n :: p)) as [|c b] eqn:Eb; [cbn [length] in HL; lia|]. cbn [merge plain]. rewrite R1, T2, T3, R2, Ef, (zeros_nth _ _ _ _ Ef).
  destruct fuel as [|fuel]; [lia|].
  destruct Hq as [-> | ->]; cbn [wire_fty N.eqb Pos.eqb negb put plain_put go_type zero].
  - rewrite IHm, IHp. cbn [mmap]. split; [eexists|]; reflexivity.
  - rewrite IHm, IHp. cbn [mmap]. split; [eexists|]; reflexivity.
Qed.

Lemma nest_pdepth p : forall m m' fuel, follow sch m p = Some m' -> zlen (nest p) < Z63 -> (3 * length p < fuel)%nat ->
  (length p <= depths plook (piget D) D fuel (SNamed m) (nest p) 0 (VStruct (zeros (msg sch m))))%nat.
Proof.
  induction p as [|n p IH]; intros m m' fuel Hf Hs Hl; [cbn [length]; lia|].
  apply follow_cons in Hf. destruct Hf as (i & f & q & Ef & Hq & Hf).
  pose proof (nest_length n p) as HL. pose proof (num_lt _ _ _ _ Ef) as Hn.
  destruct (nest_read n p Hn Hs) as (R1 & R2). destruct (tag_ok n Hn) as (T1 & T2 & T3).
  assert (Hs' : zlen (nest p) < Z63) by (unfold zlen in *; lia).
  assert (L : (N.of_nat (length (nest p)) < 2^64)%N).
  { unfold Z63, zlen in Hs'. change (2^64)%N with 18446744073709551616%N. lia. }
  cbn [length] in *. destruct fuel as [|fuel]; [lia|]. rewrite depths_S.
  replace (0 <? zlen (nest (n :: p))) with true by (unfold zlen; lia).
  rewrite from_ok by (unfold zlen; lia). cbn [Z.to_nat skipn]. unfold decodeTag.
  rewrite nest_cons at 1. rewrite decodeVarint_vint by assumption. cbv zeta. rewrite tag_number_spec, tag_type_spec, T2, T3.
  assert (K : key_fs D sch (SNamed m) (msg sch m)).
  { split; [|left; eauto]. cbn [key_ok]. apply msg_lt in Ef. rewrite (implements_length D sch HI). assumption. }
  destruct (key_fs_facts D sch HI HS HC _ _ K) as (K1 & _ & _ & K4 & K5 & _).
  unfold lookup_field. rewrite K1, (lookup_spec _ n K4 K5 0), Ef. cbn [option_map fst snd].
  destruct (field_number_of i n f (pref_of n f) Hn) as [_ ->].
  replace (wire_fty f) with 2%N by (destruct Hq as [-> | ->]; reflexivity). cbn [N.eqb Pos.eqb negb].
  pose proof (field_data_spec (nest (n :: p)) (0 + zlen (vint (8 * n + 2))) 2) as FD.
  assert (SM : small (nest (n :: p))) by exact Hs. specialize (FD SM).
  assert (Hr : skipn (Z.to_nat (0 + zlen (vint (8 * n + 2)))) (nest (n :: p)) = vint (N.of_nat (length (nest p))) ++ nest p).
  { rewrite nest_cons, Z.add_0_l. unfold zlen. rewrite Nat2Z.id, skipn_app, skipn_all, Nat.sub_diag. reflexivity. }
  rewrite Hr in FD. unfold payload_len in FD. cbn [N.eqb Pos.eqb wt_varint wt_varlen] in FD.
  rewrite read_varint_vint, N.ltb_irrefl in FD by assumption.
  rewrite FD by (rewrite nest_cons, zlen_app; unfold zlen; lia). clear FD.
  rewrite firstn_all2 by (rewrite app_length; lia).
  cbn [f_idx mkfield get_field f_codec]. rewrite (zeros_nth _ _ _ _ Ef).
  assert (Z0 : zero_struct D (SNamed q) = VStruct (zeros (msg sch q))) by (apply (zero_struct_of D sch HI)).
  assert (G : forall fuel, (3 * length p < fuel)%nat ->
    (S (length p) <= depth plook (piget D) D (S fuel) (PStruct (SNamed q)) (vint (N.of_nat (length (nest p))) ++ nest p) (VPtr None))%nat).
  { intros g Hg. rewrite depth_S. cbn [plook]. rewrite decodeVarint_vint by assumption.
    rewrite from_ok by (rewrite zlen_app; unfold zlen; lia). unfold zlen at 1. rewrite Nat2Z.id, skipn_app, skipn_all, Nat.sub_diag.
    cbn [app skipn]. rewrite Z0. apply le_n_S. apply (IH q m'); assumption. }
  eapply Nat.le_trans; [|apply Nat.le_max_l].
  destruct Hq as [-> | ->]; cbn [pref_of go_type zero].
  - destruct fuel as [|fuel]; [lia|]. apply G. lia.
  - destruct fuel as [|fuel]; [lia|]. rewrite depth_S. cbn [plook length]. unfold grow_spare. cbn [Nat.mul Nat.sub repeat zero].
    destruct fuel as [|fuel]; [lia|]. apply G. lia.
Qed.

Lemma depth_pure k s b x : SInv D s -> user_key D k = true -> b <> [] ->
  unmarshal_depth D b k x s = depths plook (piget D) D (decode_fuel D b) k b 0 x.
Proof.
  intros (G & HI' & HC') Hk Hb. unfold unmarshal_depth. destruct (Z.eqb_spec (zlen b) 0).
  { destruct b; [congruence|]. unfold zlen in *. cbn [length] in *. lia. }
  pose proof (cached_spec D HP alone (walk_fuel D) 0 k none G s HI') as W.
  assert (O : own_ok none s) by (split; intros j []).
  specialize (W O (kpre_user D HP k Hk)). assert (F : neark D alone 0 k) by (split; [apply Nat.le_refl|right; reflexivity]). specialize (W F).
  pose proof (seq_sound D _ _ _ _ _ _ W HI' HC') as S.
  assert (NF : fst (run (cachedStructInfoOf D (walk_fuel D) k) s) <> OutOfFuel).
  { eapply nof_run. apply cached_nof. destruct k; try discriminate; reflexivity. }
  destruct (run (cachedStructInfoOf D (walk_fuel D) k) s) as [[i| |] s']; cbn [fst] in NF; try contradiction.
  destruct S as (o' & G' & (-> & O' & R & Hr & _) & C').
  pose proof (r_inv _ _ _ _ _ _ _ R) as HI2.
  pose proof (look_rel D _ _ HI2 C') as L. pose proof (iget_rel D _ _ HI2 C') as I.
  eapply (proj2 (depth_rel _ _ _ _ D _ _ L I _)). assumption.
Qed.
Lemma nest_bytes p : bytes_okb (nest p) = true.
Proof.
  induction p as [|n p IH]; [reflexivity|]. rewrite nest_cons, !bytes_okb_app, IH.
  rewrite !andb_true_iff. repeat split; apply bytes_okb_ok, vint_ok.
Qed.
Lemma nest_deep p : (2 * length p <= length (nest p))%nat.
Proof. induction p as [|n p IH]; [cbn; lia|]. pose proof (nest_length n p). cbn [length]. lia. Qed.
Lemma nest_short m p m' : follow sch m p = Some m' -> 20 * zlen p < Z63 -> zlen (nest p) <= 20 * zlen p.
Proof.
  revert m. induction p as [|n p IH]; intros m Hf Hs; [cbn; lia|].
  apply follow_cons in Hf. destruct Hf as (i & f & q & Ef & _ & Hf). unfold zlen in *. cbn [length] in Hs.
  specialize (IH q Hf ltac:(lia)). rewrite nest_cons, !app_length. cbn [length].
  pose proof (vint_length_64 _ (proj1 (tag_ok n (num_lt _ _ _ _ Ef)))).
  assert (L : (N.of_nat (length (nest p)) < 2^64)%N) by (unfold Z63 in *; change (2^64)%N with 18446744073709551616%N; lia).
  apply vint_length_64 in L. lia.
Qed.

Lemma nest_unmarshal s m p m' : reachable D s -> (m < length sch)%nat -> follow sch m p = Some m' -> zlen (nest p) < Z63 ->
  (exists xs, fst (Unmarshal D (nest p) (ptr m (zeros (msg sch m))) s) = Returns (ptr m xs, None)) /\
  (length p <= unmarshal_depth D (nest p) (SNamed m) (VStruct (zeros (msg sch m))) s)%nat.
Proof.
  intros Hr Hm Hf Hs.
  assert (Hk : user_key D (SNamed m) = true) by (cbn [user_key]; rewrite (implements_length D sch HI); lia).
  split.
  - destruct (nest_merge p m m' (S (length (nest p))) Hf Hs ltac:(lia)) as [[zs G] P].
    pose proof (unmarshal_spec D sch HV s m (zeros (msg sch m)) (zeros (msg sch m)) _ Hr (zeros_wts D sch HV m Hk) (zeros_fresh _) eq_refl (nest_bytes p) Hs P) as U.
    rewrite G in U. destruct U as (xs & U & _). eauto.
  - destruct p as [|n p]; [cbn [length]; lia|]. rewrite depth_pure; [|apply reachable_SInv; assumption|assumption|].
    + apply (nest_pdepth (n :: p) m m'); try assumption. pose proof (nest_deep (n :: p)). unfold decode_fuel. lia.
    + pose proof (nest_length n p). destruct (nest (n :: p)); [cbn [length] in *; lia|discriminate].
Qed.

Lemma follow_app p : forall m q m' r, follow sch m p = Some m' -> follow sch m' q = r -> follow sch m (p ++ q) = r.
Proof.
  induction p as [|n p IH]; intros m q m' r H1 H2; [inversion H1; subst; reflexivity|].
  cbn [app follow] in *. destruct (find_field 0 (msg sch m) n) as [[i f]|]; [|discriminate].
  destruct f as [| | | | |z|[]|]; try discriminate; eapply IH; eassumption.
Qed.
Lemma follow_repeat n : forall m p, follow sch m p = Some m -> follow sch m (repeat_path n p) = Some m.
Proof. induction n as [|n IH]; intros m p H; [reflexivity|]. cbn [repeat_path]. eapply follow_app; eauto. Qed.
End Deep.

Lemma repeat_length n p : length (repeat_path n p) = (n * length p)%nat.
Proof. induction n as [|n IH]; [reflexivity|]. cbn [repeat_path Nat.mul]. rewrite app_length, IH. reflexivity. Qed.

Theorem stack_half_proof : forall D b k x s d, (length b <= 2 * d)%nat ->
  stack_unmarshal d D b k x s = Some (Unmarshal D b (IPtr k (Some x)) s).
Proof.
  intros. rewrite stack_cut. unfold cut. pose proof (depth_half D b k x s).
  destruct (Nat.leb_spec (unmarshal_depth D b k x s) d); [reflexivity|lia].
Qed.

Theorem no_depth_limit_proof : forall D sch, covers D sch = true -> forall s m p, reachable D s ->
  p <> [] -> follow sch m p = Some m -> forall d, 20 * (Z.of_nat (S d) * zlen p) < 2^63 ->
  exists b xs, zlen b <= 20 * (Z.of_nat (S d) * zlen p) /\
    fst (Unmarshal D b (ptr m (zeros (msg sch m))) s) = Returns (ptr m xs, None) /\
    stack_unmarshal d D b (SNamed m) (VStruct (zeros (msg sch m))) s = None.
Proof.
  intros D sch HV s m p Hr Hp Hf d Hd.
  set (q := repeat_path (S d) p).
  assert (Hq : zlen q = Z.of_nat (S d) * zlen p) by (unfold zlen, q; rewrite repeat_length, Nat2Z.inj_mul; reflexivity).
  assert (Hqf : follow sch m q = Some m) by (apply follow_repeat; assumption).
  change (2^63) with Z63 in Hd. rewrite <- Hq in *.
  pose proof (nest_short D sch HV m q m Hqf Hd) as Hn.
  assert (Hm : (m < length sch)%nat).
  { destruct p as [|n p]; [congruence|]. apply follow_cons in Hf as (i & f & z & Ef & _). eapply msg_lt; eassumption. }
  destruct (nest_unmarshal D sch HV s m q m Hr Hm Hqf ltac:(lia)) as [[xs U] L].
  exists (nest q), xs. split; [assumption|]. split; [assumption|].
  rewrite stack_cut. unfold cut. destruct (Nat.leb_spec (unmarshal_depth D (nest q) (SNamed m) (VStruct (zeros (msg sch m))) s) d); [|reflexivity].
  exfalso. unfold q in *. rewrite repeat_length in L. destruct p; [congruence|]. cbn [length] in L. nia.
Qed.

Theorem stack_sound_proof : forall D b k x s d r, stack_unmarshal d D b k x s = Some r -> r = Unmarshal D b (IPtr k (Some x)) s.
Proof. intros D b k x s d r. rewrite stack_cut. unfold cut. destruct (_ <=? _)%nat; intros H; inversion H; reflexivity. Qed.
