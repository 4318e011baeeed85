(** Reading the options of a message. *)
From Verif Require Import Base SpecWire Tracked SpecTracked.
From Coq Require Import ZifyBool ZifyNat ZifyN.
Local Open Scope Z_scope.

Definition group (g : bytes) : Prop := vgroup g = Some (g, []).
Lemma group_inv : forall g, group g -> exists c r, g = c :: r /\ ((c <? 128)%N = true /\ r = [] \/ (c <? 128)%N = false /\ group r).
Proof.
  intros [|c r] G; [discriminate G|]. exists c, r. split; [reflexivity|]. unfold group in *. cbn [vgroup] in G. destruct (c <? 128)%N; [left|right]; (split; [reflexivity|]).
  - injection G as <-. reflexivity.
  - destruct (vgroup r) as [[g' r']|]; [|discriminate G]. injection G as <- <-. reflexivity.
Qed.
Lemma group_one : forall c, (c <? 128)%N = true -> group [c].
Proof. intros c H. unfold group. cbn [vgroup]. rewrite H. reflexivity. Qed.
Lemma group_more : forall c g, (c <? 128)%N = false -> group g -> group (c :: g).
Proof. intros c g H G. unfold group in *. cbn [vgroup]. rewrite H, G. reflexivity. Qed.
Lemma mod_small : forall c, (c <? 128)%N = true -> (c mod 128 = c)%N.
Proof. intros c H. apply N.mod_small. lia. Qed.
Lemma mod_big : forall c, (c < 256)%N -> (c <? 128)%N = false -> (c mod 128 = c - 128)%N.
Proof.
  intros c B H. replace c with ((c - 128) + 1 * 128)%N at 1 by lia. rewrite N.mod_add by discriminate. apply N.mod_small. lia.
Qed.
Lemma pow7 : forall i, 0 <= i -> (2 ^ (7 * Z.to_N (i + 1)) = 128 * 2 ^ (7 * Z.to_N i))%N.
Proof. intros i H. replace (7 * Z.to_N (i + 1))%N with (7 + 7 * Z.to_N i)%N by lia. rewrite N.pow_add_r. reflexivity. Qed.
Lemma cv_cons : forall i acc y b, consume_varint i acc (y :: b) =
  if i =? 9 then if (y <? 2)%N then ((acc + N.shiftl y 63)%N, 10) else (0%N, errCodeOverflow)
  else if (y <? 128)%N then ((acc + N.shiftl y (7 * Z.to_N i))%N, i + 1)
  else consume_varint (i + 1) (acc + N.shiftl (y - 128) (7 * Z.to_N i)) b.
Proof. reflexivity. Qed.
(** Bytes that are a varint are read as such, ... *)
Lemma cv_complete : forall g i acc r, 0 <= i -> i + zlen g <= 10 -> bytes_ok g -> group g -> (acc + 2 ^ (7 * Z.to_N i) * vvalue g < 2^64)%N ->
  consume_varint i acc (g ++ r) = ((acc + 2 ^ (7 * Z.to_N i) * vvalue g)%N, i + zlen g).
Proof.
  induction g as [|c g IH]; intros i acc r I L B G V; [discriminate G|]. destruct (group_inv _ G) as (c' & r' & E & H). injection E as <- <-.
  inversion B as [|? ? B0 B1]; subst. unfold zlen in L. cbn [length] in L. cbn [app vvalue] in *. rewrite cv_cons.
  destruct (Z.eqb_spec i 9) as [->|N9].
  - assert (g = []) by (destruct g; [reflexivity|cbn [length] in L; lia]). subst g. destruct H as [[C _]|[_ G']]; [|discriminate G'].
    rewrite (mod_small c C) in *. cbn [vvalue] in *. change (7 * Z.to_N 9)%N with 63%N in *. rewrite N.mul_0_r, N.add_0_r in *. change (2^64)%N with (2 * 2^63)%N in V.
    assert (C2 : (c <? 2)%N = true) by (apply N.ltb_lt; nia). rewrite C2, N.shiftl_mul_pow2. f_equal. lia.
  - destruct H as [[C ->]|[C G']]; rewrite C.
    + rewrite (mod_small c C) in *. cbn [vvalue] in *. rewrite N.shiftl_mul_pow2. f_equal. lia.
    + rewrite (mod_big c B0 C) in *. rewrite IH.
      * rewrite pow7 by exact I. rewrite N.shiftl_mul_pow2. f_equal; [|unfold zlen; cbn [length]; lia]. lia.
      * lia.
      * unfold zlen. lia.
      * exact B1.
      * exact G'.
      * rewrite pow7 by exact I. rewrite N.shiftl_mul_pow2. lia.
Qed.
(** ... and nothing else is. *)
Lemma cv_sound : forall b i acc v n, 0 <= i <= 9 -> bytes_ok b -> (acc < 2 ^ (7 * Z.to_N i))%N -> consume_varint i acc b = (v, n) -> 0 <= n ->
  exists g r, b = g ++ r /\ group g /\ n = i + zlen g /\ n <= 10 /\ v = (acc + 2 ^ (7 * Z.to_N i) * vvalue g)%N /\ (v < 2^64)%N.
Proof.
  induction b as [|y b IH]; intros i acc v n I B A E N; [injection E as <- <-; unfold errCodeTruncated in N; lia|]. rewrite cv_cons in E.
  inversion B as [|? ? B0 B1]; subst. destruct (Z.eqb_spec i 9) as [->|N9].
  - destruct (N.ltb_spec y 2) as [Y|Y]; [|injection E as <- <-; unfold errCodeOverflow in N; lia]. injection E as <- <-.
    assert (C : (y <? 128)%N = true) by lia. exists [y], b. split; [reflexivity|]. split; [apply group_one, C|]. cbn [vvalue]. rewrite (mod_small y C), N.shiftl_mul_pow2.
    change (7 * Z.to_N 9)%N with 63%N in *. change (2^64)%N with (2 * 2^63)%N. unfold zlen. cbn [length]. repeat split; try lia; nia.
  - destruct (y <? 128)%N eqn:C.
    + apply pair_equal_spec in E. destruct E as [<- <-]. exists [y], b. split; [reflexivity|]. split; [apply group_one, C|]. cbn [vvalue]. rewrite (mod_small y C), N.shiftl_mul_pow2.
      unfold zlen. cbn [length]. rewrite N.mul_0_r, N.add_0_r, (N.mul_comm y). repeat split; try lia.
      assert (P : (2 ^ (7 * Z.to_N (i + 1)) <= 2^63)%N) by (apply N.pow_le_mono_r; lia). rewrite pow7 in P by lia. change (2^64)%N with (2 * 2^63)%N.
      assert (Y : (y * 2 ^ (7 * Z.to_N i) <= 127 * 2 ^ (7 * Z.to_N i))%N) by (apply N.mul_le_mono_r; lia). rewrite (N.mul_comm y) in Y. lia.
    + apply IH in E; [|lia|exact B1| |exact N].
      * destruct E as (g & r & -> & G & -> & L & -> & V). exists (y :: g), r. split; [reflexivity|]. split; [apply group_more; assumption|].
        cbn [vvalue]. rewrite (mod_big y B0 C). rewrite pow7, N.shiftl_mul_pow2 in * by lia. unfold zlen in *. cbn [length]. repeat split; try lia.
      * rewrite pow7, N.shiftl_mul_pow2 by lia. nia.
Qed.
Lemma varint_complete : forall g v r, bytes_ok g -> varint_bytes g v -> ConsumeVarint (g ++ r) = (v, zlen g).
Proof.
  intros g v r B (G & L & <- & V). unfold ConsumeVarint. rewrite cv_complete; [f_equal; cbn [Z.to_N N.mul]; rewrite N.pow_0_r; lia|lia|unfold zlen; lia|exact B|exact G|].
  cbn [Z.to_N N.mul]. rewrite N.pow_0_r. lia.
Qed.
Lemma varint_sound : forall b v n, bytes_ok b -> ConsumeVarint b = (v, n) -> 0 <= n -> exists g r, b = g ++ r /\ varint_bytes g v /\ n = zlen g.
Proof.
  intros b v n B E N. apply cv_sound in E; [|lia|exact B|reflexivity|exact N]. destruct E as (g & r & -> & G & -> & L & -> & V). exists g, r.
  cbn [Z.to_N N.mul] in *. rewrite N.pow_0_r in *. unfold varint_bytes, zlen in *. repeat split; try assumption; lia.
Qed.
Lemma varint_nonempty : forall g v, varint_bytes g v -> (1 <= length g)%nat.
Proof. intros [|c g] v (G & _); [discriminate G|]. cbn; lia. Qed.

(** Tags. *)
Lemma tag_complete : forall t num typ r, bytes_ok t -> (1 <= num < 2^31)%N -> (typ < 8)%N -> varint_bytes t (num * 8 + typ) -> ConsumeTag (t ++ r) = (num, typ, zlen t).
Proof.
  intros t num typ r B N T V. unfold ConsumeTag. rewrite (varint_complete _ _ _ B V). replace (zlen t <? 0) with false by (unfold zlen; lia).
  rewrite N.shiftr_div_pow2. change (N.land (num * 8 + typ) 7) with (N.land (num * 8 + typ) (N.ones 3)). rewrite N.land_ones. change (2^3)%N with 8%N.
  rewrite (N.add_comm (num * 8)), N.div_add, N.mod_add, N.div_small, N.mod_small by lia. cbn [N.add].
  change (2^31)%N with 2147483648%N in N. replace ((2147483647 <? num) || (num <? 1))%N with false by lia. reflexivity.
Qed.
Lemma tag_sound : forall b num typ n, bytes_ok b -> ConsumeTag b = (num, typ, n) -> 0 <= n ->
  exists t r, b = t ++ r /\ (1 <= num < 2^31)%N /\ (typ < 8)%N /\ varint_bytes t (num * 8 + typ) /\ n = zlen t.
Proof.
  intros b num typ n B E N. unfold ConsumeTag in E. destruct (ConsumeVarint b) as [v m] eqn:C. destruct (Z.ltb_spec m 0) as [M|M]; [injection E as <- <- <-; lia|].
  destruct ((2147483647 <? N.shiftr v 3) || (N.shiftr v 3 <? 1))%N eqn:Q; [injection E as <- <- <-; unfold errCodeFieldNumber in N; lia|]. rewrite !pair_equal_spec in E. destruct E as [[<- <-] <-].
  destruct (varint_sound _ _ _ B C M) as (g & r & -> & V & ->). exists g, r. split; [reflexivity|]. change (2^31)%N with 2147483648%N. split; [lia|].
  rewrite N.shiftr_div_pow2. change (N.land v 7) with (N.land v (N.ones 3)). rewrite N.land_ones. change (2^3)%N with 8%N. split; [apply N.mod_lt; discriminate|]. split; [|reflexivity].
  rewrite (N.mul_comm (v / 8)), <- N.div_mod by discriminate. exact V.
Qed.
Lemma drop_app : forall g r, drop (zlen g) (g ++ r) = r.
Proof. intros g r. unfold drop, zlen. rewrite Nat2Z.id, skipn_app, skipn_all, Nat.sub_diag. reflexivity. Qed.
Lemma from_app : forall g r, from_ (g ++ r) (zlen g) = Some r.
Proof.
  intros g r. unfold from_. replace ((0 <=? zlen g) && (zlen g <=? zlen (g ++ r))) with true by (unfold zlen; rewrite app_length; lia). f_equal. apply drop_app.
Qed.
Lemma zlen_app : forall (a b : bytes), zlen (a ++ b) = zlen a + zlen b.
Proof. intros. unfold zlen. rewrite app_length. lia. Qed.

(** Values. *)
Scheme hv_ind2 := Induction for holds_value Sort Prop with fields_ind2 := Induction for fields Sort Prop.
Combined Scheme hv_mut from hv_ind2, fields_ind2.
Lemma holds_type : forall d num x typ b, holds_value d num x typ b -> (typ < 8)%N /\ typ <> 4%N.
Proof. intros d num x typ b H. destruct H; split; try reflexivity; discriminate. Qed.
Lemma value_complete :
  (forall d num x typ b, holds_value d num x typ b -> bytes_ok b -> (1 <= num < 2^31)%N -> forall fuel r, (2 * length b + 2 <= fuel)%nat ->
     consumeFieldValueD fuel num typ (b ++ r) d = Some (zlen b)) /\
  (forall d fs b, fields d fs b -> bytes_ok b -> forall num e r fuel n0, bytes_ok e -> (1 <= num < 2^31)%N -> varint_bytes e (num * 8 + 4) -> (2 * length b + 1 <= fuel)%nat ->
     consumeGroup fuel num (b ++ e ++ r) (d + 1) n0 = Some (n0 - zlen r)).
Proof.
  apply hv_mut.
  - intros d num n b V B N fuel r F. destruct fuel as [|fuel]; [lia|]. cbn [consumeFieldValueD]. rewrite (varint_complete _ _ _ B V). reflexivity.
  - intros d num p L B N fuel r F. destruct fuel as [|fuel]; [lia|]. cbn [consumeFieldValueD]. rewrite zlen_app. unfold zlen. rewrite L. replace (Z.of_nat 8 + Z.of_nat (length r) <? 8) with false by lia. reflexivity.
  - intros d num p l V B N fuel r F. apply Forall_app in B. destruct B as [Bl Bp]. destruct fuel as [|fuel]; [lia|]. cbn [consumeFieldValueD]. unfold consumeBytes. rewrite <- app_assoc, (varint_complete _ _ _ Bl V), !zlen_app.
    replace (zlen l <? 0) with false by (unfold zlen; lia). replace (Z.to_N (zlen l + (zlen p + zlen r) - zlen l) <? N.of_nat (length p))%N with false by (unfold zlen; lia).
    f_equal. unfold zlen. lia.
  - intros d num fs b e D H IH V B N fuel r F. apply Forall_app in B. destruct B as [Bb Be]. rewrite app_length in F. destruct fuel as [|fuel]; [lia|]. cbn [consumeFieldValueD].
    replace (d <? 0) with false by lia. rewrite <- app_assoc. replace d with (d - 1 + 1) at 1 by lia. pose proof (varint_nonempty _ _ V).
    rewrite (IH Bb num e r fuel _ Be N V) by lia. f_equal. rewrite !zlen_app. lia.
  - intros d num p L B N fuel r F. destruct fuel as [|fuel]; [lia|]. cbn [consumeFieldValueD]. rewrite zlen_app. unfold zlen. rewrite L. replace (Z.of_nat 4 + Z.of_nat (length r) <? 4) with false by lia. reflexivity.
  - intros d B num e r fuel n0 Be N V F. destruct fuel as [|fuel]; [lia|]. cbn [consumeGroup app]. rewrite (tag_complete e num 4 r Be N eq_refl V).
    replace (zlen e <? 0) with false by (unfold zlen; lia). rewrite drop_app. cbn [N.eqb Pos.eqb]. rewrite N.eqb_refl. reflexivity.
  - intros d num2 x typ t b fs b' N2 V H IHv Hs IHs B num e r fuel n0 Be N Ve F. apply Forall_app in B. destruct B as [Bt B]. apply Forall_app in B. destruct B as [Bb Br].
    rewrite !app_length in F. pose proof (varint_nonempty _ _ V) as L. destruct (holds_type _ _ _ _ _ H) as [T4 T]. destruct fuel as [|fuel]; [lia|]. cbn [consumeGroup].
    rewrite <- !app_assoc. rewrite (tag_complete t num2 typ _ Bt N2 T4 V). replace (zlen t <? 0) with false by (unfold zlen; lia). rewrite drop_app.
    replace (typ =? 4)%N with false by lia. replace (d + 1 - 1) with d by lia. rewrite (IHv Bb N2 fuel) by lia. replace (zlen b <? 0) with false by (unfold zlen; lia). rewrite drop_app.
    apply IHs; try assumption. lia.
Qed.
Lemma value_sound : forall fuel,
  (forall num typ b d n, bytes_ok b -> (typ < 8)%N -> consumeFieldValueD fuel num typ b d = Some n -> 0 <= n -> exists x p r, b = p ++ r /\ n = zlen p /\ holds_value d num x typ p) /\
  (forall num b d n0 n, bytes_ok b -> consumeGroup fuel num b d n0 = Some n -> 0 <= n -> zlen b <= n0 ->
     exists fs p e r, b = p ++ e ++ r /\ n = n0 - zlen r /\ fields (d - 1) fs p /\ varint_bytes e (num * 8 + 4)).
Proof.
  induction fuel as [|fuel [IHv IHg]]; split; intros; try discriminate.
  - cbn [consumeFieldValueD] in H1.
    assert (T : (typ = 0 \/ typ = 1 \/ typ = 2 \/ typ = 3 \/ typ = 4 \/ typ = 5 \/ typ = 6 \/ typ = 7)%N) by lia.
    destruct T as [->|[->|[->|[->|[->|[->|[->| ->]]]]]]].
    + injection H1 as <-. destruct (ConsumeVarint b) as [v m] eqn:C. cbn [snd] in *. destruct (varint_sound _ _ _ H C H2) as (g & r & -> & V & ->).
      exists (XVar v), g, r. split; [reflexivity|]. split; [reflexivity|]. constructor. exact V.
    + injection H1 as <-. destruct (Z.ltb_spec (zlen b) 8) as [L|L]; [unfold errCodeTruncated in H2; lia|].
      assert (E : length (firstn 8 b) = 8%nat) by (rewrite firstn_length; unfold zlen in L; lia).
      exists (X64 (firstn 8 b)), (firstn 8 b), (skipn 8 b). split; [symmetry; apply firstn_skipn|]. split; [unfold zlen; rewrite E; reflexivity|]. constructor. exact E.
    + injection H1 as <-. unfold consumeBytes in *. destruct (ConsumeVarint b) as [v m] eqn:C. destruct (Z.ltb_spec m 0) as [M|M]; [lia|].
      destruct (varint_sound _ _ _ H C M) as (g & r & -> & V & ->). rewrite zlen_app in *. destruct (N.ltb_spec (Z.to_N (zlen g + zlen r - zlen g)) v) as [Q|Q]; [unfold errCodeTruncated in H2; lia|].
      assert (E : length (firstn (N.to_nat v) r) = N.to_nat v) by (rewrite firstn_length; unfold zlen in Q; lia).
      exists (XLen (firstn (N.to_nat v) r)), (g ++ firstn (N.to_nat v) r), (skipn (N.to_nat v) r).
      split; [rewrite <- app_assoc, firstn_skipn; reflexivity|]. split; [rewrite zlen_app; unfold zlen; rewrite E; lia|]. constructor. rewrite E, N2Nat.id. exact V.
    + destruct (Z.ltb_spec d 0) as [D|D]; [injection H1 as <-; unfold errCodeRecursionDepth in H2; lia|].
      apply IHg in H1; [|exact H|exact H2|lia]. destruct H1 as (fs & p & e & r & -> & -> & F & V). exists (XGroup fs), (p ++ e), r. split; [rewrite <- app_assoc; reflexivity|].
      split; [rewrite !zlen_app; lia|]. constructor; assumption.
    + injection H1 as <-. unfold errCodeEndGroup in H2. lia.
    + injection H1 as <-. destruct (Z.ltb_spec (zlen b) 4) as [L|L]; [unfold errCodeTruncated in H2; lia|].
      assert (E : length (firstn 4 b) = 4%nat) by (rewrite firstn_length; unfold zlen in L; lia).
      exists (X32 (firstn 4 b)), (firstn 4 b), (skipn 4 b). split; [symmetry; apply firstn_skipn|]. split; [unfold zlen; rewrite E; reflexivity|]. constructor. exact E.
    + injection H1 as <-. unfold errCodeReserved in H2. lia.
    + injection H1 as <-. unfold errCodeReserved in H2. lia.
  - cbn [consumeGroup] in H0. destruct (ConsumeTag b) as [[num2 typ2] m] eqn:C. destruct (Z.ltb_spec m 0) as [M|M]; [injection H0 as <-; lia|].
    destruct (tag_sound _ _ _ _ H C M) as (t & r & -> & N2 & T & V & ->). rewrite drop_app in H0. apply Forall_app in H. destruct H as [Bt Br]. destruct (N.eqb_spec typ2 4) as [->|T4].
    + injection H0 as <-. destruct (N.eqb_spec num num2) as [<-|]; [|unfold errCodeEndGroup in H1; lia]. exists [], [], t, r. split; [reflexivity|]. split; [reflexivity|]. split; [constructor|exact V].
    + destruct (consumeFieldValueD fuel num2 typ2 r (d - 1)) as [k|] eqn:CV; [|discriminate H0]. destruct (Z.ltb_spec k 0) as [K|K]; [injection H0 as <-; lia|].
      destruct (IHv _ _ _ _ _ Br T CV K) as (x & p & r' & -> & -> & HV). rewrite drop_app in H0. apply Forall_app in Br. destruct Br as [Bp Br'].
      apply IHg in H0; [|exact Br'|exact H1|rewrite !zlen_app in H2; unfold zlen in *; lia]. destruct H0 as (fs & p' & e & r & -> & -> & F & Ve).
      exists ((num2, x) :: fs), (t ++ p ++ p'), e, r. split; [rewrite <- !app_assoc; reflexivity|]. split; [reflexivity|]. split; [|exact Ve]. econstructor; eassumption.
Qed.
(** The fuel is enough. *)
Lemma value_fuel_enough : forall fuel,
  (forall num typ b d, bytes_ok b -> (2 * length b + 2 <= fuel)%nat -> consumeFieldValueD fuel num typ b d <> None) /\
  (forall num b d n0, bytes_ok b -> (2 * length b + 1 <= fuel)%nat -> consumeGroup fuel num b d n0 <> None).
Proof.
  induction fuel as [|fuel [IHv IHg]]; split; intros; try lia.
  - cbn [consumeFieldValueD]. destruct typ as [|[[[p|p|]|[p|p|]|]|[[p|p|]|[p|p|]|]|]]; try discriminate. destruct (d <? 0); [discriminate|]. apply IHg; [assumption|lia].
  - cbn [consumeGroup]. destruct (ConsumeTag b) as [[num2 typ2] m] eqn:C. destruct (Z.ltb_spec m 0) as [M|M]; [discriminate|].
    destruct (tag_sound _ _ _ _ H C M) as (t & r & -> & N2 & T & V & ->). rewrite drop_app. pose proof (varint_nonempty _ _ V) as L. rewrite app_length in H0. apply Forall_app in H. destruct H as [Bt Br].
    destruct (typ2 =? 4)%N; [discriminate|]. destruct (consumeFieldValueD fuel num2 typ2 r (d - 1)) as [k|] eqn:CV.
    2:{ exfalso. revert CV. apply IHv; [exact Br|lia]. }
    destruct (Z.ltb_spec k 0) as [K|K]; [discriminate|]. destruct (proj1 (value_sound fuel) _ _ _ _ _ Br T CV K) as (x & p & r' & -> & -> & HV). rewrite drop_app.
    apply Forall_app in Br. destruct Br as [Bp Br']. apply IHg; [exact Br'|]. rewrite app_length in H0. lia.
Qed.

(** The loop. *)
Definition step (f : bool) (x : N * value) : bool :=
  match x with (n, XVar v) => if (n =? trackFieldUseFieldNumber)%N then negb (v =? 0)%N else f | _ => f end.
Lemma loop_complete : forall d fs b, fields d fs b -> d = 10000 -> bytes_ok b -> forall fuel f, (length b < fuel)%nat -> tracked_loop fuel f b = Tracked (fold_left step fs f).
Proof.
  induction 1 as [d|d num x typ t b fs r N V H Hs IH]; intros D B fuel f F; (destruct fuel as [|fuel]; [lia|]); [reflexivity|].
  apply Forall_app in B. destruct B as [Bt B]. apply Forall_app in B. destruct B as [Bb Br]. rewrite !app_length in F. pose proof (varint_nonempty _ _ V) as L.
  destruct (holds_type _ _ _ _ _ H) as [T _]. cbn [tracked_loop]. destruct (t ++ b ++ r) as [|c0 b0] eqn:E; [destruct t; [cbn in L; lia|discriminate E]|]. rewrite <- E. clear E.
  rewrite (tag_complete t num typ _ Bt N T V), from_app. unfold ConsumeFieldValue. rewrite <- D.
  rewrite (proj1 value_complete _ _ _ _ _ H Bb N) by (unfold value_fuel; rewrite app_length; lia). rewrite from_app. cbn [fold_left]. rewrite IH; [|exact D|exact Br|lia]. f_equal. f_equal.
  unfold step. destruct H; try (rewrite andb_false_r; reflexivity). rewrite andb_true_r. destruct (num =? trackFieldUseFieldNumber)%N; [|reflexivity]. rewrite (varint_complete _ _ _ Bb H). reflexivity.
Qed.
Lemma from_inv : forall b n r, from_ b n = Some r -> 0 <= n.
Proof. intros b n r E. unfold from_ in E. destruct ((0 <=? n) && (n <=? zlen b)) eqn:Q; [lia|discriminate E]. Qed.
Lemma loop_sound : forall fuel f b t, bytes_ok b -> tracked_loop fuel f b = Tracked t -> exists fs, fields 10000 fs b.
Proof.
  induction fuel as [|fuel IH]; intros f b t B E; [discriminate E|]. cbn [tracked_loop] in E. destruct b as [|c b]; [exists []; constructor|].
  destruct (ConsumeTag (c :: b)) as [[num typ] n] eqn:C. destruct (from_ (c :: b) n) as [b1|] eqn:F1; [|discriminate E]. pose proof (from_inv _ _ _ F1) as N0.
  destruct (tag_sound _ _ _ _ B C N0) as (tg & r & Eb & N & T & V & ->). rewrite Eb in *. rewrite from_app in F1. injection F1 as <-. apply Forall_app in B. destruct B as [Bt Br].
  destruct (ConsumeFieldValue num typ r) as [m|] eqn:CV; [|discriminate E]. destruct (from_ r m) as [b2|] eqn:F2; [|discriminate E]. pose proof (from_inv _ _ _ F2) as M0.
  destruct (proj1 (value_sound _) _ _ _ _ _ Br T CV M0) as (x & p & r' & -> & -> & HV). rewrite from_app in F2. injection F2 as <-. apply Forall_app in Br. destruct Br as [Bp Br'].
  destruct (IH _ _ _ Br' E) as (fs & HF). exists ((num, x) :: fs). econstructor; eassumption.
Qed.
Lemma loop_fuel : forall fuel f b, bytes_ok b -> (length b < fuel)%nat -> tracked_loop fuel f b <> OutOfFuel.
Proof.
  induction fuel as [|fuel IH]; intros f b B L; [lia|]. cbn [tracked_loop]. destruct b as [|c b]; [discriminate|].
  destruct (ConsumeTag (c :: b)) as [[num typ] n] eqn:C. destruct (from_ (c :: b) n) as [b1|] eqn:F1; [|discriminate]. pose proof (from_inv _ _ _ F1) as N0.
  destruct (tag_sound _ _ _ _ B C N0) as (tg & r & Eb & N & T & V & ->). rewrite Eb in *. rewrite from_app in F1. injection F1 as <-. apply Forall_app in B. destruct B as [Bt Br].
  destruct (ConsumeFieldValue num typ r) as [m|] eqn:CV.
  2:{ exfalso. revert CV. apply (proj1 (value_fuel_enough _)); [exact Br|unfold value_fuel; lia]. }
  destruct (from_ r m) as [b2|] eqn:F2; [|discriminate]. pose proof (from_inv _ _ _ F2) as M0.
  destruct (proj1 (value_sound _) _ _ _ _ _ Br T CV M0) as (x & p & r' & -> & -> & HV). rewrite from_app in F2. injection F2 as <-. apply Forall_app in Br. destruct Br as [Bp Br'].
  apply IH; [exact Br'|]. pose proof (varint_nonempty _ _ V). rewrite !app_length in L. lia.
Qed.
Lemma tracked_proof : forall b fs, bytes_ok b -> fields 10000 fs b -> isTrackedMessage b = Tracked (flag trackFieldUseFieldNumber fs).
Proof. intros b fs B F. unfold isTrackedMessage. rewrite (loop_complete _ _ _ F eq_refl B) by lia. reflexivity. Qed.
Lemma tracked_panics_proof : forall b, bytes_ok b -> (forall fs, ~ fields 10000 fs b) -> isTrackedMessage b = SlicePanic.
Proof.
  intros b B N. destruct (isTrackedMessage b) eqn:E; [|reflexivity|].
  - destruct (loop_sound _ _ _ _ B E) as (fs & F). destruct (N fs F).
  - exfalso. revert E. apply loop_fuel; [exact B|lia].
Qed.
