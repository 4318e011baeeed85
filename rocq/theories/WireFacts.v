(** Proofs about Wire.v: the model functions compute the wire format of SpecWire.v. *)
From Coq Require Import ZifyBool ZifyNat ZifyN.
From Verif Require Import Base Wire SpecWire.
Local Open Scope N_scope.
Ltac Zify.zify_post_hook ::= Z.div_mod_to_equations.

(** ** vint *)
Lemma vint_aux_fuel : forall f1 f2 n, n < 2 ^ N.of_nat f1 -> n < 2 ^ N.of_nat f2 ->
  vint_aux (S f1) n = vint_aux (S f2) n.
Proof.
  induction f1; intros f2 n H1 H2.
  - assert (n = 0) by (cbn in H1; lia). subst. cbn. reflexivity.
  - destruct f2 as [|f2].
    + assert (n = 0) by (cbn in H2; lia). subst. cbn. reflexivity.
    + change (vint_aux (S (S f1)) n) with
        (if n <? 128 then [n] else (n mod 128 + 128) :: vint_aux (S f1) (n / 128)).
      change (vint_aux (S (S f2)) n) with
        (if n <? 128 then [n] else (n mod 128 + 128) :: vint_aux (S f2) (n / 128)).
      destruct (n <? 128) eqn:E; [reflexivity|]. f_equal. apply IHf1.
      * rewrite Nat2N.inj_succ, N.pow_succ_r' in H1.
        apply N.div_lt_upper_bound; lia.
      * rewrite Nat2N.inj_succ, N.pow_succ_r' in H2.
        apply N.div_lt_upper_bound; lia.
Qed.

Lemma size_nat_gt n : n < 2 ^ N.of_nat (N.size_nat n).
Proof.
  assert (H : N.of_nat (N.size_nat n) = N.size n).
  { destruct n; [reflexivity|]. cbn. induction p; cbn [Pos.size_nat Pos.size]; lia. }
  rewrite H. apply N.size_gt.
Qed.

Lemma vint_eq n : vint n = if n <? 128 then [n] else (n mod 128 + 128) :: vint (n / 128).
Proof.
  unfold vint. change (vint_aux (S (N.size_nat n)) n) with
    (if n <? 128 then [n] else (n mod 128 + 128) :: vint_aux (N.size_nat n) (n / 128)).
  destruct (n <? 128) eqn:E; [reflexivity|]. f_equal.
  assert (N.size_nat n <> 0%nat).
  { destruct n; [cbv in E; discriminate|]. cbn. destruct p; discriminate. }
  destruct (N.size_nat n) as [|k] eqn:Ek; [contradiction|].
  apply vint_aux_fuel.
  - pose proof (size_nat_gt n) as Hn. rewrite Ek in Hn.
    rewrite Nat2N.inj_succ, N.pow_succ_r' in Hn. apply N.div_lt_upper_bound; lia.
  - apply size_nat_gt.
Qed.

Lemma vint_small n : n < 128 -> vint n = [n].
Proof. intros. rewrite vint_eq. destruct (n <? 128) eqn:E; [reflexivity|lia]. Qed.
Lemma vint_big n : 128 <= n -> vint n = (n mod 128 + 128) :: vint (n / 128).
Proof. intros. rewrite vint_eq. destruct (n <? 128) eqn:E; [lia|reflexivity]. Qed.

Lemma vint_ind (P : N -> Prop) :
  (forall n, n < 128 -> P n) -> (forall n, 128 <= n -> P (n / 128) -> P n) -> forall n, P n.
Proof.
  intros H0 H1 n. induction n as [n IH] using (well_founded_induction N.lt_wf_0).
  destruct (N.lt_ge_cases n 128); [auto|]. apply H1; [assumption|]. apply IH. lia.
Qed.

Lemma vint_ok n : bytes_ok (vint n).
Proof.
  induction n using vint_ind.
  - rewrite vint_small by assumption. constructor; [lia|constructor].
  - rewrite vint_big by assumption. constructor; [lia|assumption].
Qed.

Lemma vint_nonempty n : vint n <> [].
Proof. rewrite vint_eq. destruct (n <? 128); discriminate. Qed.

Lemma vgroup_vint n r : vgroup (vint n ++ r) = Some (vint n, r).
Proof.
  induction n using vint_ind.
  - rewrite vint_small by assumption. cbn [app vgroup].
    destruct (n <? 128) eqn:E; [reflexivity|lia].
  - rewrite vint_big by assumption. cbn [app vgroup].
    destruct (n mod 128 + 128 <? 128) eqn:E; [lia|]. rewrite IHn. reflexivity.
Qed.

Lemma vvalue_vint n : vvalue (vint n) = n.
Proof.
  induction n using vint_ind.
  - rewrite vint_small by assumption. cbn [vvalue]. lia.
  - rewrite vint_big by assumption. cbn [vvalue]. rewrite IHn. lia.
Qed.

Lemma vint_length n k : n < 128 ^ N.of_nat k -> (length (vint n) <= Nat.max 1 k)%nat.
Proof.
  revert n. induction k; intros n H.
  - cbn in H. rewrite vint_small by lia. cbn. lia.
  - destruct (N.lt_ge_cases n 128).
    + rewrite vint_small by lia. cbn. lia.
    + rewrite vint_big by lia. cbn [length].
      rewrite Nat2N.inj_succ, N.pow_succ_r' in H.
      assert (n / 128 < 128 ^ N.of_nat k) by (apply N.div_lt_upper_bound; lia).
      specialize (IHk _ H1). destruct k; [cbn in H1; lia|lia].
Qed.

Lemma vint_length_lb n k : 128 ^ N.of_nat k <= n -> (k < length (vint n))%nat.
Proof.
  revert n. induction k; intros n H.
  - destruct (vint n) eqn:E; [exfalso; revert E; apply vint_nonempty|cbn; lia].
  - rewrite Nat2N.inj_succ, N.pow_succ_r' in H.
    assert (0 < 128 ^ N.of_nat k) by (apply N.neq_0_lt_0, N.pow_nonzero; lia).
    rewrite vint_big by nia. cbn [length]. apply -> Nat.succ_lt_mono. apply IHk.
    apply N.div_le_lower_bound; lia.
Qed.

Lemma vint_length_64 n : n < 2^64 -> (length (vint n) <= 10)%nat.
Proof.
  intros. apply (vint_length n 10). eapply N.lt_le_trans; [exact H|]. vm_compute. discriminate.
Qed.

Lemma read_varint_vint n r : n < 2^64 -> read_varint (vint n ++ r) = VOk n (length (vint n)) r.
Proof.
  intros H. unfold read_varint. rewrite vgroup_vint, vvalue_vint.
  pose proof (vint_length_64 n H).
  destruct (Nat.ltb_spec 10 (length (vint n))); [lia|].
  destruct (2^64 <=? n) eqn:E; [lia|]. reflexivity.
Qed.

(** ** appendVarint *)
Lemma vbyte_spec v s : vbyte v s = (v / 2 ^ s) mod 128 + 128.
Proof.
  unfold vbyte, u8. rewrite N.shiftr_div_pow2.
  change 127 with (N.ones 7). rewrite N.land_ones. change (2^7) with 128.
  set (x := (v / 2 ^ s) mod 128). assert (x < 128) by (apply N.mod_lt; lia).
  assert (E : N.lor x 128 = x + 128).
  { rewrite <- N.lxor_lor, N.add_nocarry_lxor; [reflexivity| |].
    - apply N.bits_inj_iff. intros i. rewrite N.land_spec, N.bits_0.
      destruct (N.eq_dec i 7) as [->|Hi].
      + rewrite (N.bits_above_log2 x 7); [reflexivity|].
        destruct (N.eq_dec x 0) as [->|]; [cbn; lia|]. apply N.log2_lt_pow2; [lia|]. cbn. lia.
      + change 128 with (2^7). rewrite N.pow2_bits_false by lia. apply andb_false_r.
    - apply N.bits_inj_iff. intros i. rewrite N.land_spec, N.bits_0.
      destruct (N.eq_dec i 7) as [->|Hi].
      + rewrite (N.bits_above_log2 x 7); [reflexivity|].
        destruct (N.eq_dec x 0) as [->|]; [cbn; lia|]. apply N.log2_lt_pow2; [lia|]. cbn. lia.
      + change 128 with (2^7). rewrite N.pow2_bits_false by lia. apply andb_false_r. }
  rewrite E. apply N.mod_small. lia.
Qed.

Lemma u8_shiftr v s : v / 2^s < 256 -> u8 (N.shiftr v s) = v / 2^s.
Proof. intros. unfold u8. rewrite N.shiftr_div_pow2. apply N.mod_small; assumption. Qed.

Ltac pows := repeat match goal with |- context[2 ^ ?k] =>
  let v := eval vm_compute in (2 ^ k) in change (2 ^ k) with v end.

Lemma appendVarint_spec b v : v < 2^64 -> appendVarint b v = b ++ vint v.
Proof.
  intros H. change (2^64) with 18446744073709551616 in H.
  unfold appendVarint.
  repeat match goal with |- context[v <? ?k] =>
    let x := eval vm_compute in k in change k with x end.
  repeat match goal with |- (if ?c then _ else _) = _ => destruct c eqn:?E end;
  rewrite ?vbyte_spec; rewrite ?u8_shiftr by (pows; lia); pows;
  f_equal; rewrite ?N.div_1_r;
  repeat (rewrite vint_big by lia; f_equal; rewrite ?N.div_div by discriminate;
    repeat match goal with |- context[?a * ?b] =>
      let x := eval vm_compute in (a * b) in change (a * b) with x end);
  rewrite vint_small by lia; f_equal; try reflexivity; unfold u8; lia.
Qed.

Lemma zlen_app {A} (a b : list A) : zlen (a ++ b) = (zlen a + zlen b)%Z.
Proof. unfold zlen. rewrite app_length. lia. Qed.
Lemma zlen_nonneg {A} (a : list A) : (0 <= zlen a)%Z.
Proof. unfold zlen. lia. Qed.
Lemma zlen_cons {A} (x : A) l : zlen (x :: l) = (1 + zlen l)%Z.
Proof. unfold zlen. cbn [length]. lia. Qed.
Lemma zlen_nil {A} : zlen (@nil A) = 0%Z.
Proof. reflexivity. Qed.

(** ** sizeOfVarint *)
Lemma sizeOfVarint_spec v : v < 2^64 -> sizeOfVarint v = zlen (vint v).
Proof.
  intros H. unfold sizeOfVarint, bitlen, zlen.
  assert (Hs : N.size v <= 64).
  { destruct (N.eq_dec v 0) as [->|]; [cbn; lia|]. rewrite N.size_log2 by assumption.
    apply N.le_succ_l. apply N.log2_lt_pow2; lia. }
  pose proof (N.size_gt v) as Hg.
  assert (Hl : v <> 0 -> 2 ^ (N.size v - 1) <= v).
  { intros Hv. rewrite N.size_log2 by assumption. replace (N.succ (N.log2 v) - 1) with (N.log2 v) by lia.
    apply N.log2_spec. lia. }
  destruct (N.eq_dec v 0) as [->|Hv]; [reflexivity|]. specialize (Hl Hv).
  set (s := N.size v) in *.
  assert (Hs1 : 1 <= s). { destruct (N.eq_dec s 0) as [E|]; [rewrite E in Hg; cbn in Hg; lia|lia]. }
  set (k := N.to_nat ((s - 1) / 7)).
  assert (Hk : N.of_nat k = (s - 1) / 7) by (unfold k; lia).
  assert (L1 : (length (vint v) <= Nat.max 1 (S k))%nat).
  { apply vint_length. eapply N.lt_le_trans; [exact Hg|].
    change 128 with (2^7). rewrite <- N.pow_mul_r. apply N.pow_le_mono_r; lia. }
  assert (L2 : (k < length (vint v))%nat).
  { apply vint_length_lb. eapply N.le_trans; [|exact Hl].
    change 128 with (2^7). rewrite <- N.pow_mul_r. apply N.pow_le_mono_r; lia. }
  lia.
Qed.

Lemma appendVarint_len b v : v < 2^64 -> zlen (appendVarint b v) = (zlen b + sizeOfVarint v)%Z.
Proof. intros. rewrite appendVarint_spec, zlen_app, sizeOfVarint_spec by assumption. reflexivity. Qed.

Lemma sizeOfVarint_pos v : v < 2^64 -> (1 <= sizeOfVarint v <= 10)%Z.
Proof.
  intros. rewrite sizeOfVarint_spec by assumption. unfold zlen.
  pose proof (vint_length_64 v H). pose proof (vint_nonempty v).
  destruct (vint v); [contradiction|cbn in *; lia].
Qed.

(** ** decodeVarint *)
Lemma lor_add x c s : x < 2^s -> N.lor x (N.shiftl c s) = x + c * 2^s.
Proof.
  intros H.
  assert (L : N.land x (N.shiftl c s) = 0).
  { apply N.bits_inj_iff. intros i. rewrite N.land_spec, N.bits_0.
    destruct (N.lt_ge_cases i s).
    - rewrite N.shiftl_spec_low by assumption. apply andb_false_r.
    - destruct (N.eq_dec x 0) as [->|]; [now rewrite N.bits_0|].
      rewrite (N.bits_above_log2 x i); [reflexivity|].
      apply N.lt_le_trans with s; [|assumption].
      apply (proj1 (N.log2_lt_pow2 x s (proj1 (N.neq_0_lt_0 x) n))). exact H. }
  rewrite <- N.lxor_lor, <- N.add_nocarry_lxor by assumption.
  rewrite N.shiftl_mul_pow2. reflexivity.
Qed.

Lemma lor_shl64 x c s : x < 2^s -> c * 2^s < 2^64 -> N.lor x (shl64 c s) = x + c * 2^s.
Proof.
  intros. unfold shl64. rewrite N.mod_small.
  - apply lor_add; assumption.
  - rewrite N.shiftl_mul_pow2. exact H0.
Qed.

Lemma land127 c : N.land c 127 = c mod 128.
Proof. change 127 with (N.ones 7). rewrite N.land_ones. reflexivity. Qed.

Lemma vvalue_bound g : vvalue g < 128 ^ N.of_nat (length g).
Proof.
  induction g as [|c g IH]; [cbn; lia|].
  cbn [vvalue length]. rewrite Nat2N.inj_succ, N.pow_succ_r'.
  set (p := 128 ^ _) in *. clearbody p. lia.
Qed.

Lemma vgroup_length b g r : vgroup b = Some (g, r) ->
  b = g ++ r /\ g <> [].
Proof.
  revert g r. induction b as [|c b IH]; intros g r H; [discriminate|]. cbn [vgroup] in H.
  destruct (c <? 128).
  - inversion H; subst. split; [reflexivity|discriminate].
  - destruct (vgroup b) as [[g' r']|]; [|discriminate]. inversion H; subst.
    destruct (IH _ _ eq_refl) as [-> _]. split; [reflexivity|discriminate].
Qed.

Lemma vgroup_last b g r : vgroup b = Some (g, r) ->
  exists g0 c, g = g0 ++ [c] /\ c < 128 /\ Forall (fun c => 128 <= c) g0.
Proof.
  revert g r. induction b as [|c b IH]; intros g r H; [discriminate|]. cbn [vgroup] in H.
  destruct (c <? 128) eqn:E.
  - inversion H; subst. exists [], c. repeat split; [lia|constructor].
  - destruct (vgroup b) as [[g' r']|]; [|discriminate]. inversion H; subst.
    destruct (IH _ _ eq_refl) as (g0 & d & -> & Hd & Hg). exists (c :: g0), d.
    repeat split; [assumption|]. constructor; [lia|assumption].
Qed.

Lemma loop_spec b : forall (i : nat) x, (x < 128 ^ N.of_nat i \/ (10 <= i)%nat) ->
  match vgroup b with
  | None => exists y, decodeVarint_loop b (Z.of_nat i) (7 * N.of_nat i) x
                      = (y, (Z.of_nat i + zlen b)%Z, Some ErrUnexpectedEOF)
  | Some (g, _) =>
    if ((10 <? i + length g)%nat || (2^64 <=? 128 ^ N.of_nat i * vvalue g))%bool
    then decodeVarint_loop b (Z.of_nat i) (7 * N.of_nat i) x
         = (0, Z.of_nat (i + length g - 1), Some ErrVarintOverflow)
    else decodeVarint_loop b (Z.of_nat i) (7 * N.of_nat i) x
         = (x + 128 ^ N.of_nat i * vvalue g, Z.of_nat (i + length g), None)
  end.
Proof.
  assert (P : forall i, 2 ^ (7 * N.of_nat i) = 128 ^ N.of_nat i)
    by (intros; rewrite N.pow_mul_r; reflexivity).
  induction b as [|c b IH]; intros i x Hx.
  - cbn [vgroup]. exists x. cbn. f_equal. f_equal. lia.
  - cbn [vgroup decodeVarint_loop]. destruct (c <? 128) eqn:Ec.
    + cbn [length vvalue]. rewrite N.mul_0_r, N.add_0_r.
      assert (Hc : c mod 128 = c) by (apply N.mod_small; lia). rewrite Hc.
      destruct (Nat.ltb_spec 10 (i + 1)) as [Hi|Hi].
      * cbn [orb]. replace (9 <? Z.of_nat i)%Z with true by lia. cbn [orb].
        f_equal. f_equal. lia.
      * cbn [orb]. destruct Hx as [Hx|Hx]; [|lia].
        replace (9 <? Z.of_nat i)%Z with false by lia. cbn [orb].
        assert (Hp : 128 ^ N.of_nat i = 2^63 /\ i = 9%nat \/ (i < 9)%nat /\ 128 ^ N.of_nat i * c < 2^63).
        { destruct (Nat.eq_dec i 9) as [->|]; [left; split; reflexivity|right].
          split; [lia|]. apply N.lt_le_trans with (128 ^ N.of_nat i * 128).
          - apply N.mul_lt_mono_pos_l; [|lia]. apply N.neq_0_lt_0, N.pow_nonzero; lia.
          - rewrite N.mul_comm, <- N.pow_succ_r'. change (2^63) with (128^9).
            apply N.pow_le_mono_r; lia. }
        destruct Hp as [[Hp ->]|[Hi9 Hp]].
        -- rewrite Hp in *. change (Z.of_nat 9 =? 9)%Z with true. cbn [andb].
           destruct (1 <? c) eqn:E1.
           ++ replace (2 ^ 64 <=? 2 ^ 63 * c) with true by (pows; lia). f_equal.
           ++ replace (2 ^ 64 <=? 2 ^ 63 * c) with false by (pows; lia).
              rewrite lor_shl64.
              ** change (2 ^ (7 * N.of_nat 9)) with (2^63). rewrite N.mul_comm. reflexivity.
              ** exact Hx.
              ** change (2 ^ (7 * N.of_nat 9)) with (2^63). pows. lia.
        -- replace (Z.of_nat i =? 9)%Z with false by lia. cbn [andb].
           replace (2 ^ 64 <=? 128 ^ N.of_nat i * c) with false by (revert Hp; pows; lia).
           rewrite lor_shl64, P.
           ++ rewrite N.mul_comm. do 2 f_equal. lia.
           ++ rewrite P; assumption.
           ++ rewrite P, N.mul_comm. revert Hp; pows; lia.
    + rewrite land127.
      replace (Z.of_nat i + 1)%Z with (Z.of_nat (S i)) by lia.
      replace (7 * N.of_nat i + 7) with (7 * N.of_nat (S i)) by lia.
      assert (Hx' : N.lor x (shl64 (c mod 128) (7 * N.of_nat i)) < 128 ^ N.of_nat (S i) \/ (10 <= S i)%nat).
      { destruct (le_lt_dec 10 (S i)); [right; assumption|left].
        destruct Hx as [Hx|]; [|lia].
        rewrite lor_shl64; rewrite ?P; [| assumption |].
        - rewrite Nat2N.inj_succ, N.pow_succ_r'. 
          assert (c mod 128 < 128) by (apply N.mod_lt; lia). nia.
        - apply N.lt_le_trans with (128 * 128 ^ N.of_nat i).
          + apply N.mul_lt_mono_pos_r; [apply N.neq_0_lt_0, N.pow_nonzero; lia|apply N.mod_lt; lia].
          + rewrite <- N.pow_succ_r'. apply N.le_trans with (128^9); [apply N.pow_le_mono_r; lia|pows; cbn; lia]. }
      specialize (IH (S i) _ Hx').
      destruct (vgroup b) as [[g r]|] eqn:Eg.
      * cbn [length vvalue]. replace (i + S (length g))%nat with (S i + length g)%nat by lia.
        assert (E : (2 ^ 64 <=? 128 ^ N.of_nat i * (c mod 128 + 128 * vvalue g)) = 
                (2 ^ 64 <=? 128 ^ N.of_nat (S i) * vvalue g) \/ (10 < S i + length g)%nat).
        { destruct (le_lt_dec (S i + length g) 10); [left|right; assumption].
          rewrite Nat2N.inj_succ, N.pow_succ_r'.
          assert (Hi : exists q, 2^64 = 128 * 128 ^ N.of_nat i * q).
          { exists (2 ^ (64 - 7 * N.of_nat (S i))). rewrite <- N.pow_succ_r', <- Nat2N.inj_succ, <- P.
            rewrite <- N.pow_add_r. f_equal. 
            destruct (vgroup_length _ _ _ Eg) as [_ Hg]. destruct g; [contradiction|cbn in l].
            lia. }
          destruct Hi as [q Hq].
          assert (Hpos : 0 < 128 ^ N.of_nat i) by (apply N.neq_0_lt_0, N.pow_nonzero; lia).
          rewrite Hq. set (p := 128 ^ N.of_nat i) in *.
          assert (Hm : c mod 128 < 128) by (apply N.mod_lt; lia).
          assert (A : p * (c mod 128 + 128 * vvalue g) = p * (c mod 128) + 128 * p * vvalue g) by lia.
          rewrite A.
          destruct (N.leb_spec (128 * p * q) (128 * p * vvalue g)) as [L|L];
          destruct (N.leb_spec (128 * p * q) (p * (c mod 128) + 128 * p * vvalue g)) as [L'|L'];
          try reflexivity; exfalso; try lia.
          apply N.mul_lt_mono_pos_l in L; [|lia].
          assert (vvalue g + 1 <= q) by lia. nia. }
        assert (V : x + 128 ^ N.of_nat i * (c mod 128 + 128 * vvalue g) =
               x + 128 ^ N.of_nat i * (c mod 128) + 128 ^ N.of_nat (S i) * vvalue g).
        { rewrite Nat2N.inj_succ, N.pow_succ_r'. lia. }
        destruct (Nat.ltb_spec 10 (S i + length g)) as [Hl|Hl].
        -- cbn [orb] in *. exact IH.
        -- destruct E as [E|E]; [|lia]. cbn [orb] in *. rewrite E.
           destruct (2 ^ 64 <=? 128 ^ N.of_nat (S i) * vvalue g); [exact IH|].
           rewrite IH, V. f_equal. f_equal. f_equal.
           destruct Hx as [Hx|]; [|destruct g; cbn in *; [|lia];
             destruct (vgroup_length _ _ _ Eg) as [_ Hg]; contradiction].
           rewrite lor_shl64, P; [lia| rewrite P; assumption |].
           apply N.lt_le_trans with (128 * 128 ^ N.of_nat i).
           ++ rewrite P. apply N.mul_lt_mono_pos_r; [apply N.neq_0_lt_0, N.pow_nonzero; lia|apply N.mod_lt; lia].
           ++ rewrite <- N.pow_succ_r'. apply N.le_trans with (128^9); [|pows; cbn; lia].
              apply N.pow_le_mono_r; [lia|].
              destruct (vgroup_length _ _ _ Eg) as [_ Hg]. destruct g; [contradiction|cbn in *; lia].
      * destruct IH as [y IH]. exists y. rewrite IH. f_equal. f_equal. rewrite zlen_cons. lia.
Qed.

Lemma decodeVarint_spec b :
  match read_varint b with
  | VOk v n _ => decodeVarint b = (v, Z.of_nat n, None)
  | VEof => exists y, decodeVarint b = (y, zlen b, Some ErrUnexpectedEOF)
  | VOverflow n => decodeVarint b = (0, Z.of_nat (n - 1), Some ErrVarintOverflow)
  end.
Proof.
  unfold read_varint, decodeVarint.
  pose proof (loop_spec b 0 0 (or_introl eq_refl)) as H.
  change (Z.of_nat 0) with 0%Z in H. change (7 * N.of_nat 0) with 0 in H.
  change (128 ^ N.of_nat 0) with 1 in H.
  destruct b as [|c b]; [cbn; exists 0; reflexivity|].
  destruct (c <? 128) eqn:E.
  - cbn [vgroup]. rewrite E. cbn [length vvalue].
    rewrite N.mul_0_r, N.add_0_r, N.mod_small by lia.
    replace (2^64 <=? c) with false by (pows; lia). cbn. reflexivity.
  - destruct (vgroup (c :: b)) as [[g r]|].
    + rewrite N.mul_1_l in H. cbn [Nat.add] in H.
      destruct ((10 <? length g)%nat || (2 ^ 64 <=? vvalue g))%bool; rewrite H; reflexivity.
    + exact H.
Qed.

Lemma read_varint_ok b v n r : read_varint b = VOk v n r ->
  v < 2^64 /\ b = firstn n b ++ r /\ skipn n b = r /\ (1 <= n <= 10)%nat /\ (n <= length b)%nat.
Proof.
  unfold read_varint. destruct (vgroup b) as [[g r']|] eqn:E; [|discriminate].
  destruct (Nat.ltb_spec 10 (length g)); [discriminate|]. cbn [orb].
  destruct (2^64 <=? vvalue g) eqn:E2; [discriminate|]. intros H0. inversion H0; subst.
  destruct (vgroup_length _ _ _ E) as [-> Hg]. rewrite firstn_app, Nat.sub_diag, firstn_all, app_nil_r.
  rewrite skipn_app, skipn_all, Nat.sub_diag. cbn [skipn app firstn].
  repeat split; try lia.
  - destruct g; [contradiction|cbn; lia].
  - rewrite app_length. lia.
Qed.

Lemma decodeVarint_vint n r : n < 2^64 -> decodeVarint (vint n ++ r) = (n, zlen (vint n), None).
Proof.
  intros H. pose proof (decodeVarint_spec (vint n ++ r)) as S.
  rewrite read_varint_vint in S by assumption. exact S.
Qed.

(** ** ZigZag *)
Lemma u64_small z : (0 <= z < Z64)%Z -> u64 z = Z.to_N z.
Proof. intros. unfold u64. rewrite Z.mod_small by assumption. reflexivity. Qed.
Lemma u64_lt z : u64 z < 2^64.
Proof. unfold u64, Z64. pows. lia. Qed.
Lemma u32_lt z : u32 z < 2^32.
Proof. unfold u32, Z32. pows. lia. Qed.
Lemma s64_small n : (Z.of_N n < Z63)%Z -> s64 n = Z.of_N n.
Proof.
  intros. unfold s64. rewrite Z.mod_small by (unfold Z63, Z64 in *; lia).
  destruct (Z.of_N n <? Z63)%Z eqn:E; lia.
Qed.
Lemma s64_range n : (- Z63 <= s64 n < Z63)%Z.
Proof. unfold s64, Z63, Z64. destruct (_ <? _)%Z eqn:E; lia. Qed.
Lemma s32_range n : (- Z31 <= s32 n < Z31)%Z.
Proof. unfold s32, Z31, Z32. destruct (_ <? _)%Z eqn:E; lia. Qed.
Lemma s64_u64 z : (- Z63 <= z < Z63)%Z -> s64 (u64 z) = z.
Proof. intros. unfold s64, u64, Z63, Z64 in *. destruct (_ <? _)%Z eqn:E; lia. Qed.
Lemma u64_s64 n : n < 2^64 -> u64 (s64 n) = n.
Proof. pows. intros. unfold s64, u64, Z63, Z64 in *. destruct (_ <? _)%Z eqn:E; lia. Qed.
Lemma s32_id z : (- Z31 <= z < Z31)%Z -> s32 z = z.
Proof. intros. unfold s32, Z31, Z32 in *. destruct (_ <? _)%Z eqn:E; lia. Qed.

Lemma encodeZigZag64_spec v : (- Z63 <= v < Z63)%Z -> encodeZigZag64 v = zigzag v.
Proof.
  intros H. unfold encodeZigZag64, zigzag, shl64. rewrite N.shiftl_mul_pow2. change (2^1) with 2.
  destruct (v <? 0)%Z eqn:E.
  - assert (Hs : Z.shiftr v 63 = (-1)%Z).
    { rewrite Z.shiftr_div_pow2 by lia. change (2^63)%Z with 9223372036854775808%Z.
      unfold Z63 in H. lia. }
    rewrite Hs. change (u64 (-1)) with (N.ones 64).
    assert (Hx : (u64 v * 2) mod M64 < 2^64) by (apply N.mod_lt; discriminate).
    rewrite <- (N.lnot_sub_low _ 64) || idtac.
    change (N.lxor ((u64 v * 2) mod M64) (N.ones 64)) with (N.lnot ((u64 v * 2) mod M64) 64).
    rewrite N.lnot_sub_low.
    + change (N.ones 64) with 18446744073709551615. unfold u64, M64, Z63, Z64 in *. lia.
    + destruct (N.eq_dec ((u64 v * 2) mod M64) 0) as [->|]; [cbn; lia|]. apply N.log2_lt_pow2; [lia|assumption].
  - assert (Hs : Z.shiftr v 63 = 0%Z).
    { rewrite Z.shiftr_div_pow2 by lia. change (2^63)%Z with 9223372036854775808%Z.
      unfold Z63 in H. lia. }
    rewrite Hs. change (u64 0) with 0. rewrite N.lxor_0_r. unfold u64, M64, Z63, Z64 in *. lia.
Qed.

Lemma decodeZigZag64_spec n : n < 2^64 -> decodeZigZag64 n = unzigzag n.
Proof.
  intros H. change (2^64) with 18446744073709551616 in H. unfold decodeZigZag64, unzigzag.
  rewrite N.shiftr_div_pow2. change (2^1) with 2.
  rewrite s64_small by (unfold Z63; lia).
  assert (L : Z.land (s64 n) 1 = Z.of_N (n mod 2)).
  { change 1%Z with (Z.ones 1). rewrite Z.land_ones by lia. change (2^1)%Z with 2%Z.
    unfold s64, Z63, Z64. destruct (_ <? _)%Z; lia. }
  rewrite L. destruct (N.even n) eqn:E.
  - apply N.even_spec in E. destruct E as [k ->].
    replace ((2 * k) mod 2) with 0 by lia. apply Z.lxor_0_r.
  - assert (O : N.odd n = true) by (rewrite <- N.negb_even, E; reflexivity).
    apply N.odd_spec in O. destruct O as [k ->].
    replace ((2 * k + 1) mod 2) with 1 by lia. change (- Z.of_N 1)%Z with (-1)%Z.
    rewrite Z.lxor_m1_r. unfold Z.lnot. lia.
Qed.

Lemma unzigzag_zigzag z : unzigzag (zigzag z) = z.
Proof.
  unfold unzigzag, zigzag. destruct (z <? 0)%Z eqn:E.
  - destruct (N.even (Z.to_N (-2 * z - 1))) eqn:O; [|lia].
    apply N.even_spec in O. destruct O as [k Hk]. lia.
  - destruct (N.even (Z.to_N (2 * z))) eqn:O; [lia|].
    assert (O' : N.odd (Z.to_N (2 * z)) = true) by (rewrite <- N.negb_even, O; reflexivity).
    apply N.odd_spec in O'. destruct O' as [k Hk]. lia.
Qed.

Lemma zigzag_unzigzag n : zigzag (unzigzag n) = n.
Proof.
  unfold unzigzag, zigzag. destruct (N.even n) eqn:E.
  - apply N.even_spec in E. destruct E as [k ->]. destruct (_ <? 0)%Z eqn:L; lia.
  - assert (O : N.odd n = true) by (rewrite <- N.negb_even, E; reflexivity).
    apply N.odd_spec in O. destruct O as [k ->]. destruct (_ <? 0)%Z eqn:L; lia.
Qed.

Lemma zigzag_range v : (- Z63 <= v < Z63)%Z -> zigzag v < 2^64.
Proof. intros. unfold zigzag, Z63 in *. pows. destruct (v <? 0)%Z; lia. Qed.
Lemma unzigzag_range n : n < 2^64 -> (- Z63 <= unzigzag n < Z63)%Z.
Proof. pows. intros. unfold unzigzag, Z63. destruct (N.even n); lia. Qed.

(** ** Little-endian *)
Lemma encodeLE32_spec b v : encodeLE32 b v = b ++ le_bytes 4 v.
Proof.
  unfold encodeLE32, u8. rewrite !N.shiftr_div_pow2. pows. cbn [le_bytes]. 
  rewrite !N.div_div by discriminate. rewrite N.div_1_r.
  repeat match goal with |- context[?a * ?b] =>
      let x := eval vm_compute in (a * b) in change (a * b) with x end. reflexivity.
Qed.
Lemma encodeLE64_spec b v : encodeLE64 b v = b ++ le_bytes 8 v.
Proof.
  unfold encodeLE64, u8. rewrite !N.shiftr_div_pow2. pows. cbn [le_bytes]. 
  rewrite !N.div_div by discriminate. rewrite N.div_1_r.
  repeat match goal with |- context[?a * ?b] =>
      let x := eval vm_compute in (a * b) in change (a * b) with x end. reflexivity.
Qed.

Lemma le_bytes_length k n : length (le_bytes k n) = k.
Proof. revert n. induction k; intros; cbn; [reflexivity|now rewrite IHk]. Qed.
Lemma le_bytes_ok k n : bytes_ok (le_bytes k n).
Proof. revert n. induction k; intros; cbn; constructor; [lia|apply IHk]. Qed.
Lemma le_value_bytes k n : n < 256 ^ N.of_nat k -> le_value (le_bytes k n) = n.
Proof.
  revert n. induction k; intros n H.
  - cbn in *. lia.
  - cbn [le_bytes le_value]. rewrite Nat2N.inj_succ, N.pow_succ_r' in H. rewrite IHk; [lia|].
    apply N.div_lt_upper_bound; lia.
Qed.
Lemma le_value_bound b : bytes_ok b -> le_value b < 256 ^ N.of_nat (length b).
Proof.
  induction 1; [cbn; lia|]. cbn [le_value length]. rewrite Nat2N.inj_succ, N.pow_succ_r'.
  set (p := 256 ^ _) in *. clearbody p. lia.
Qed.
Lemma le_bytes_value b : bytes_ok b -> le_bytes (length b) (le_value b) = b.
Proof.
  induction 1; [reflexivity|]. cbn beta in H. cbn [le_value length le_bytes]. f_equal.
  - rewrite N.mul_comm, N.mod_add by lia. apply N.mod_small; assumption.
  - etransitivity; [|exact IHForall]. f_equal. set (y := le_value l). clearbody y. lia.
Qed.

Lemma le32_spec b : (4 <= length b)%nat -> le32 b = le_value (firstn 4 b).
Proof.
  destruct b as [|b0 [|b1 [|b2 [|b3 b]]]]; cbn [length]; try lia. intros _.
  cbn [firstn le_value le32]. lia.
Qed.
Lemma le64_spec b : (8 <= length b)%nat -> le64 b = le_value (firstn 8 b).
Proof.
  destruct b as [|b0 [|b1 [|b2 [|b3 [|b4 [|b5 [|b6 [|b7 b]]]]]]]]; cbn [length]; try lia. intros _.
  cbn [firstn le_value le64 le32]. lia.
Qed.

Lemma decodeLE32_spec b :
  decodeLE32 b = if (length b <? 4)%nat then (0, 0%Z, Some ErrUnexpectedEOF)
                 else (le_value (firstn 4 b), 4%Z, None).
Proof.
  unfold decodeLE32, zlen. destruct (Nat.ltb_spec (length b) 4).
  - replace (Z.of_nat (length b) <? 4)%Z with true by lia. reflexivity.
  - replace (Z.of_nat (length b) <? 4)%Z with false by lia. rewrite le32_spec by assumption. reflexivity.
Qed.
Lemma decodeLE64_spec b :
  decodeLE64 b = if (length b <? 8)%nat then (0, 0%Z, Some ErrUnexpectedEOF)
                 else (le_value (firstn 8 b), 8%Z, None).
Proof.
  unfold decodeLE64, zlen. destruct (Nat.ltb_spec (length b) 8).
  - replace (Z.of_nat (length b) <? 8)%Z with true by lia. reflexivity.
  - replace (Z.of_nat (length b) <? 8)%Z with false by lia. rewrite le64_spec by assumption. reflexivity.
Qed.

(** ** Tags *)
Lemma mktag_spec f t : f < 2^61 -> t < 8 -> mktag f t = 8 * f + t.
Proof.
  intros Hf Ht. unfold mktag, shl64. rewrite N.mod_small.
  - rewrite N.lor_comm, lor_add; [change (2^3) with 8; lia|exact Ht].
  - rewrite N.shiftl_mul_pow2. revert Hf. unfold M64. pows. lia.
Qed.
Lemma tag_number_spec v : tag_number v = v / 8.
Proof. unfold tag_number. rewrite N.shiftr_div_pow2. reflexivity. Qed.
Lemma tag_type_spec v : tag_type v = v mod 8.
Proof. unfold tag_type. change 7 with (N.ones 3). rewrite N.land_ones. reflexivity. Qed.

Lemma mktag_lt f t : t < 8 -> mktag f t < 2^64.
Proof.
  intros. unfold mktag, shl64.
  assert (E : (N.shiftl f 3 mod M64) = N.shiftl (f mod 2^61) 3).
  { rewrite !N.shiftl_mul_pow2. unfold M64. pows. lia. }
  rewrite E, N.lor_comm, lor_add by exact H.
  pose proof (N.mod_lt f (2^61)). revert H0. pows. lia.
Qed.
