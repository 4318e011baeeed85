(** Facts about struct tag parsing. *)
From Coq Require Import ZifyBool ZifyNat ZifyN String Ascii DecimalString DecimalN DecimalFacts.
From Verif Require Import Base Wire GoType Tag SpecTag.
Local Open Scope Z_scope.

(** ** Numerals *)
Fixpoint uvalue (u : Decimal.uint) (acc : Z) : Z :=
  match u with
  | Decimal.Nil => acc
  | Decimal.D0 u => uvalue u (10 * acc)
  | Decimal.D1 u => uvalue u (10 * acc + 1)
  | Decimal.D2 u => uvalue u (10 * acc + 2)
  | Decimal.D3 u => uvalue u (10 * acc + 3)
  | Decimal.D4 u => uvalue u (10 * acc + 4)
  | Decimal.D5 u => uvalue u (10 * acc + 5)
  | Decimal.D6 u => uvalue u (10 * acc + 6)
  | Decimal.D7 u => uvalue u (10 * acc + 7)
  | Decimal.D8 u => uvalue u (10 * acc + 8)
  | Decimal.D9 u => uvalue u (10 * acc + 9)
  end.

Lemma digits_uint u : forall acc, digits (NilEmpty.string_of_uint u) acc = Some (uvalue u acc).
Proof.
  induction u; intros acc; cbn [NilEmpty.string_of_uint digits uvalue]; try reflexivity;
    match goal with |- context [digit ?c] => let d := eval vm_compute in (digit c) in change (digit c) with d end;
    cbn beta iota; rewrite IHu; f_equal; f_equal; lia.
Qed.

Lemma uvalue_acc u : forall p, uvalue u (Zpos p) = Zpos (Pos.of_uint_acc u p).
Proof.
  induction u; intros p; cbn [uvalue Pos.of_uint_acc]; [reflexivity|..];
    rewrite <- IHu; f_equal; lia.
Qed.
Lemma uvalue_of u : uvalue u 0 = Z.of_N (N.of_uint u).
Proof.
  induction u; cbn [uvalue N.of_uint Pos.of_uint]; try reflexivity; try exact IHu;
    unfold N.of_uint; cbn [Pos.of_uint Z.of_N]; rewrite <- uvalue_acc; reflexivity.
Qed.

Lemma numeral_nonempty n : numeral n <> EmptyString.
Proof.
  unfold numeral, NilZero.string_of_uint. destruct (N.to_uint n); discriminate.
Qed.
Lemma numeral_digits n : digits (numeral n) 0 = Some (Z.of_N n).
Proof.
  unfold numeral, NilZero.string_of_uint.
  assert (H : uvalue (N.to_uint n) 0 = Z.of_N n) by (rewrite uvalue_of, DecimalN.Unsigned.of_to; reflexivity).
  destruct (N.to_uint n) eqn:E; try (rewrite digits_uint; f_equal; exact H).
  cbn in H. rewrite <- H. reflexivity.
Qed.

Lemma digit_spec c : digit c = if is_digit c then Some (Z.of_N (N_of_ascii c) - 48) else None.
Proof.
  unfold digit, is_digit.
  replace ((48 <=? Z.of_N (N_of_ascii c)) && (Z.of_N (N_of_ascii c) <=? 57)) with ((48 <=? N_of_ascii c)%N && (N_of_ascii c <=? 57)%N) by lia.
  reflexivity.
Qed.
Lemma digits_none s : forall acc, digits s acc = None <-> all_digits s = false.
Proof.
  induction s as [|c s IH]; intros acc; cbn [digits all_digits]; [split; discriminate|].
  rewrite digit_spec. destruct (is_digit c); cbn [andb]; [apply IH|split; reflexivity].
Qed.
Lemma digits_all s v acc : digits s acc = Some v -> all_digits s = true.
Proof. intros H. destruct (all_digits s) eqn:E; [reflexivity|]. apply (digits_none s acc) in E. congruence. Qed.

(** Texts that denote [n]. *)
Definition denotes (s : string) (n : N) : Prop := s <> EmptyString /\ digits s 0 = Some (Z.of_N n).
Lemma numeral_denotes n : denotes (numeral n) n.
Proof. split; [apply numeral_nonempty|apply numeral_digits]. Qed.

Lemma atoi_denotes s n : denotes s n -> (n < 2^63)%N -> atoi s = Some (Z.of_N n).
Proof.
  intros [NE D] Hn. unfold atoi.
  destruct s as [|c r]; [contradiction|].
  assert (F : is_digit c = true).
  { apply digits_all in D. cbn [all_digits] in D. destruct (is_digit c); [reflexivity|discriminate]. }
  assert (c <> "-"%char) by (intros ->; discriminate F).
  assert (c <> "+"%char) by (intros ->; discriminate F).
  destruct (Ascii.eqb_spec c "-"%char); [contradiction|]. destruct (Ascii.eqb_spec c "+"%char); [contradiction|].
  cbn [unsigned]. rewrite D. replace ((- Z63 <=? Z.of_N n) && (Z.of_N n <? Z63)) with true by (unfold Z63; lia). reflexivity.
Qed.

Lemma unsigned_none s : is_numeral s = false -> unsigned s = None.
Proof. destruct s; [reflexivity|]. cbn [is_numeral unsigned]. apply digits_none. Qed.
Lemma atoi_none s : is_signed_numeral s = false -> atoi s = None.
Proof.
  unfold atoi. destruct s as [|c r]; [reflexivity|]. intros H.
  destruct (Ascii.eqb_spec c "-"%char) as [->|N1].
  - cbn [is_signed_numeral] in H. rewrite unsigned_none by exact H. reflexivity.
  - destruct (Ascii.eqb_spec c "+"%char) as [->|N2].
    + cbn [is_signed_numeral] in H. rewrite unsigned_none by exact H. reflexivity.
    + assert (H' : is_numeral (String c r) = false).
      { rewrite <- H. destruct c as [[] [] [] [] [] [] [] []]; try reflexivity; [exfalso; apply N2; reflexivity|exfalso; apply N1; reflexivity]. }
      rewrite unsigned_none by exact H'. reflexivity.
Qed.

(** ** Splitting at commas *)
Fixpoint nocomma (s : string) : bool :=
  match s with EmptyString => true | String c r => negb (Ascii.eqb c ","%char) && nocomma r end.
Lemma nocomma_spec s : nocomma s = true <-> ~ has_comma s.
Proof.
  induction s as [|c s IH]; cbn [nocomma].
  - split; [|reflexivity]. intros _ ([|] & b & H); discriminate.
  - destruct (Ascii.eqb_spec c ","%char) as [->|N]; cbn [negb andb].
    + split; [discriminate|]. intros H. exfalso. apply H. exists EmptyString, s. reflexivity.
    + rewrite IH. split; intros H (a & b & E).
      * destruct a as [|c' a]; cbn in E; inversion E; subst; [apply N; reflexivity|]. apply H. exists a, b. reflexivity.
      * apply H. exists (String c a), b. subst. reflexivity.
Qed.
Lemma split_nocomma s : nocomma s = true -> split_comma s = [s].
Proof.
  induction s as [|c s IH]; cbn [nocomma split_comma]; [reflexivity|].
  destruct (Ascii.eqb c ","%char); [discriminate|]. cbn [negb andb]. intros H. rewrite IH by assumption. reflexivity.
Qed.
Lemma split_app s t : nocomma s = true -> split_comma (s ++ String "," t) = s :: split_comma t.
Proof.
  induction s as [|c s IH]; cbn [nocomma append split_comma]; [reflexivity|].
  destruct (Ascii.eqb c ","%char); [discriminate|]. cbn [negb andb]. intros H. rewrite IH by assumption. reflexivity.
Qed.
Lemma split_cons s : split_comma s <> [].
Proof. destruct s as [|c s]; cbn [split_comma]; [discriminate|]. destruct (Ascii.eqb _ _); [discriminate|]. destruct (split_comma s); discriminate. Qed.

Lemma digits_nocomma s : all_digits s = true -> nocomma s = true.
Proof.
  induction s as [|c s IH]; cbn [all_digits nocomma]; [reflexivity|]. intros H. apply andb_prop in H. destruct H as [H1 H2].
  rewrite IH by assumption. destruct (Ascii.eqb_spec c ","%char) as [->|]; [discriminate H1|reflexivity].
Qed.
Lemma denotes_nocomma s n : denotes s n -> nocomma s = true.
Proof. intros [_ H]. apply digits_nocomma. eapply digits_all. exact H. Qed.

Lemma kinds_nocomma k w z : In (k, (w, z)) kinds -> nocomma k = true.
Proof. cbn. intros [H|[H|[H|[H|[H|[H|[]]]]]]]; inversion H; reflexivity. Qed.

(** ** Parsing *)
Lemma parse_wire_kind k w z t : In (k, (w, z)) kinds -> t_zz t = false ->
  parse_wire k t = ({| t_wire := w; t_num := t_num t; t_rep := t_rep t; t_zz := z |}, None).
Proof.
  intros H Ht. cbn in H. unfold parse_wire. rewrite Ht.
  destruct H as [H|[H|[H|[H|[H|[H|[]]]]]]]; inversion H; reflexivity.
Qed.

Lemma parse_rest ws t i : (3 <= i)%nat -> parse_fields i ws t = (t, None).
Proof.
  revert i. induction ws as [|w ws IH]; intros i Hi; [reflexivity|]. cbn [parse_fields].
  destruct i as [|[|[|i]]]; try lia. apply IH. lia.
Qed.

Lemma tail_split o tail : nocomma o = true -> tail_ok tail = true -> exists ws, split_comma (o ++ tail) = o :: ws.
Proof.
  intros Ho Ht. destruct tail as [|c tail].
  - exists []. replace (o ++ "")%string with o by (clear; induction o; cbn; congruence). apply split_nocomma. exact Ho.
  - cbn [tail_ok] in Ht. apply Ascii.eqb_eq in Ht. subst c. eexists. apply split_app. exact Ho.
Qed.

Lemma u64_N n : (n < 2^64)%N -> u64 (Z.of_N n) = n.
Proof. intros H. unfold u64, Z64. lia. Qed.

Lemma parse_denotes k w z s n (rep : bool) tail : In (k, (w, z)) kinds -> denotes s n -> (n < 2^63)%N -> tail_ok tail = true ->
  parseStructTag (k ++ "," ++ s ++ "," ++ (if rep then "rep" else "opt") ++ tail) =
  ({| t_wire := w; t_num := n; t_rep := rep; t_zz := z |}, None).
Proof.
  intros Hk Hs Hn Ht. unfold parseStructTag. cbn [append].
  rewrite split_app by (eapply kinds_nocomma; eassumption).
  rewrite split_app by (eapply denotes_nocomma; eassumption).
  destruct (tail_split (if rep then "rep" else "opt") tail) as (ws & ->); [destruct rep; reflexivity|assumption|].
  cbn [parse_fields]. rewrite (parse_wire_kind k w z) by (try assumption; reflexivity).
  unfold parse_num. rewrite (atoi_denotes _ _ Hs) by assumption. cbn [t_wire t_num t_rep t_zz].
  rewrite u64_N by lia. destruct rep; cbn [parse_opt String.eqb Ascii.eqb Bool.eqb]; apply parse_rest; lia.
Qed.

Lemma parse_tag_ok k w z n (rep : bool) tail : In (k, (w, z)) kinds -> (n < 2^63)%N -> tail_ok tail = true ->
  parseStructTag (k ++ "," ++ numeral n ++ "," ++ (if rep then "rep" else "opt") ++ tail) =
  ({| t_wire := w; t_num := n; t_rep := rep; t_zz := z |}, None).
Proof. intros. apply parse_denotes; auto using numeral_denotes. Qed.

(** The parser looks at the first three items only. *)
Lemma bad_kind k rest : nocomma k = true -> ~ In k (map fst kinds) -> tail_ok rest = true ->
  snd (parseStructTag (k ++ rest)) = Some ErrTagWire.
Proof.
  intros Hk Hn Ht. unfold parseStructTag. destruct (tail_split k rest) as (ws & ->); [assumption..|].
  cbn [parse_fields]. unfold parse_wire.
  repeat match goal with |- context [(k =? ?s)%string] => destruct (String.eqb_spec k s) as [->|]; [exfalso; apply Hn; cbn; tauto|] end.
  reflexivity.
Qed.
Lemma bad_number k w z s rest : In (k, (w, z)) kinds -> nocomma s = true ->
  (is_signed_numeral s = false \/ atoi s = None) -> tail_ok rest = true ->
  snd (parseStructTag (k ++ "," ++ s ++ rest)) = Some ErrTagNumber.
Proof.
  intros Hk Hs Hn Ht. unfold parseStructTag. cbn [append].
  rewrite split_app by (eapply kinds_nocomma; eassumption).
  destruct (tail_split s rest) as (ws & ->); [assumption..|].
  cbn [parse_fields]. rewrite (parse_wire_kind k w z) by (try assumption; reflexivity).
  unfold parse_num. assert (A : atoi s = None) by (destruct Hn; [apply atoi_none|]; assumption). rewrite A. reflexivity.
Qed.
Lemma bad_option k w z n o rest : In (k, (w, z)) kinds -> (n < 2^63)%N -> nocomma o = true ->
  o <> "opt"%string -> o <> "rep"%string -> tail_ok rest = true ->
  snd (parseStructTag (k ++ "," ++ numeral n ++ "," ++ o ++ rest)) = Some ErrTagOption.
Proof.
  intros Hk Hn Ho H1 H2 Ht. unfold parseStructTag. cbn [append].
  rewrite split_app by (eapply kinds_nocomma; eassumption).
  rewrite split_app by (eapply denotes_nocomma, numeral_denotes).
  destruct (tail_split o rest) as (ws & ->); [assumption..|].
  cbn [parse_fields]. rewrite (parse_wire_kind k w z) by (try assumption; reflexivity).
  unfold parse_num. rewrite (atoi_denotes _ _ (numeral_denotes n)) by assumption. cbn [t_wire t_num t_rep t_zz].
  unfold parse_opt. destruct (String.eqb_spec o "opt"); [contradiction|]. destruct (String.eqb_spec o "rep"); [contradiction|].
  reflexivity.
Qed.

(** ** formatWireTag *)
Lemma digit_char_digit d : (d < 10)%N -> digit (digit_char d) = Some (Z.of_N d).
Proof.
  intros H. unfold digit, digit_char. rewrite N_ascii_embedding by lia.
  replace ((48 <=? Z.of_N (48 + d)) && (Z.of_N (48 + d) <=? 57)) with true by lia. f_equal. lia.
Qed.
Lemma decimal_aux_digits f : forall n acc, (n < 10 ^ N.of_nat f)%N -> (0 < f)%nat ->
  decimal_aux f n acc <> EmptyString /\
  exists k, forall z, digits (decimal_aux f n acc) z = digits acc (z * 10 ^ Z.of_nat k + Z.of_N n).
Proof.
  induction f as [|f IH]; intros n acc Hn Hf; [lia|]. cbn [decimal_aux].
  assert (M : (n mod 10 < 10)%N) by (apply N.mod_lt; lia).
  assert (E : Z.of_N n = 10 * Z.of_N (n / 10) + Z.of_N (n mod 10)) by lia.
  destruct (N.ltb_spec n 10).
  - split; [discriminate|]. exists 1%nat. intros z. cbn [digits]. rewrite (digit_char_digit _ M). f_equal. rewrite E.
    assert (n / 10 = 0)%N by (apply N.div_small; assumption). change (10 ^ Z.of_nat 1) with 10. lia.
  - assert (P : (n / 10 < 10 ^ N.of_nat f)%N).
    { apply N.div_lt_upper_bound; [lia|]. rewrite <- N.pow_succ_r by lia.
      replace (N.succ (N.of_nat f)) with (N.of_nat (S f)) by lia. exact Hn. }
    assert (F : (0 < f)%nat). { destruct f; [cbn in P; lia|lia]. }
    destruct (IH (n / 10)%N (String (digit_char (n mod 10)) acc) P F) as (A & k & B).
    split; [exact A|]. exists (S k). intros z. rewrite B. cbn [digits]. rewrite (digit_char_digit _ M). f_equal.
    rewrite Nat2Z.inj_succ, Z.pow_succ_r by lia. rewrite E. ring.
Qed.
Lemma decimal_digits n : (n < 2^64)%N -> decimal n <> EmptyString /\ digits (decimal n) 0 = Some (Z.of_N n).
Proof.
  intros Hn. unfold decimal. destruct (decimal_aux_digits 20 n EmptyString) as (A & k & B); [|lia|].
  - eapply N.lt_trans; [exact Hn|]. reflexivity.
  - split; [exact A|]. rewrite B. reflexivity.
Qed.

(** The tag text map.go:101-104 synthesises parses back to number and type. *)
Lemma parse_format n w : (n < 2^61)%N -> In w [0; 1; 2; 5]%N ->
  parseStructTag (formatWireTag (8 * n + w)) = ({| t_wire := w; t_num := n; t_rep := false; t_zz := false |}, None).
Proof.
  intros Hn Hw. unfold formatWireTag.
  assert (E1 : N.land (8 * n + w) 7 = w).
  { change 7%N with (N.ones 3). rewrite N.land_ones. change (2^3)%N with 8%N.
    cbn in Hw. destruct Hw as [<-|[<-|[<-|[<-|[]]]]]; lia. }
  assert (E2 : N.shiftr (8 * n + w) 3 = n).
  { rewrite N.shiftr_div_pow2. change (2^3)%N with 8%N. cbn in Hw. destruct Hw as [<-|[<-|[<-|[<-|[]]]]]; lia. }
  rewrite E1, E2.
  apply (parse_denotes (wire_name w) w false (decimal n) n false EmptyString); [|apply decimal_digits; lia|lia|reflexivity].
  cbn in Hw |- *. destruct Hw as [<-|[<-|[<-|[<-|[]]]]]; cbn; tauto.
Qed.
