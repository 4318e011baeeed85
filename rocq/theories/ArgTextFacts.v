(** Proofs about the texts of errors about arguments and struct tags. *)
From Coq Require Import String Ascii ZifyBool ZifyNat ZifyN.
From Verif Require Import Base Wire GoType Leaf Codec Tag Walker Api StructTag ErrText SpecTag TagFacts TagMore SpecErrText ErrTextFacts SpecTrace TraceFacts WalkSeq Typing StructTagFacts ArgText SpecArgText.
Local Open Scope string_scope.

(** ** Numbers *)
Lemma digit_range c d : digit c = Some d -> (0 <= d <= 9)%Z.
Proof. unfold digit. destruct ((48 <=? _) && (_ <=? 57))%Z eqn:E; [|discriminate]. intros H. injection H as <-. lia. Qed.
Lemma digits_ge s : forall acc n, (0 <= acc)%Z -> digits s acc = Some n -> (acc <= n)%Z.
Proof.
  induction s as [|c s IH]; cbn [digits]; intros acc n A H; [injection H as <-; lia|].
  destruct (digit c) as [d|] eqn:E; [|discriminate]. apply digit_range in E. apply IH in H; lia.
Qed.
Lemma parse_uint_ok s : forall acc n, (0 <= acc < 2^64)%Z -> parse_uint s acc = inl n <-> digits s acc = Some n /\ (n < 2^64)%Z.
Proof.
  induction s as [|c s IH]; cbn [digits parse_uint]; intros acc n A.
  - split; [intros H; injection H as <-; split; [reflexivity|lia]|intros [H _]; congruence].
  - destruct (digit c) as [d|] eqn:E; [|split; [discriminate|intros [H _]; discriminate]]. apply digit_range in E.
    destruct (10 * acc + d <? 2^64)%Z eqn:L; [apply IH; lia|].
    split; [discriminate|]. intros [H B]. apply digits_ge in H; lia.
Qed.
Lemma parse_uint_big s : forall acc, (0 <= acc < 2^64)%Z -> parse_uint s acc = inr true <-> exists d rest n, s = d ++ rest /\ digits d acc = Some n /\ (2^64 <= n)%Z.
Proof.
  induction s as [|c s IH]; cbn [parse_uint]; intros acc A.
  - split; [discriminate|]. intros ([|? ?] & rest & n & E & H & B); [|discriminate]. cbn in H. injection H as <-. lia.
  - destruct (digit c) as [d|] eqn:E.
    + pose proof (digit_range _ _ E) as R. destruct (10 * acc + d <? 2^64)%Z eqn:L.
      * rewrite IH by lia. split.
        -- intros (x & rest & n & -> & H & B). exists (String c x), rest, n. cbn. rewrite E. auto.
        -- intros ([|c' x] & rest & n & Es & H & B); cbn in *; [injection H as <-; lia|].
           injection Es as -> ->. rewrite E in H. exists x, rest, n. auto.
      * split; [|reflexivity]. intros _. exists (String c ""), s, (10 * acc + d)%Z. split; [reflexivity|]. split; [cbn [digits]; rewrite E; reflexivity|lia].
    + split; [discriminate|]. intros ([|c' x] & rest & n & Es & H & B); cbn in *; [injection H as <-; lia|].
      injection Es as -> ->. rewrite E in H. discriminate.
Qed.
Lemma digits_empty_nat d n : nat_value d = Some n -> digits d 0 = Some n.
Proof. rewrite <- unsigned_value. unfold unsigned. destruct d; [discriminate|auto]. Qed.
Lemma big_nat s : s <> "" -> (parse_uint s 0 = inr true <-> exists d rest n, s = d ++ rest /\ nat_value d = Some n /\ (2^64 <= n)%Z).
Proof.
  intros N. rewrite parse_uint_big by lia. split.
  - intros (d & rest & n & E & H & B). exists d, rest, n. split; [exact E|]. split; [|exact B]. rewrite <- unsigned_value. unfold unsigned.
    destruct d; [cbn in H; injection H as <-; lia|exact H].
  - intros (d & rest & n & E & H & B). exists d, rest, n. split; [exact E|]. split; [|exact B]. apply digits_empty_nat, H.
Qed.
Lemma ok_nat s n : s <> "" -> parse_uint s 0 = inl n <-> nat_value s = Some n /\ (n < 2^64)%Z.
Proof. intros N. rewrite parse_uint_ok by lia. rewrite <- unsigned_value. unfold unsigned. destruct s; [contradiction|reflexivity]. Qed.
(** The text after an optional sign. *)
Definition unsign (s : string) : bool * string :=
  match s with String "-" r => (true, r) | String "+" r => (false, r) | _ => (false, s) end.
Lemma unsign_cases s : (exists r, s = String "-" r /\ unsign s = (true, r) /\ int_value s = option_map Z.opp (nat_value r)) \/
  (exists r, s = String "+" r /\ unsign s = (false, r) /\ int_value s = nat_value r) \/
  ((forall r, s <> String "-" r) /\ (forall r, s <> String "+" r) /\ unsign s = (false, s) /\ int_value s = nat_value s).
Proof.
  destruct s as [|c r]; [right; right; repeat split; discriminate|].
  destruct (Ascii.eqb_spec c "-"%char) as [->|N1]; [left; eauto|].
  destruct (Ascii.eqb_spec c "+"%char) as [->|N2]; [right; left; eauto|].
  right. right. split; [intros x E; injection E as -> ->; contradiction|]. split; [intros x E; injection E as -> ->; contradiction|].
  destruct c as [b0 b1 b2 b3 b4 b5 b6 b7]. destruct b0, b1, b2, b3, b4, b5, b6, b7; try (split; reflexivity); contradiction.
Qed.
Lemma atoi_error_unsign s : atoi_error s = let '(neg, r) := unsign s in
  match r with
  | EmptyString => Some false
  | _ => match parse_uint r 0 with
         | inr e => Some e
         | inl n => if (n <? (if neg : bool then Z63 + 1 else Z63))%Z then None else Some true
         end
  end.
Proof. reflexivity. Qed.
Lemma nat_empty : nat_value "" = None. Proof. reflexivity. Qed.
Lemma nat_value_pos r n : nat_value r = Some n -> (0 <= n)%Z.
Proof. unfold nat_value. destruct (DecimalString.NilZero.uint_of_string r); [|discriminate]. cbn. intros H. injection H as <-. lia. Qed.

Lemma core_none (neg : bool) q iv : q <> "" -> iv = (if neg then option_map Z.opp (nat_value q) else nat_value q) ->
  match parse_uint q 0 with inr e => Some e | inl n => if (n <? (if neg then 2^63 + 1 else 2^63))%Z then None else Some true end = None <->
  exists z, iv = Some z /\ (- 2^63 <= z < 2^63)%Z.
Proof.
  intros Nq ->. destruct (parse_uint q 0) as [n|e] eqn:P.
  - apply ok_nat in P; [|exact Nq]. destruct P as [V B]. pose proof (nat_value_pos _ _ V). rewrite V. destruct (n <? _)%Z eqn:L.
    + split; [|reflexivity]. intros _. destruct neg; cbn; (eexists; split; [reflexivity|lia]).
    + split; [discriminate|]. intros (z & H1 & H2). destruct neg; cbn in H1; injection H1 as <-; lia.
  - split; [discriminate|]. intros (z & H1 & H2). destruct (nat_value q) as [n|] eqn:V; [|destruct neg; discriminate]. pose proof (nat_value_pos _ _ V).
    assert (X : parse_uint q 0 = inl n) by (apply ok_nat; [exact Nq|split; [exact V|destruct neg; cbn in H1; injection H1 as <-; lia]]). congruence.
Qed.
Lemma atoi_error_none s : atoi_error s = None <-> atoi s <> None.
Proof.
  assert (K : atoi s <> None <-> exists z, int_value s = Some z /\ (- 2^63 <= z < 2^63)%Z).
  { split; [destruct (atoi s) as [z|] eqn:E; [|contradiction]; intros _; apply atoi_some in E; eauto|].
    intros (z & H). apply atoi_some in H. congruence. }
  rewrite K, atoi_error_unsign. unfold Z63. clear K.
  destruct (unsign_cases s) as [(r & _ & -> & IV)|[(r & _ & -> & IV)|(_ & _ & -> & IV)]].
  - destruct r as [|c r]; [rewrite IV; split; [discriminate|intros (z & H & _); discriminate]|]. apply (core_none true (String c r)); [discriminate|exact IV].
  - destruct r as [|c r]; [rewrite IV; split; [discriminate|intros (z & H & _); discriminate]|]. apply (core_none false (String c r)); [discriminate|exact IV].
  - destruct s as [|c r]; [split; [discriminate|intros (z & H & _); discriminate]|]. apply (core_none false (String c r)); [discriminate|exact IV].
Qed.

Lemma prefix_sign (neg : bool) r c d rest sign : In sign [""; "+"; "-"] -> is_digit c = true ->
  (if neg : bool then String "-" r else String "+" r) = sign ++ String c d ++ rest -> r = String c d ++ rest.
Proof.
  intros I C E. cbn in I. destruct I as [<-|[<-|[<-|[]]]]; destruct neg; cbn in E; injection E; intros; subst; try reflexivity; try discriminate;
    (exfalso; discriminate C).
Qed.
Lemma nat_value_digit c d n : nat_value (String c d) = Some n -> is_digit c = true.
Proof.
  rewrite <- unsigned_value. cbn [unsigned digits]. destruct (digit c) as [x|] eqn:E; [|discriminate]. rewrite digit_spec in E.
  destruct (is_digit c); [reflexivity|discriminate].
Qed.
Lemma large_sign (neg : bool) r : (exists sign d rest n, In sign [""; "+"; "-"] /\ (if neg : bool then String "-" r else String "+" r) = sign ++ d ++ rest /\ nat_value d = Some n /\ (2^64 <= n)%Z) <->
  exists d rest n, r = d ++ rest /\ nat_value d = Some n /\ (2^64 <= n)%Z.
Proof.
  split.
  - intros (sign & d & rest & n & I & E & V & B). destruct d as [|c d]; [discriminate|]. exists (String c d), rest, n. split; [|auto].
    exact (prefix_sign neg r c d rest sign I (nat_value_digit _ _ _ V) E).
  - intros (d & rest & n & -> & V & B). exists (if neg then "-" else "+"), d, rest, n. split; [destruct neg; cbn; tauto|]. split; [destruct neg; reflexivity|auto].
Qed.
Lemma large_plain s : (forall r, s <> String "-" r) -> (forall r, s <> String "+" r) ->
  (exists sign d rest n, In sign [""; "+"; "-"] /\ s = sign ++ d ++ rest /\ nat_value d = Some n /\ (2^64 <= n)%Z) <->
  exists d rest n, s = d ++ rest /\ nat_value d = Some n /\ (2^64 <= n)%Z.
Proof.
  intros N1 N2. split.
  - intros (sign & d & rest & n & I & E & V & B). exists d, rest, n. split; [|auto]. cbn in I.
    destruct I as [<-|[<-|[<-|[]]]]; [exact E|exfalso; exact (N2 _ E)|exfalso; exact (N1 _ E)].
  - intros (d & rest & n & E & V & B). exists "", d, rest, n. split; [cbn; tauto|]. split; [exact E|auto].
Qed.

Lemma core_range neg q iv : q <> "" -> iv = (if neg : bool then option_map Z.opp (nat_value q) else nat_value q) ->
  match parse_uint q 0 with inr e => Some e | inl n => if (n <? (if neg : bool then 2^63 + 1 else 2^63))%Z then None else Some true end = Some true <->
  (exists z, iv = Some z /\ ~ (- 2^63 <= z < 2^63)%Z) \/ (exists d rest n, q = d ++ rest /\ nat_value d = Some n /\ (2^64 <= n)%Z).
Proof.
  intros Nq ->. rewrite <- (big_nat q Nq). destruct (parse_uint q 0) as [n|e] eqn:P.
  - apply ok_nat in P; [|exact Nq]. destruct P as [V B]. pose proof (nat_value_pos _ _ V). rewrite V. destruct (n <? _)%Z eqn:L.
    + split; [discriminate|]. intros [(z & H1 & H2)|H1]; [|discriminate]. destruct neg; cbn in H1; injection H1 as <-; lia.
    + split; [|reflexivity]. intros _. left. destruct neg; cbn; (eexists; split; [reflexivity|lia]).
  - split; [intros H; injection H as ->; right; reflexivity|]. intros [(z & H1 & H2)|H1]; [|congruence].
    destruct (nat_value q) as [n|] eqn:V; [|destruct neg; discriminate]. pose proof (nat_value_pos _ _ V).
    assert (2^64 <= n)%Z.
    { destruct (Z.ltb_spec n (2^64)); [|assumption]. assert (X : parse_uint q 0 = inl n) by (apply ok_nat; auto). congruence. }
    f_equal. assert (X : parse_uint q 0 = inr true). { apply big_nat; [exact Nq|]. exists q, "", n. rewrite app_nil_s. auto. } congruence.
Qed.
Lemma atoi_error_range s : atoi_error s = Some true <-> too_large s.
Proof.
  unfold too_large. rewrite atoi_error_unsign. unfold Z63.
  assert (E0 : forall d rest n, "" = d ++ rest -> nat_value d = Some n -> False) by (intros [|? ?] rest n E V; discriminate).
  destruct (unsign_cases s) as [(r & -> & -> & IV)|[(r & -> & -> & IV)|(N1 & N2 & -> & IV)]].
  - pose proof (large_sign true r) as LS. cbn [negb] in LS. cbv iota in LS. rewrite LS. clear LS. destruct r as [|c r].
    + split; [discriminate|]. intros [(z & H & _)|(d & rest & n & E & V & _)]; [rewrite IV in H; discriminate|exfalso; eauto].
    + apply (core_range true (String c r)); [discriminate|exact IV].
  - pose proof (large_sign false r) as LS. cbv iota in LS. rewrite LS. clear LS. destruct r as [|c r].
    + split; [discriminate|]. intros [(z & H & _)|(d & rest & n & E & V & _)]; [rewrite IV in H; discriminate|exfalso; eauto].
    + apply (core_range false (String c r)); [discriminate|exact IV].
  - rewrite (large_plain s N1 N2). destruct s as [|c r].
    + split; [discriminate|]. intros [(z & H & _)|(d & rest & n & E & V & _)]; [rewrite IV in H; discriminate|exfalso; eauto].
    + apply (core_range false (String c r)); [discriminate|exact IV].
Qed.

(** ** Tags *)
Lemma parse_wire_err f t t' : snd (parse_wire f t) = snd (parse_wire f t').
Proof. unfold parse_wire. repeat match goal with |- context [(f =? ?s)%string] => destruct (f =? s)%string; [reflexivity|] end. reflexivity. Qed.
Lemma parse_num_err f t t' : snd (parse_num f t) = snd (parse_num f t').
Proof. unfold parse_num. destruct (atoi f); reflexivity. Qed.
Lemma parse_opt_err f t t' : snd (parse_opt f t) = snd (parse_opt f t').
Proof. unfold parse_opt. repeat match goal with |- context [(f =? ?s)%string] => destruct (f =? s)%string; [reflexivity|] end. reflexivity. Qed.
Lemma fields_text_iff tag fs : forall i t, fields_text tag i fs = None <-> snd (parse_fields i fs t) = None.
Proof.
  induction fs as [|f fs IH]; cbn [fields_text parse_fields]; intros i t; [split; reflexivity|].
  set (t0 := {| t_wire := _ |}).
  assert (E : snd match i with 0%nat => parse_wire f t0 | 1%nat => parse_num f t0 | 2%nat => parse_opt f t0 | _ => (t0, None) end =
              snd match i with 0%nat => parse_wire f t | 1%nat => parse_num f t | 2%nat => parse_opt f t | _ => (t, None) end).
  { destruct i as [|[|[|i]]]; [apply parse_wire_err|apply parse_num_err|apply parse_opt_err|reflexivity]. }
  rewrite E. destruct match i with 0%nat => parse_wire f t | 1%nat => parse_num f t | 2%nat => parse_opt f t | _ => (t, None) end as [t' [e|]]; cbn [snd].
  - split; discriminate.
  - apply IH.
Qed.
Lemma tag_text_iff tag : tag_text tag = None <-> snd (parseStructTag tag) = None.
Proof. apply fields_text_iff. Qed.

Lemma kind_text_proof k rest : ~ has_comma k -> ~ In k (map fst kinds) -> tail_ok rest = true ->
  tag_text (k ++ rest) = Some ("unsupported wire type in struct tag " ++ Quote (k ++ rest) ++ ": " ++ k).
Proof.
  intros Hc Hk Ht. unfold tag_text. generalize (k ++ rest) at 1 3. intros tag. destruct (tail_split k rest) as (ws & ->); [apply nocomma_spec, Hc|exact Ht|]. cbn [fields_text].
  unfold parse_wire. repeat match goal with |- context [(k =? ?s)%string] => destruct (String.eqb_spec k s) as [->|]; [exfalso; apply Hk; cbn; tauto|] end. reflexivity.
Qed.
Lemma wire_kind_err k w z t : In (k, (w, z)) kinds -> snd (parse_wire k t) = None.
Proof. intros H. cbn in H. repeat (destruct H as [H|H]; [injection H as <- <- <-; reflexivity|]). destruct H. Qed.
Lemma number_text_proof k w z s rest (large : bool) : In (k, (w, z)) kinds -> ~ has_comma s ->
  match int_value s with Some z => ~ (- 2^63 <= z < 2^63)%Z | None => True end -> tail_ok rest = true -> (if large then too_large s else ~ too_large s) ->
  tag_text (k ++ "," ++ s ++ rest) = Some ("unsupported field number in struct tag " ++ Quote (k ++ "," ++ s ++ rest) ++ ": strconv.Atoi: parsing " ++
    Quote s ++ ": " ++ (if large then "value out of range" else "invalid syntax")).
Proof.
  intros Hk Hc Hv Ht HL. unfold tag_text. generalize (k ++ "," ++ s ++ rest) at 1 3. intros tag. cbn [append].
  rewrite split_app by (eapply kinds_nocomma; exact Hk). cbn [fields_text]. rewrite (wire_kind_err _ _ _ _ Hk).
  destruct (tail_split s rest) as (ws & ->); [apply nocomma_spec, Hc|exact Ht|]. cbn [fields_text]. unfold parse_num.
  assert (A : atoi s = None).
  { destruct (atoi s) as [y|] eqn:E; [|reflexivity]. apply atoi_some in E. destruct E as [E B]. rewrite E in Hv. contradiction. }
  rewrite A. cbn [snd tag_error_text]. destruct (atoi_error s) as [e|] eqn:E; [|apply atoi_error_none in E; contradiction].
  assert (e = large).
  { destruct large; [apply atoi_error_range in HL; congruence|]. destruct e; [|reflexivity]. exfalso. apply HL, atoi_error_range, E. }
  subst e. reflexivity.
Qed.
Lemma option_text_proof k w z s n o rest : In (k, (w, z)) kinds -> int_value s = Some n -> (- 2^63 <= n < 2^63)%Z -> ~ has_comma o ->
  o <> "opt" -> o <> "rep" -> tail_ok rest = true ->
  tag_text (k ++ "," ++ s ++ "," ++ o ++ rest) = Some ("unsupported field option in struct tag " ++ Quote (k ++ "," ++ s ++ "," ++ o ++ rest) ++ ": " ++ o).
Proof.
  intros Hk V B Ho H1 H2 Ht. unfold tag_text. generalize (k ++ "," ++ s ++ "," ++ o ++ rest) at 1 3. intros tag. cbn [append].
  rewrite split_app by (eapply kinds_nocomma; exact Hk). cbn [fields_text]. rewrite (wire_kind_err _ _ _ _ Hk).
  rewrite split_app by (eapply value_nocomma; exact V). cbn [fields_text]. unfold parse_num.
  replace (atoi s) with (Some n) by (symmetry; apply atoi_some; auto). cbn [snd].
  destruct (tail_split o rest) as (ws & ->); [apply nocomma_spec, Ho|exact Ht|]. cbn [fields_text]. unfold parse_opt.
  destruct (String.eqb_spec o "opt"); [contradiction|]. destruct (String.eqb_spec o "rep"); [contradiction|]. reflexivity.
Qed.

(** ** Arguments *)
Lemma zlen_nonempty (b : bytes) : b <> [] -> (zlen b =? 0)%Z = false.
Proof. destruct b; [contradiction|]. intros _. unfold zlen. cbn [length]. lia. Qed.
Lemma invalid_argument_proof D b v T s f t : b <> [] -> has_type v T -> T = Some t -> fault_of v = Some f ->
  Unmarshal D b v s = (Returns (v, Some InvalidUnmarshalError), s) /\ invalid_text T = "proto: Unmarshal(" ++ fault_words f ++ type_string t ++ ")".
Proof.
  intros B H -> F. unfold Unmarshal. rewrite (zlen_nonempty b B). inversion H as [|t0 X1|t0 e n X1 X2|t0 e k p X1 X2]; subst; cbn in F; [| |destruct p; [discriminate|]]; injection F as <-; (split; [reflexivity|]);
    unfold invalid_text; repeat match goal with X : elem_of _ = _ |- _ => rewrite X; clear X | X : struct_kind _ = _ |- _ => rewrite X; clear X end; reflexivity.
Qed.
Lemma invalid_only_proof D b v T s v' : reachable D s -> (zlen b < 2^63)%Z -> (forall k x, v = IPtr k (Some x) -> user_key D k = true) -> has_type v T ->
  fst (Unmarshal D b v s) = Returns (v', Some InvalidUnmarshalError) -> exists f t, fault_of v = Some f /\ T = Some t /\ b <> [].
Proof.
  intros R L U H E. unfold Unmarshal in E. destruct (zlen b =? 0)%Z eqn:Z; [discriminate|].
  assert (N : b <> []) by (intros ->; discriminate). destruct H as [|t Ht|t e n H1 H2|t e k p H1 H2]; [discriminate|exists NotAPointer, t; auto|exists NotToStruct, t; auto|].
  destruct p as [x|]; [|exists NilPointer, t; auto]. exfalso.
  assert (Q : exists x', v' = IPtr k (Some x')).
  { unfold with_info in E. destruct (run _ s) as [[i| |] s']; cbn [fst] in E; try discriminate.
    destruct (decs _ _ _ _ _ _ _ _) as [x' n [er|]|c|]; try discriminate; [injection E as <- _; eauto|]. injection E as <- _. eauto. }
  destruct Q as (x' & ->).
  assert (E' : fst (Unmarshal D b (IPtr k (Some x)) s) = Returns (IPtr k (Some x'), Some InvalidUnmarshalError)) by (unfold Unmarshal; rewrite Z; exact E).
  destruct (unmarshal_located_proof D s k b x x' _ R (U _ _ eq_refl) L E') as ([|[? ?] p] & c & X); [destruct c; discriminate|discriminate].
Qed.
Lemma nil_argument_proof D b s : b <> [] -> Unmarshal D b INil s = (Panics NilDeref, s).
Proof. intros B. unfold Unmarshal. rewrite (zlen_nonempty b B). reflexivity. Qed.
Lemma app_inj_r (a b c : string) : a ++ c = b ++ c -> a = b.
Proof.
  revert b. induction a as [|x a IH]; intros [|y b] H; cbn in H; [reflexivity| | |injection H as -> H; f_equal; auto].
  - exfalso. apply (f_equal String.length) in H. cbn in H. rewrite length_app_s in H. lia.
  - exfalso. apply (f_equal String.length) in H. cbn in H. rewrite length_app_s in H. lia.
Qed.
Lemma text_exact_proof v v' T T' f f' : has_type v T -> has_type v' T' -> fault_of v = Some f -> fault_of v' = Some f' ->
  invalid_text T = invalid_text T' -> f = f' /\ fmt_T T = fmt_T T'.
Proof.
  intros H H' F F' E.
  assert (K : forall v T f, has_type v T -> fault_of v = Some f -> invalid_text T = "proto: Unmarshal(" ++ fault_words f ++ fmt_T T ++ ")").
  { clear. intros v T f H F. destruct T as [t|]; [|inversion H; subst; discriminate]. apply (invalid_argument_proof [] [0%N] v _ g_empty f t); auto. discriminate. }
  rewrite (K _ _ _ H F), (K _ _ _ H' F') in E. clear K.
  destruct f, f'; cbn [fault_words append] in E; try discriminate; (split; [reflexivity|]); apply (app_inj_r _ _ ")"); congruence.
Qed.
Lemma nil_refuted_proof : exists b v, b <> [] /\ has_type v None /\ forall D s, Unmarshal D b v s = (Panics NilDeref, s).
Proof. exists [8; 1]%N, INil. split; [discriminate|]. split; [constructor|]. intros D s. apply nil_argument_proof. discriminate. Qed.

(** ** How types read *)
Lemma reads_string t w : reads_as t w <-> w = type_string t.
Proof.
  split; [induction 1; cbn; congruence|]. intros ->. induction t; cbn; constructor. assumption.
Qed.
Lemma reads_arg T w : arg_reads T w <-> w = fmt_T T.
Proof.
  split; [destruct 1 as [|t w H]; [reflexivity|apply reads_string, H]|]. intros ->. destruct T; constructor. apply reads_string. reflexivity.
Qed.
Lemma reads_proof T : exists w, arg_reads T w /\ forall w', arg_reads T w' -> w' = w.
Proof. exists (fmt_T T). split; [apply reads_arg; reflexivity|]. intros w' H. apply reads_arg, H. Qed.
Lemma invalid_reads_proof D b v t w s f : b <> [] -> has_type v (Some t) -> fault_of v = Some f -> reads_as t w ->
  Unmarshal D b v s = (Returns (v, Some InvalidUnmarshalError), s) /\ invalid_text (Some t) = "proto: Unmarshal(" ++ fault_words f ++ w ++ ")".
Proof. intros B H F W. apply reads_string in W. subst w. eapply invalid_argument_proof; eauto. Qed.
Lemma text_reads_proof v v' t t' f f' w w' : has_type v (Some t) -> has_type v' (Some t') -> fault_of v = Some f -> fault_of v' = Some f' -> reads_as t w -> reads_as t' w' ->
  (invalid_text (Some t) = invalid_text (Some t') <-> f = f' /\ w = w').
Proof.
  intros H H' F F' W W'.
  destruct (invalid_reads_proof [] [0%N] v t w g_empty f ltac:(discriminate) H F W) as [_ E].
  destruct (invalid_reads_proof [] [0%N] v' t' w' g_empty f' ltac:(discriminate) H' F' W') as [_ E'].
  split; [|intros [<- <-]; congruence]. intros X. apply reads_string in W, W'. subst. exact (text_exact_proof _ _ _ _ _ _ H H' F F' X).
Qed.
Lemma not_pointer_proof D v t w s : has_type v (Some t) -> elem_of t = None -> reads_as t w ->
  Marshal D v s = (Returns (None, Some ErrNotAPointer), s) /\ Size D v s = (Panics Unsupported, s) /\
  not_pointer_text (Some t) = "proto.Marshal(" ++ w ++ "): not a pointer".
Proof.
  intros H N W. apply reads_string in W. subst w. inversion H; subst; try congruence. repeat split.
Qed.
Lemma not_pointer_only_proof D v T s r : has_type v T -> fst (Marshal D v s) = Returns (r, Some ErrNotAPointer) -> exists t, T = Some t /\ elem_of t = None /\ r = None.
Proof.
  intros H E. destruct H as [|t Ht|t e n H1 H2|t e k p H1 H2]; cbn in E; try discriminate; [injection E as <-; eauto|].
  exfalso. unfold Marshal, with_info in E. destruct (run _ s) as [[i| |] s']; cbn [fst] in E; try discriminate.
  unfold api_res in E. destruct (info_size _ _ _); cbn in E; try discriminate. destruct (info_encode _ _ _ _); discriminate.
Qed.
Lemma short_never_proof D b v s v' : reachable D s -> (zlen b < 2^63)%Z -> (forall k x, v = IPtr k (Some x) -> user_key D k = true) ->
  fst (Unmarshal D b v s) <> Returns (v', Some ErrShortRead) /\ fst (Unmarshal D b v s) <> Returns (v', Some ErrNotAPointer).
Proof.
  intros R L U.
  assert (K : forall e, e = ErrShortRead \/ e = ErrNotAPointer -> fst (Unmarshal D b v s) <> Returns (v', Some e)).
  { intros e He E. destruct v as [| |n|k [x|]]; try (unfold Unmarshal in E; destruct (zlen b =? 0)%Z; try discriminate E; injection E; intros; destruct He; congruence).
    assert (Q : exists x', v' = IPtr k (Some x')).
    { unfold Unmarshal in E. destruct (zlen b =? 0)%Z; [discriminate|]. unfold with_info in E. destruct (run _ s) as [[i| |] s']; cbn [fst] in E; try discriminate.
      destruct (decs _ _ _ _ _ _ _ _) as [x' n [er|]|c|]; try discriminate; [injection E as <- _; eauto|]. injection E as <- _. eauto. }
    destruct Q as (x' & ->).
    destruct (unmarshal_located_proof D s k b x x' _ R (U _ _ eq_refl) L E) as ([|[? ?] p] & c & X); [destruct c; destruct He; subst; discriminate|destruct He; subst; discriminate]. }
  split; apply K; auto.
Qed.
Lemma short_text_proof T w n l : arg_reads T w -> short_text T n l = "proto.Unmarshal(" ++ w ++ "): read=" ++ decimal n ++ " < buffer=" ++ decimal l.
Proof. intros W. apply reads_arg in W. subst. reflexivity. Qed.
