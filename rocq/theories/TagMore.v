(** What the tag parser accepts, completely. *)
From Coq Require Import String Ascii Decimal DecimalString DecimalN ZifyBool ZifyNat ZifyN.
From Verif Require Import Base Wire GoType Tag SpecTag TagFacts.
Local Open Scope string_scope.

Lemma split_inv s : forall w ws, split_comma s = w :: ws ->
  nocomma w = true /\ (ws = [] /\ s = w \/ exists r, s = w ++ "," ++ r /\ split_comma r = ws).
Proof.
  induction s as [|c s IH]; cbn [split_comma]; intros w ws H.
  - injection H as <- <-. split; [reflexivity|]. left. auto.
  - destruct (Ascii.eqb_spec c ","%char) as [->|N].
    + injection H as <- <-. split; [reflexivity|]. right. exists s. auto.
    + destruct (split_comma s) as [|w' ws'] eqn:E; [exfalso; revert E; apply split_cons|].
      injection H as <- <-. destruct (IH _ _ eq_refl) as (Hc & [[-> ->]|(r & -> & Er)]).
      * split; [cbn [nocomma]; rewrite Hc; destruct (Ascii.eqb_spec c ","%char); [contradiction|reflexivity]|]. left. auto.
      * split; [cbn [nocomma]; rewrite Hc; destruct (Ascii.eqb_spec c ","%char); [contradiction|reflexivity]|]. right. exists r. auto.
Qed.
Lemma split_tail s w ws : split_comma s = w :: ws -> exists tail, s = w ++ tail /\ tail_ok tail = true.
Proof.
  intros H. destruct (split_inv _ _ _ H) as (_ & [[-> ->]|(r & -> & _)]).
  - exists "". split; [|reflexivity]. clear. induction w; cbn; congruence.
  - exists (String "," r). auto.
Qed.
Lemma parse_wire_inv f t t' : t_zz t = false -> parse_wire f t = (t', None) ->
  exists w z, In (f, (w, z)) kinds /\ t' = {| t_wire := w; t_num := t_num t; t_rep := t_rep t; t_zz := z |}.
Proof.
  unfold parse_wire. intros Z H. rewrite Z in H.
  repeat match type of H with context [(f =? ?s)%string] => destruct (String.eqb_spec f s) as [->|] end;
    try discriminate; injection H as <-; do 2 eexists; (split; [cbn; tauto|reflexivity]).
Qed.
Lemma atoi_signed s z : atoi s = Some z -> is_signed_numeral s = true.
Proof. intros H. destruct (is_signed_numeral s) eqn:E; [reflexivity|]. rewrite atoi_none in H by exact E. discriminate. Qed.

(** The number a text denotes, on the standard library's numerals. *)
Lemma uint_none s : NilEmpty.uint_of_string s = None -> all_digits s = false.
Proof.
  induction s as [|c s IH]; [discriminate|]. cbn [NilEmpty.uint_of_string all_digits]. intros H.
  destruct (NilEmpty.uint_of_string s) as [u|]; [|rewrite IH by reflexivity; apply andb_false_r].
  destruct c as [b0 b1 b2 b3 b4 b5 b6 b7]. destruct b0, b1, b2, b3, b4, b5, b6, b7; try reflexivity; discriminate.
Qed.
Lemma unsigned_value s : unsigned s = nat_value s.
Proof.
  unfold unsigned, nat_value. destruct s as [|c s]; [reflexivity|].
  change (NilZero.uint_of_string (String c s)) with (NilEmpty.uint_of_string (String c s)).
  destruct (NilEmpty.uint_of_string (String c s)) as [u|] eqn:E.
  - apply NilEmpty.sus in E. rewrite <- E, digits_uint. cbn [option_map]. rewrite uvalue_of. reflexivity.
  - apply uint_none in E. apply digits_none. exact E.
Qed.
Lemma atoi_value s : atoi s = match int_value s with Some z => if (- 2^63 <=? z)%Z && (z <? 2^63)%Z then Some z else None | None => None end.
Proof.
  unfold atoi. destruct s as [|c r]; [reflexivity|].
  destruct (Ascii.eqb_spec c "-"%char) as [->|N1]; [cbn [int_value]; rewrite unsigned_value; reflexivity|].
  destruct (Ascii.eqb_spec c "+"%char) as [->|N2]; [cbn [int_value]; rewrite unsigned_value; reflexivity|].
  replace (int_value (String c r)) with (nat_value (String c r)); [rewrite unsigned_value; reflexivity|].
  unfold int_value. destruct c as [b0 b1 b2 b3 b4 b5 b6 b7]. destruct b0, b1, b2, b3, b4, b5, b6, b7; try reflexivity; contradiction.
Qed.
Lemma atoi_some s z : atoi s = Some z <-> int_value s = Some z /\ (- 2^63 <= z < 2^63)%Z.
Proof.
  rewrite atoi_value. destruct (int_value s) as [y|]; [|split; [discriminate|intros [? _]; discriminate]].
  destruct ((- 2^63 <=? y)%Z && (y <? 2^63)%Z) eqn:E.
  - split; [intros H; injection H as <-; split; [reflexivity|lia]|intros [H _]; exact H].
  - split; [discriminate|]. intros [H B]. injection H as ->. lia.
Qed.
Lemma app_nil_s s : s ++ "" = s.
Proof. induction s; cbn; congruence. Qed.
Lemma value_nocomma s z : int_value s = Some z -> nocomma s = true.
Proof.
  intros H. assert (S : is_signed_numeral s = true).
  { destruct (is_signed_numeral s) eqn:E; [reflexivity|]. exfalso. unfold int_value in H.
    assert (K : forall r, is_numeral r = false -> nat_value r = None) by (intros r Hr; rewrite <- unsigned_value; apply unsigned_none; exact Hr).
    unfold is_signed_numeral in E. destruct s as [|c s]; [discriminate|].
    destruct c as [b0 b1 b2 b3 b4 b5 b6 b7]; destruct b0, b1, b2, b3, b4, b5, b6, b7; rewrite (K _ E) in H; discriminate. }
  assert (K : forall r, is_numeral r = true -> nocomma r = true).
  { intros [|c r]; [discriminate|]. cbn [is_numeral]. apply digits_nocomma. }
  unfold is_signed_numeral in S. destruct s as [|c s]; [reflexivity|].
  destruct (Ascii.eqb_spec c "-"%char) as [->|N1]; [cbn [nocomma]; apply K; exact S|].
  destruct (Ascii.eqb_spec c "+"%char) as [->|N2]; [cbn [nocomma]; apply K; exact S|].
  apply K. destruct c as [b0 b1 b2 b3 b4 b5 b6 b7]; destruct b0, b1, b2, b3, b4, b5, b6, b7; try exact S; contradiction.
Qed.

Lemma accepted_proof s t : parseStructTag s = (t, None) <-> denotes_tag s (t_wire t) (t_zz t) (t_num t) (t_rep t).
Proof.
  split.
  - unfold parseStructTag. destruct (split_comma s) as [|k ws] eqn:E; [exfalso; revert E; apply split_cons|].
    cbn [parse_fields]. destruct (parse_wire k _) as [t1 [e|]] eqn:W; [discriminate|].
    apply parse_wire_inv in W; [|reflexivity]. destruct W as (w & z & Hk & ->). cbn [t_num t_rep]. intros H.
    destruct (split_inv _ _ _ E) as (_ & [[-> ->]|(r & -> & Er)]).
    + cbn in H. injection H as <-. exists k, "". split; [rewrite app_nil_s; reflexivity|]. split; [exact Hk|]. left. auto.
    + destruct ws as [|num ws]; [exfalso; revert Er; apply split_cons|]. cbn [parse_fields] in H.
      unfold parse_num in H. destruct (atoi num) as [m|] eqn:A; [|discriminate]. cbn [t_wire t_rep t_zz] in H.
      apply atoi_some in A. destruct A as [A1 A2].
      destruct (split_inv _ _ _ Er) as (_ & [[-> ->]|(r2 & -> & Er2)]).
      * cbn in H. injection H as <-. exists k, ("," ++ num). split; [reflexivity|]. split; [exact Hk|]. right.
        exists num, m, "". split; [rewrite app_nil_s; reflexivity|]. split; [exact A1|]. split; [exact A2|]. split; [reflexivity|]. left. auto.
      * destruct ws as [|o ws]; [exfalso; revert Er2; apply split_cons|]. cbn [parse_fields] in H.
        destruct (split_tail _ _ _ Er2) as (tail & -> & Ht).
        exists k, ("," ++ num ++ "," ++ o ++ tail). split; [reflexivity|].
        unfold parse_opt in H. destruct (String.eqb_spec o "opt") as [->|].
        -- rewrite parse_rest in H by lia. injection H as <-. split; [exact Hk|]. right. exists num, m, ("," ++ "opt" ++ tail).
           split; [reflexivity|]. split; [exact A1|]. split; [exact A2|]. split; [reflexivity|]. right. exists tail. auto.
        -- destruct (String.eqb_spec o "rep") as [->|]; [|discriminate].
           rewrite parse_rest in H by lia. injection H as <-. split; [exact Hk|]. right. exists num, m, ("," ++ "rep" ++ tail).
           split; [reflexivity|]. split; [exact A1|]. split; [exact A2|]. split; [reflexivity|]. right. exists tail. auto.
  - destruct t as [w num0 rep zz]. intros (k & r & -> & Hk & H). cbn [t_wire t_num t_rep t_zz] in *. unfold parseStructTag.
    pose proof (kinds_nocomma _ _ _ Hk) as Nk.
    destruct H as [(-> & -> & ->)|(num & z & r' & -> & A1 & A2 & -> & H)].
    + rewrite app_nil_s, split_nocomma by exact Nk. cbn [parse_fields].
      rewrite (parse_wire_kind _ _ _ _ Hk) by reflexivity. reflexivity.
    + cbn [append]. rewrite split_app by exact Nk. cbn [parse_fields]. rewrite (parse_wire_kind _ _ _ _ Hk) by reflexivity. cbn [t_num t_rep].
      pose proof (value_nocomma _ _ A1) as Nn. assert (A : atoi num = Some z) by (apply atoi_some; auto).
      destruct H as [(-> & ->)|(tail & Ht & ->)].
      * rewrite app_nil_s, split_nocomma by exact Nn. cbn [parse_fields]. unfold parse_num. rewrite A. reflexivity.
      * cbn [append]. rewrite split_app by exact Nn. cbn [parse_fields]. unfold parse_num. rewrite A. cbn [t_wire t_rep t_zz].
        assert (No : nocomma (if rep then "rep" else "opt") = true) by (destruct rep; reflexivity).
        destruct (tail_split _ _ No Ht) as (ws & ->). cbn [parse_fields].
        destruct rep; unfold parse_opt; cbn [String.eqb Ascii.eqb Bool.eqb]; rewrite parse_rest by lia; reflexivity.
Qed.

Lemma bad_kind_proof k rest : ~ has_comma k -> ~ In k (map fst kinds) -> tail_ok rest = true ->
  snd (parseStructTag (k ++ rest)) = Some ErrTagWire.
Proof. intros H. apply bad_kind, nocomma_spec, H. Qed.
Lemma bad_number_proof k w z s rest : In (k, (w, z)) kinds -> ~ has_comma s ->
  match int_value s with Some z => ~ (- 2^63 <= z < 2^63)%Z | None => True end -> tail_ok rest = true ->
  snd (parseStructTag (k ++ "," ++ s ++ rest)) = Some ErrTagNumber.
Proof.
  intros Hk Hc Hv. apply (bad_number _ w z _ _ Hk); [apply nocomma_spec, Hc|]. right.
  destruct (atoi s) as [y|] eqn:E; [|reflexivity]. apply atoi_some in E. destruct E as [E B]. rewrite E in Hv. contradiction.
Qed.
Lemma bad_option_proof k w z s n o rest : In (k, (w, z)) kinds -> int_value s = Some n -> (- 2^63 <= n < 2^63)%Z -> ~ has_comma o ->
  o <> "opt" -> o <> "rep" -> tail_ok rest = true -> snd (parseStructTag (k ++ "," ++ s ++ "," ++ o ++ rest)) = Some ErrTagOption.
Proof.
  intros Hk V B Ho H1 H2 Ht. unfold parseStructTag. cbn [append].
  rewrite split_app by (eapply kinds_nocomma; exact Hk). cbn [parse_fields]. rewrite (parse_wire_kind _ _ _ _ Hk) by reflexivity.
  rewrite split_app by (eapply value_nocomma; exact V). cbn [parse_fields]. unfold parse_num.
  replace (atoi s) with (Some n) by (symmetry; apply atoi_some; auto).
  destruct (tail_split o rest) as (ws & ->); [apply nocomma_spec, Ho|exact Ht|]. cbn [parse_fields]. unfold parse_opt.
  destruct (String.eqb_spec o "opt"); [contradiction|]. destruct (String.eqb_spec o "rep"); [contradiction|]. reflexivity.
Qed.
Lemma range_refuted :
  (exists t, parseStructTag "varint,0,opt" = (t, None)) /\ (exists t, parseStructTag "varint" = (t, None)) /\
  (exists t, parseStructTag "varint,-1,opt" = (t, None) /\ t_num t = (2^64 - 1)%N /\ tag_wiretag t = (2^64 - 8)%N) /\
  (exists t, parseStructTag "varint,2305843009213693953,opt" = (t, None) /\ tag_wiretag t = 8%N).
Proof.
  split; [eexists; vm_compute; reflexivity|]. split; [eexists; vm_compute; reflexivity|].
  split; eexists; (split; [vm_compute; reflexivity|]); [split|]; vm_compute; reflexivity.
Qed.
