(** What one version of a schema writes, merged with another: specification level. *)
From Coq Require Import ZifyBool ZifyNat ZifyN.
From Verif Require Import Base Wire GoType Leaf Codec Tag Walker Resolve Typing CodecSim SpecWire SpecTag SpecMsg SpecVersions
  WireFacts DecodeFacts GenFacts TypingFacts TagFacts EncFacts MsgResolve MsgEnc MsgDec MsgRound.
Local Open Scope Z_scope.
Ltac Zify.zify_post_hook ::= Z.div_mod_to_equations.

(** ** Scalars *)
Lemma become_same D s v : not_sfixed s = true -> wt D v (TScalar (go_kind s)) = true -> become s v = v.
Proof.
  intros Hs Hw. destruct s; try discriminate Hs; cbn [go_kind] in Hw; wtd v; cbn [become number]; try reflexivity; cbn [wt] in Hw.
  - unfold in_i32, Z31 in Hw. f_equal. change (2^31) with 2147483648. change (2^32) with 4294967296. lia.
  - unfold in_i64, Z63 in Hw. f_equal. change (2^63) with 9223372036854775808. change (2^64) with 18446744073709551616. lia.
  - apply N.ltb_lt in Hw. change (2^32)%N with 4294967296%N in Hw. f_equal. change (2^32) with 4294967296. lia.
  - apply (wt_u64 D) in Hw. change (2^64)%N with 18446744073709551616%N in Hw. f_equal. change (2^64) with 18446744073709551616. lia.
Qed.
Lemma signed_become32 z : signed 32 (in64 z) = (z + 2^31) mod 2^32 - 2^31.
Proof.
  unfold signed, in64. change (2^64) with 18446744073709551616. change (2^32)%N with 4294967296%N. change (2^(32-1))%N with 2147483648%N.
  change (2^31) with 2147483648. change (2^32) with 4294967296. destruct (_ <? _)%N eqn:E; lia.
Qed.
Lemma signed_become64 z : signed 64 (in64 z) = (z + 2^63) mod 2^64 - 2^63.
Proof.
  unfold signed, in64. change (2^64)%N with 18446744073709551616%N. change (2^(64-1))%N with 9223372036854775808%N.
  change (2^63) with 9223372036854775808. change (2^64) with 18446744073709551616. destruct (_ <? _)%N eqn:E; lia.
Qed.
Lemma in64_mod32 z : (in64 z mod 2^32)%N = Z.to_N (z mod 2^32).
Proof. unfold in64. change (2^64) with 18446744073709551616. change (2^32)%N with 4294967296%N. change (2^32) with 4294967296. lia. Qed.
Lemma in64_N n : (n < 2^64)%N -> in64 (Z.of_N n) = n.
Proof. unfold in64. change (2^64)%N with 18446744073709551616%N. change (2^64) with 18446744073709551616. lia. Qed.

(** The integer types that share an encoding. *)
Definition plain_int (s : sty) : bool := match s with Y_int32 | Y_int64 | Y_uint32 | Y_uint64 | Y_bool => true | _ => false end.
Lemma pay_int D s v : plain_int s = true -> wt D v (TScalar (go_kind s)) = true -> pay s v = PVar (in64 (number v)).
Proof.
  intros Hs Hw. destruct s; try discriminate Hs; cbn [go_kind] in Hw; wtd v; cbn [pay number]; try reflexivity; cbn [wt] in Hw.
  - apply N.ltb_lt in Hw. rewrite in64_N by (apply lt_32_64; exact Hw). reflexivity.
  - apply (wt_u64 D) in Hw. rewrite in64_N by exact Hw. reflexivity.
  - destruct b; reflexivity.
Qed.
Lemma read_int s z : match s with Y_int32 | Y_int64 | Y_uint32 | Y_uint64 => True | _ => False end -> forall v, number v = z ->
  read_scalar s (PVar (in64 z)) = Some (become s v).
Proof.
  intros Hs v <-. destruct s; try destruct Hs; cbn [read_scalar become].
  - rewrite signed_become32. reflexivity.
  - rewrite signed_become64. reflexivity.
  - rewrite in64_mod32. reflexivity.
  - reflexivity.
Qed.
Lemma pay_change D s s' v : change s s' = true -> wt D v (TScalar (go_kind s)) = true -> scalar_small v ->
  pay_ok (pay s v) /\ wire_of (pay s v) = wire_sty s' /\ read_scalar s' (pay s v) = Some (become s' v) /\
  plain_scalar s' (pay s v) (length (ser_payload (pay s v))) = true.
Proof.
  intros Hc Hw Hsm.
  assert (Hn : not_sfixed s = true) by (destruct s, s'; try discriminate Hc; reflexivity).
  destruct (scalar_round [] D s v Hn Hw Hsm) as (P1 & P2 & P3 & P4).
  destruct (sty_eq_dec s s') as [<-|Hd].
  { rewrite (become_same D s v Hn Hw). auto. }
  assert (K : (plain_int s = true /\ match s' with Y_int32 | Y_int64 | Y_uint32 | Y_uint64 => True | _ => False end) \/ (s = Y_sint32 /\ s' = Y_sint64)).
  { destruct s, s'; try discriminate Hc; try (exfalso; apply Hd; reflexivity); auto; left; split; reflexivity || exact Logic.I. }
  split; [exact P1|]. destruct K as [(K1 & K2)|(-> & ->)].
  - rewrite (pay_int D s v K1 Hw). split; [destruct s'; try destruct K2; reflexivity|]. split; [apply read_int; auto|].
    destruct s'; try destruct K2; reflexivity.
  - clear Hd Hc Hn. cbn [go_kind] in Hw. wtd v. cbn [pay wire_of wire_sty read_scalar become plain_scalar number].
    rewrite unzigzag_zigzag. auto.
Qed.

Section Two.
Variables sch sch' : schema.
Variables D : decls.
Notation mg := (mg sch').
Notation pl := (pl sch').
Notation put_list := (put_list sch').
Notation records := (records sch).
Notation message := (message sch).
Notation encodable := (encodable sch).
Notation encodable_msg := (encodable_msg sch).
Notation translate := (translate sch sch').
Notation pick := (pick sch sch').

Lemma leaf_records f s : scalars f = Some s -> ok_fty f = true -> forall v n, wt D v (go_type f) = true -> encodable v f = true ->
  records v n f = recs n (map (pay s) (sends f v)) /\ Forall (fun x => wt D x (TScalar (go_kind s)) = true) (sends f v).
Proof.
  assert (E : forall e, ok_elem e = true -> scalars e = Some s -> forall v n, wt D v (go_type e) = true ->
    records v n e = recs n (map (pay s) (sends e v)) /\ Forall (fun x => wt D x (TScalar (go_kind s)) = true) (sends e v)).
  { intros e He Hs v n Hw. destruct e; try discriminate He; inversion Hs; subst; cbn [go_type] in Hw.
    - split; [destruct v; reflexivity|]. destruct v; repeat constructor; exact Hw.
    - wtd v; [|split; [reflexivity|constructor]]. split; [reflexivity|]. repeat constructor. exact Hw. }
  intros Hs Hf v n Hw He. destruct f as [x|x|x|x| |m|e|k e]; try discriminate Hs; try (inversion Hs; subst); cbn [go_type] in Hw.
  - assert (R : records v n (FImplicit s) = if is_zero v then [] else [(n, pay s v)]) by (destruct v; reflexivity).
    assert (S : sends (FImplicit s) v = if is_zero v then [] else [v]) by (destruct v; reflexivity).
    rewrite R, S. destruct (is_zero v); split; [reflexivity|constructor|reflexivity|repeat constructor; exact Hw].
  - wtd v. cbn [wt] in Hw. destruct some; (split; [reflexivity|]); repeat constructor. exact Hw.
  - destruct (wt_ptr _ _ _ Hw) as ([x|] & -> & Hx); (split; [reflexivity|]); repeat constructor. exact Hx.
  - apply (E (FAlways s)); auto.
  - apply (E FBytes); auto.
  - clear H0. cbn [scalars] in Hs. cbn [ok_fty] in Hf. destruct (wt_slice _ _ _ Hw) as (nn & items & spare & -> & Hi & Hsp). clear Hw He Hsp.
    cbn [SpecMsg.records sends]. induction items as [|x items IH]; [split; [reflexivity|constructor]|]. cbn [forallb flat_map] in *.
    apply andb_true_iff in Hi. destruct Hi as [Hx Hi]. destruct (IH Hi) as [I1 I2]. destruct (E e Hf Hs x n Hx) as [E1 E2].
    rewrite E1, I1. unfold recs. rewrite !map_app. split; [reflexivity|]. apply Forall_app. auto.
Qed.

(** What the reader does with one scalar. *)
Definition step (f : fty) (y x : val) : val :=
  match f with
  | FRepeated e => match y with VSlice _ items _ => VSlice true (items ++ [gets e [x]]) [] | _ => y end
  | _ => gets f [x]
  end.
Lemma put_step f s s' x y : ok_fty f = true -> scalars f = Some s' -> change s s' = true -> wt D x (TScalar (go_kind s)) = true -> scalar_small x ->
  pay_ok (pay s x) /\ wire_fty f = wire_of (pay s x) /\ put sch' mg f (pay s x) y = MOk (step f y x) /\
  plain_put sch' pl f (pay s x) (length (ser_payload (pay s x))) = true.
Proof.
  intros Hf Hs Hc Hw Hsm. destruct (pay_change D s s' x Hc Hw Hsm) as (P1 & P2 & P3 & P4). split; [exact P1|].
  assert (B : s' = Y_string -> exists b, x = VStr b /\ pay s x = PLen b).
  { intros ->. destruct s; try discriminate Hc. cbn [go_kind] in Hw. wtd x. eexists; split; reflexivity. }
  assert (E : forall e z, ok_elem e = true -> scalars e = Some s' -> wire_fty e = wire_of (pay s x) /\ put sch' mg e (pay s x) z = MOk (gets e [x]) /\
    plain_put sch' pl e (pay s x) (length (ser_payload (pay s x))) = true).
  { intros e z He Hse. destruct e; try discriminate He; inversion Hse; subst.
    - split; [symmetry; exact P2|]. split; [cbn [put]; rewrite P3; reflexivity|exact P4].
    - destruct (B eq_refl) as (b & -> & ->). repeat split. }
  destruct f as [q|q|q|q| |m|e|k e]; try discriminate Hs; try (inversion Hs; subst).
  - split; [symmetry; exact P2|]. split; [cbn [put]; rewrite P3; reflexivity|exact P4].
  - split; [symmetry; exact P2|]. split; [cbn [put]; rewrite P3; reflexivity|exact P4].
  - split; [symmetry; exact P2|]. split; [cbn [put]; rewrite P3; reflexivity|exact P4].
  - split; [symmetry; exact P2|]. split; [cbn [put]; rewrite P3; reflexivity|exact P4].
  - apply (E FBytes); auto.
  - clear H0. cbn [scalars ok_fty] in *. destruct (E e (zero (go_type e)) Hf Hs) as (E1 & E2 & E3). split; [exact E1|]. split; [|exact E3].
    cbn [put]. rewrite E2. destruct y; reflexivity.
Qed.
Lemma put_steps f s s' : ok_fty f = true -> scalars f = Some s' -> change s s' = true -> forall l,
  Forall (fun x => wt D x (TScalar (go_kind s)) = true) l -> Forall scalar_small l ->
  forall y, put_list f y (map (pay s) l) (fold_left (step f) l y).
Proof.
  intros Hf Hs Hc. induction l as [|x l IH]; intros Hw Hsm y; [constructor|]. inversion Hw; inversion Hsm; subst.
  destruct (put_step f s s' x y) as (P1 & P2 & P3 & P4); auto. cbn [map fold_left]. econstructor; eauto.
Qed.
Lemma last_cons x l : last_of (x :: l) = match last_of l with Some y => Some y | None => Some x end.
Proof. revert x. induction l as [|y l IH]; intros x; [reflexivity|]. change (last_of (x :: y :: l)) with (last_of (y :: l)). rewrite !IH. destruct (last_of l); reflexivity. Qed.
Lemma gets_steps f s : scalars f = Some s -> forall l, fold_left (step f) l (zero (go_type f)) = gets f l.
Proof.
  intros Hs l.
  assert (A : match f with FRepeated _ => False | _ => True end -> forall l0 y, fold_left (step f) l0 y = match last_of l0 with Some x => gets f [x] | None => y end).
  { intros Hf. clear l. induction l0 as [|x l' IH]; intros y; [reflexivity|]. cbn [fold_left]. rewrite IH, last_cons. destruct (last_of l'); [reflexivity|].
    destruct f; try destruct Hf; reflexivity. }
  destruct f as [q|q|q|q| |m|e|k e]; try discriminate Hs; try (rewrite A by exact Logic.I; cbn [gets last_of]; destruct (last_of l); reflexivity).
  clear A. cbn [go_type zero gets].
  assert (R : forall l0 nn acc, fold_left (step (FRepeated e)) l0 (VSlice nn acc []) =
    match l0 with [] => VSlice nn acc [] | _ => VSlice true (acc ++ map (fun x => gets e [x]) l0) [] end).
  { induction l0 as [|x l0 IH]; intros nn acc; [reflexivity|]. cbn [fold_left step]. rewrite IH. destruct l0; [reflexivity|].
    cbn [map]. rewrite <- app_assoc. reflexivity. }
  rewrite R. destruct l as [|x l]; [reflexivity|]. rewrite last_cons. destruct (last_of l); reflexivity.
Qed.
Lemma recs_small n s l : not_sfixed s = true -> Forall (fun x => wt D x (TScalar (go_kind s)) = true) l ->
  zlen (ser (recs n (map (pay s) l))) < Z63 -> Forall scalar_small l.
Proof.
  intros Hs. induction 1 as [|x l Hx _ IH]; intros H; constructor.
  - cbn [map recs] in H. change ((n, pay s x) :: map (pair n) (map (pay s) l)) with ([(n, pay s x)] ++ recs n (map (pay s) l)) in H.
    rewrite ser_app, zlen_app in H. pose proof (zlen_nonneg (ser (recs n (map (pay s) l)))). apply (small_pay D sch s x n Hs Hx). lia.
  - apply IH. cbn [map recs] in H. change ((n, pay s x) :: map (pair n) (map (pay s) l)) with ([(n, pay s x)] ++ recs n (map (pay s) l)) in H.
    rewrite ser_app, zlen_app in H. pose proof (zlen_nonneg (ser [(n, pay s x)])). lia.
Qed.

(** ** Fields *)
Lemma find_some n fs : forall i j f, find_field i fs n = Some (j, f) -> (i <= j)%nat /\ nth_error fs (j - i) = Some (Field n f).
Proof.
  induction fs as [|[t|n' f'] fs IH]; intros i j f H; cbn [find_field] in H; try discriminate.
  - apply IH in H. destruct H as [H1 H2]. split; [lia|]. replace (j - i)%nat with (S (j - S i)) by lia. exact H2.
  - destruct (N.eqb_spec n' n) as [->|].
    + inversion H; subst. split; [lia|]. rewrite Nat.sub_diag. reflexivity.
    + apply IH in H. destruct H as [H1 H2]. split; [lia|]. replace (j - i)%nat with (S (j - S i)) by lia. exact H2.
Qed.
Lemma find_none n fs : forall i, find_field i fs n = None -> ~ In n (numbers fs).
Proof.
  induction fs as [|[t|n' f'] fs IH]; intros i H; cbn [find_field numbers] in *; [intros []|eapply IH; exact H|].
  destruct (N.eqb_spec n' n); [discriminate|]. intros [K|K]; [contradiction|]. eapply IH; eassumption.
Qed.
Lemma in_numbers n f fs : In (Field n f) fs -> In n (numbers fs).
Proof. induction fs as [|[t|n' f'] fs IH]; intros []; try discriminate; cbn [numbers]; auto; [inversion H; subst; left; reflexivity|right; auto]. Qed.
Lemma nth_numbers n f fs j : nth_error fs j = Some (Field n f) -> In n (numbers fs).
Proof. intros H. eapply in_numbers, nth_error_In, H. Qed.
Lemma nth_same fs : nodup_N (numbers fs) = true -> forall n i j f g, nth_error fs i = Some (Field n f) -> nth_error fs j = Some (Field n g) -> i = j.
Proof.
  induction fs as [|[t|n' f'] fs IH]; intros Hd n i j f g Hi Hj; [destruct i; discriminate| |].
  - destruct i, j; try discriminate. cbn in *. f_equal. eapply IH; eassumption.
  - cbn [numbers nodup_N] in Hd. apply andb_true_iff in Hd. destruct Hd as [H1 H2]. apply negb_true_iff in H1.
    assert (X : forall k h, nth_error fs k = Some (Field n' h) -> False).
    { intros k h Hk. apply nth_numbers in Hk. assert (existsb (N.eqb n') (numbers fs) = true); [|congruence].
      apply existsb_exists. exists n'. split; [exact Hk|apply N.eqb_refl]. }
    destruct i, j; try reflexivity; cbn in Hi, Hj.
    + inversion Hi; subst. exfalso. eapply X; exact Hj.
    + inversion Hj; subst. exfalso. eapply X; exact Hi.
    + f_equal. eapply IH; eassumption.
Qed.
Lemma nth_replace_other {A} (l : list A) i j x : i <> j -> nth_error (replace l i x) j = nth_error l j.
Proof. revert i j. induction l as [|y l IH]; intros [|i] [|j] H; cbn; try reflexivity; [contradiction|]. apply IH. lia. Qed.
Lemma replace_length {A} (l : list A) i x : length (replace l i x) = length l.
Proof. revert i. induction l as [|y l IH]; intros [|i]; cbn; auto. Qed.

(** Records of numbers the reader does not know. *)
Lemma skip_step n p b fs xs : (n < 2^61)%N -> pay_ok p -> find_field 0 fs n = None ->
  mg fs xs (ser_rec (n, p) ++ b) = mg fs xs b /\ pl fs (ser_rec (n, p) ++ b) = pl fs b.
Proof.
  intros Hn Hp Hf. unfold MsgRound.mg at 1, MsgRound.pl at 1, ser_rec. cbn [fst snd]. cbn [SpecMsg.merge SpecMsg.plain].
  assert (T : (8 * n + wire_of p < 2^64)%N) by (apply tag_lt; [exact Hn|pose proof (wire_of_lt p); lia]).
  rewrite <- app_assoc. destruct (vint _ ++ _) as [|c0 b0] eqn:Eb.
  { apply app_eq_nil in Eb. destruct Eb as [Eb _]. exfalso. revert Eb. apply vint_nonempty. }
  rewrite <- Eb. clear Eb c0 b0. rewrite read_varint_vint by exact T.
  pose proof (wire_of_lt p) as W8.
  replace ((8 * n + wire_of p) mod 8)%N with (wire_of p) by lia. replace ((8 * n + wire_of p) / 8)%N with n by lia.
  rewrite read_payload_ser, Hf by exact Hp. cbn [negb andb].
  pose proof (vint_nonempty (8 * n + wire_of p)) as V. destruct (vint (8 * n + wire_of p)) as [|v0 v1]; [contradiction|].
  rewrite !app_length. cbn [length]. unfold MsgRound.mg, MsgRound.pl. split; [apply merge_fuel; lia|apply plain_fuel; lia].
Qed.
Lemma skip_recs n fs : (n < 2^61)%N -> find_field 0 fs n = None -> forall ps, Forall pay_ok ps -> forall xs b,
  mg fs xs (ser (recs n ps) ++ b) = mg fs xs b /\ pl fs (ser (recs n ps) ++ b) = pl fs b.
Proof.
  intros Hn Hf. induction 1 as [|p ps Hp _ IH]; intros xs b; [split; reflexivity|].
  cbn [recs map]. unfold ser. cbn [map concat]. rewrite <- app_assoc. change (concat (map ser_rec (map (pair n) ps))) with (ser (recs n ps)).
  destruct (skip_step n p (ser (recs n ps) ++ b) fs xs Hn Hp Hf) as [S1 S2]. rewrite S1, S2. apply IH.
Qed.
Lemma recs_ok n ps : Forall pay_ok ps -> bytes_okb (ser (recs n ps)) = true.
Proof.
  induction 1 as [|p ps Hp _ IH]; [reflexivity|]. cbn [recs map]. unfold ser. cbn [map concat].
  change (concat (map ser_rec (map (pair n) ps))) with (ser (recs n ps)). rewrite bytes_okb_app, IH, andb_true_r.
  unfold ser_rec. rewrite bytes_okb_app. apply andb_true_iff. split; [apply bytes_okb_ok, vint_ok|apply ser_payload_ok; exact Hp].
Qed.
Lemma put_list_ok s f y ps z : MsgRound.put_list s f y ps z -> Forall pay_ok ps.
Proof. induction 1; constructor; auto. Qed.

Hypothesis HI : implements D sch = true.
Hypothesis HS : schema_ok sch = true.
Hypothesis HC : in_scope sch = true.
Hypothesis HS' : schema_ok sch' = true.
Hypothesis HC' : in_scope sch' = true.
Hypothesis HU : understood sch sch'.

Definition arrives (v : val) : Prop := forall n f f', wt D v (go_type f) = true -> ok_fty f = true -> ok_fty f' = true -> compatible f f' = true ->
  (n < 2^61)%N -> encodable v f = true -> zlen (ser (records v n f)) < Z63 ->
  exists ps w, records v n f = recs n ps /\ put_list f' (zero (go_type f')) ps w /\ norm w = norm (translate v f f') /\
    (match f with FMessage _ => True | _ => False end -> if is_nil v then ps = [] else exists p, ps = [p]).

Definition slot (fs fs' : list sfld) (xs ys zs : list val) (j : nat) : Prop :=
  match nth_error fs' j with
  | Some (Field n f') =>
    (In n (numbers fs) -> option_map norm (nth_error zs j) = Some (norm (pick n f' xs fs))) /\
    (~ In n (numbers fs) -> nth_error zs j = nth_error ys j)
  | _ => nth_error zs j = nth_error ys j
  end.
Lemma arrive_fields fs' : nodup_N (numbers fs') = true -> fields_ok fs' -> forall fs xs ys,
  nodup_N (numbers fs) = true -> fields_ok fs ->
  (forall n f f', In (Field n f) fs -> In (Field n f') fs' -> compatible f f' = true) ->
  all2 (wt D) xs (map fld_type fs) = true -> Forall arrives xs -> encodable_msg xs fs = true -> zlen (ser (message xs fs)) < Z63 ->
  (forall j n f', nth_error fs' j = Some (Field n f') -> In n (numbers fs) -> nth_error ys j = Some (zero (go_type f'))) ->
  exists zs, mg fs' ys (ser (message xs fs)) = MOk zs /\ length zs = length ys /\ (forall j, slot fs fs' xs ys zs j) /\
    pl fs' (ser (message xs fs)) = true /\ bytes_okb (ser (message xs fs)) = true.
Proof.
  intros Hnd' Hok'. induction fs as [|f fs IH]; intros [|x xs] ys Hnd Hok Hu Hw Hg He Hsm Hz; try discriminate.
  { exists ys. cbn [SpecMsg.message]. split; [reflexivity|]. split; [reflexivity|]. split; [|split; reflexivity].
    intros j. unfold slot. destruct (nth_error fs' j) as [[t|n f']|]; auto. split; [intros []|auto]. }
  cbn [all2 map] in Hw. apply andb_true_iff in Hw. destruct Hw as [Hx Hw]. inversion Hg as [|? ? Gx Gxs]; subst.
  assert (Hok2 : fields_ok fs) by (intros n g Hin; apply Hok; right; exact Hin).
  assert (Hu2 : forall n f f', In (Field n f) fs -> In (Field n f') fs' -> compatible f f' = true) by (intros n g g' H1 H2; apply (Hu n); [right; exact H1|exact H2]).
  destruct f as [t|n f]; cbn [SpecMsg.message SpecMsg.encodable_msg fld_type numbers] in *.
  - destruct (IH xs ys) as (zs & E1 & E2 & E3 & E4 & E5); auto. exists zs. split; [exact E1|]. split; [exact E2|]. split; [|split; assumption].
    intros j. specialize (E3 j). unfold slot in *. cbn [numbers SpecVersions.pick]. exact E3.
  - apply andb_true_iff in He. destruct He as [He1 He]. rewrite ser_app in *. rewrite zlen_app in Hsm.
    pose proof (zlen_nonneg (ser (records x n f))). pose proof (zlen_nonneg (ser (message xs fs))).
    destruct (Hok n f (or_introl eq_refl)) as [Hf Hn]. cbn [nodup_N] in Hnd. apply andb_true_iff in Hnd. destruct Hnd as [Hn1 Hnd].
    assert (Hn2 : ~ In n (numbers fs)).
    { intros Hin. apply negb_true_iff in Hn1. assert (existsb (N.eqb n) (numbers fs) = true); [|congruence].
      apply existsb_exists. exists n. split; [exact Hin|apply N.eqb_refl]. }
    destruct (find_field 0 fs' n) as [[i f']|] eqn:Ef.
    + destruct (find_some _ _ _ _ _ Ef) as [_ Hi]. rewrite Nat.sub_0_r in Hi.
      assert (Hin' : In (Field n f') fs') by (eapply nth_error_In; exact Hi).
      destruct (Gx n f f' Hx Hf (proj1 (Hok' _ _ Hin')) (Hu n f f' (or_introl eq_refl) Hin') Hn He1 ltac:(lia)) as (ps & w & Er & Hp & Nw & _).
      pose proof (Hz i n f' Hi (or_introl eq_refl)) as Hy. rewrite Er.
      rewrite (merge_recs sch' n _ _ f' Hn Ef ps _ w Hp _ _ Hy), (plain_recs sch' n _ _ f' Hn Ef ps _ w Hp).
      destruct (IH xs (replace ys i w)) as (zs & E1 & E2 & E3 & E4 & E5); auto; try lia.
      { intros j n2 g' Hj Hin. rewrite nth_replace_other; [apply (Hz j n2); [exact Hj|right; exact Hin]|].
        intros <-. rewrite Hi in Hj. inversion Hj; subst. contradiction. }
      exists zs. split; [exact E1|]. split; [rewrite E2; apply replace_length|]. split; [|split; [exact E4|]].
      * intros j. specialize (E3 j). unfold slot in *. cbn [numbers SpecVersions.pick]. destruct (Nat.eq_dec j i) as [->|Hj].
        -- rewrite Hi in *. destruct E3 as [_ E3]. specialize (E3 Hn2). split; [|intros K; exfalso; apply K; left; reflexivity].
           intros _. rewrite E3, (nth_replace _ _ _ _ Hy). cbn [option_map]. rewrite N.eqb_refl, Nw. reflexivity.
        -- rewrite nth_replace_other in E3 by auto. destruct (nth_error fs' j) as [[t|n2 g']|] eqn:Ej; auto.
           assert (Hne : n <> n2) by (intros Hq; subst n2; exact (Hj (nth_same fs' Hnd' n j i g' f' Ej Hi))).
           destruct (N.eqb_spec n n2); [contradiction|]. split; [intros [K|K]; [contradiction|apply E3, K]|intros K; apply E3; intros K2; apply K; right; exact K2].
      * rewrite bytes_okb_app, E5, andb_true_r. eapply recs_ok, put_list_ok, Hp.
    + pose proof (find_none _ _ _ Ef) as Hni.
      destruct (good_all sch D HI HS HC x n f Hx Hf Hn He1 ltac:(lia)) as (ps & w & Er & Hp & _). apply put_list_ok in Hp. rewrite Er.
      destruct (skip_recs n fs' Hn Ef ps Hp ys (ser (message xs fs))) as [S1 S2]. rewrite S1, S2.
      destruct (IH xs ys) as (zs & E1 & E2 & E3 & E4 & E5); auto; try lia.
      { intros j n2 g' Hj Hin. apply (Hz j n2); [exact Hj|right; exact Hin]. }
      exists zs. split; [exact E1|]. split; [exact E2|]. split; [|split; [exact E4|]].
      * intros j. specialize (E3 j). unfold slot in *. cbn [numbers SpecVersions.pick]. destruct (nth_error fs' j) as [[t|n2 g']|] eqn:Ej; auto.
        assert (Hne : n <> n2) by (intros Hq; subst n2; exact (Hni (nth_numbers _ _ _ _ Ej))).
        destruct (N.eqb_spec n n2); [contradiction|]. split; [intros [K|K]; [contradiction|apply E3, K]|intros K; apply E3; intros K2; apply K; right; exact K2].
      * rewrite bytes_okb_app, E5, andb_true_r. apply recs_ok, Hp.
Qed.
Lemma nth_all_eq {A} (l l' : list A) : (forall j, nth_error l j = nth_error l' j) -> l = l'.
Proof.
  revert l'. induction l as [|x l IH]; intros [|x' l'] H; [reflexivity|discriminate (H 0%nat)|discriminate (H 0%nat)|].
  pose proof (H 0%nat) as H0. inversion H0; subst. f_equal. apply IH. intros j. apply (H (S j)).
Qed.
Lemma pick_none n f' : forall fs xs, ~ In n (numbers fs) -> pick n f' xs fs = zero (go_type f').
Proof.
  induction fs as [|[t|n' f] fs IH]; intros [|x xs] H; cbn [SpecVersions.pick numbers] in *; try reflexivity; auto.
  destruct (N.eqb_spec n' n); [exfalso; apply H; left; assumption|]. apply IH. intros K. apply H. right. exact K.
Qed.
Lemma arrive_msg fs fs' xs : nodup_N (numbers fs') = true -> fields_ok fs' -> nodup_N (numbers fs) = true -> fields_ok fs ->
  (forall n f f', In (Field n f) fs -> In (Field n f') fs' -> compatible f f' = true) ->
  all2 (wt D) xs (map fld_type fs) = true -> Forall arrives xs -> encodable_msg xs fs = true -> zlen (ser (message xs fs)) < Z63 ->
  exists zs, mg fs' (zeros fs') (ser (message xs fs)) = MOk zs /\ map norm zs = map norm (translate_msg sch sch' xs fs fs') /\
    pl fs' (ser (message xs fs)) = true /\ bytes_okb (ser (message xs fs)) = true.
Proof.
  intros H1 H2 H3 H4 H5 H6 H7 H8 H9. destruct (arrive_fields fs' H1 H2 fs xs (zeros fs') H3 H4 H5 H6 H7 H8 H9) as (zs & E1 & E2 & E3 & E4 & E5).
  { intros j n f' Hj _. unfold zeros. rewrite nth_error_map, Hj. reflexivity. }
  exists zs. split; [exact E1|]. split; [|split; assumption]. clear - E2 E3.
  apply nth_all_eq. intros j. rewrite !nth_error_map. unfold translate_msg. rewrite nth_error_map.
  specialize (E3 j). unfold slot, zeros in E3. rewrite nth_error_map in E3. destruct (nth_error fs' j) as [[t|n f']|] eqn:Ej; cbn [option_map fld_type] in *.
  - rewrite E3. reflexivity.
  - destruct E3 as [E3 E4]. destruct (in_dec N.eq_dec n (numbers fs)) as [Hin|Hin]; [apply E3, Hin|].
    rewrite E4, pick_none by exact Hin. reflexivity.
  - rewrite E3. reflexivity.
Qed.

Lemma arrive_scalar v n f f' s s' : scalars f = Some s -> scalars f' = Some s' -> change s s' = true -> translate v f f' = gets f' (sends f v) ->
  wt D v (go_type f) = true -> ok_fty f = true -> ok_fty f' = true -> encodable v f = true -> zlen (ser (records v n f)) < Z63 ->
  exists ps w, records v n f = recs n ps /\ put_list f' (zero (go_type f')) ps w /\ norm w = norm (translate v f f') /\
    (match f with FMessage _ => True | _ => False end -> if is_nil v then ps = [] else exists p, ps = [p]).
Proof.
  intros Hs Hs' Hc Ht Hw Hf Hf' He Hsm. destruct (leaf_records f s Hs Hf v n Hw He) as [R1 R2].
  exists (map (pay s) (sends f v)), (gets f' (sends f v)). split; [exact R1|]. rewrite Ht. split; [|split; [reflexivity|destruct f; intros []; discriminate Hs]].
  rewrite <- (gets_steps f' s' Hs'). eapply put_steps; try eassumption. rewrite R1 in Hsm.
  eapply recs_small; [|exact R2|exact Hsm]. destruct s, s'; try discriminate Hc; reflexivity.
Qed.
Lemma compatible_scalars f f' : compatible f f' = true -> match f with FMessage _ | FMap _ _ | FRepeated (FMessage _) => False | _ => True end ->
  exists s s', scalars f = Some s /\ scalars f' = Some s' /\ change s s' = true.
Proof.
  intros H Hf. assert (K : match scalars f, scalars f' with Some s, Some s' => change s s' | _, _ => false end = true).
  { destruct f as [q|q|q|q| |m|e|k e]; try destruct Hf; try exact H. destruct e; try destruct Hf; try exact H. }
  destruct (scalars f) as [s|]; [|discriminate]. destruct (scalars f') as [s'|]; [|discriminate]. eauto.
Qed.

Lemma msg_arrives m m' xs n : compatible (FMessage m) (FMessage m') = true -> wt D (VPtr (Some (VStruct xs))) (TMsg m) = true -> Forall arrives xs ->
  encodable (VPtr (Some (VStruct xs))) (FMessage m) = true -> zlen (ser (records (VPtr (Some (VStruct xs))) n (FMessage m))) < Z63 ->
  exists p zs, records (VPtr (Some (VStruct xs))) n (FMessage m) = [(n, p)] /\ pay_ok p /\ wire_of p = 2%N /\
    put sch' mg (FMessage m') p (VPtr None) = MOk (VPtr (Some (VStruct zs))) /\ plain_put sch' pl (FMessage m') p (length (ser_payload p)) = true /\
    norm (VPtr (Some (VStruct zs))) = norm (translate (VPtr (Some (VStruct xs))) (FMessage m) (FMessage m')).
Proof.
  intros Hc Hw Hg He Hsm. cbn [compatible] in Hc. apply Nat.eqb_eq in Hc. subst m'.
  destruct (wt_msg _ _ _ Hw) as (o & Eo & Hx). inversion Eo; subst o. clear Eo.
  destruct (wts_struct D (VStruct xs) (SNamed m)) as (xs' & Ex & W); [discriminate|exact Hx|]. inversion Ex; subst xs'. clear Ex. cbn [key_types] in W.
  rewrite (field_types_of D sch HI) in W. rewrite records_msg in *. rewrite encodable_eq in He. apply (ser_len_lt D sch) in Hsm.
  destruct (schema_ok_msg sch HS m) as (_ & Hnd & _). destruct (schema_ok_msg sch' HS' m) as (_ & Hnd' & _).
  destruct (arrive_msg (msg sch m) (msg sch' m) xs Hnd' (msg_fields_ok sch' HS' HC' m) Hnd (msg_fields_ok sch HS HC m) (HU m) W Hg He Hsm) as (zs & E1 & E2 & E3 & E4).
  exists (PLen (ser (message xs (msg sch m)))), zs. split; [reflexivity|]. split; [split; assumption|]. split; [reflexivity|].
  split; [cbn [put]; rewrite E1; reflexivity|]. split; [exact E3|].
  assert (T : translate (VPtr (Some (VStruct xs))) (FMessage m) (FMessage m) = VPtr (Some (VStruct (translate_msg sch sch' xs (msg sch m) (msg sch' m))))).
  { cbn [SpecVersions.translate]. unfold translate_msg. do 3 f_equal. apply map_ext. intros [t|n' f']; [reflexivity|].
    generalize (msg sch m). clear. induction xs as [|x xs IH]; intros [|[t|n2 g] fs]; cbn; try reflexivity; [apply IH|]. destruct (n2 =? n')%N; [reflexivity|apply IH]. }
  rewrite T. cbn [norm]. rewrite E2. reflexivity.
Qed.
Lemma arrive_items n m m' : compatible (FMessage m) (FMessage m') = true -> (n < 2^61)%N -> forall items, Forall arrives items ->
  forallb (fun x => wt D x (TMsg m)) items = true -> forallb (fun x => encodable x (FMessage m)) items = true ->
  zlen (ser (flat_map (fun x => records x n (FMessage m)) items)) < Z63 ->
  exists ps ws, flat_map (fun x => records x n (FMessage m)) items = recs n ps /\
    map norm ws = map norm (flat_map (fun x => if is_nil x then [] else [translate x (FMessage m) (FMessage m')]) items) /\
    (forall nn acc, exists nn', put_list (FRepeated (FMessage m')) (VSlice nn acc []) ps (VSlice nn' (acc ++ ws) [])).
Proof.
  intros Hc Hn. induction items as [|x items IH]; intros Hg Hw Hen Hsm.
  - exists [], []. split; [reflexivity|]. split; [reflexivity|]. intros nn acc. exists nn. rewrite app_nil_r. constructor.
  - inversion Hg as [|? ? Gx Gi]; subst. cbn [forallb flat_map] in *. apply andb_true_iff in Hw, Hen. destruct Hw as [Wx Hw], Hen as [Ex Hen].
    rewrite ser_app, zlen_app in Hsm. pose proof (zlen_nonneg (ser (records x n (FMessage m)))). pose proof (zlen_nonneg (ser (flat_map (fun x => records x n (FMessage m)) items))).
    destruct (IH Gi Hw Hen ltac:(lia)) as (ps & ws & E1 & E2 & E3).
    destruct (Gx n (FMessage m) (FMessage m') Wx eq_refl eq_refl Hc Hn Ex ltac:(lia)) as (ps1 & w & F1 & F2 & F3 & F4). specialize (F4 Logic.I).
    rewrite E1, F1. destruct (is_nil x).
    + subst ps1. exists ps, ws. split; [reflexivity|]. split; [exact E2|exact E3].
    + destruct F4 as [p ->]. exists (p :: ps), (w :: ws). split; [reflexivity|]. split; [cbn [app map]; rewrite E2, F3; reflexivity|].
      intros nn acc. inversion F2 as [|? ? z ? ? G1 G2 G3 G4 G5]; subst. inversion G5; subst.
      destruct (E3 true (acc ++ [w])) as [nn' E]. rewrite <- app_assoc in E. exists nn'.
      econstructor; [exact G1|exact G2| |exact G4|exact E]. cbn [SpecMsg.put go_type zero] in *. rewrite G3. reflexivity.
Qed.
Lemma arrive_entries n k e e' : scope_key k = true -> scope_val e = true -> scope_val e' = true -> compatible e e' = true -> (n < 2^61)%N -> forall l,
  Forall (fun kv => arrives (fst kv) /\ arrives (snd kv)) l ->
  forallb (fun kv => match kv with (a, x) => wt D a (TScalar (go_kind k)) && wt D x (go_type e) end) l = true ->
  keys_distinct l = true ->
  forallb (fun kv => match kv with (_, x) => map_len_ok sch k e x && encodable x e end) l = true ->
  zlen (ser (records (VMap (Some l)) n (FMap k e))) < Z63 ->
  forall m, forallb (fun kv => forallb (fun kv' => negb (same_key (fst kv) (fst kv'))) l) (entries m) = true ->
  exists ps ws z, records (VMap (Some l)) n (FMap k e) = recs n ps /\
    map norm_kv ws = map norm_kv (map (fun kv => match kv with (a, x) => (a, translate x e e') end) l) /\
    entries z = entries m ++ ws /\ put_list (FMap k e') (VMap m) ps (VMap z).
Proof.
  intros Hk Hv Hv' Hc Hn. assert (Ka : not_sfixed k = true) by (destruct k; try discriminate; reflexivity).
  assert (Kc : change k k = true) by (destruct k; try discriminate; reflexivity).
  induction l as [|[a x] l IH]; intros Hg Hw Hd He Hsm m Hm.
  { exists [], [], m. rewrite app_nil_r. repeat split. constructor. }
  inversion Hg as [|? ? [Ga Gx] Gl]; subst. cbn [fst snd] in Ga, Gx.
  cbn [forallb keys_distinct] in Hw, Hd, He. btrue.
  assert (Er : records (VMap (Some ((a, x) :: l))) n (FMap k e) =
    (n, PLen (ser (message [a; x] (entry_fs k e)))) :: records (VMap (Some l)) n (FMap k e)) by (rewrite (entry_msg sch); reflexivity).
  rewrite Er in Hsm |- *. change ((n, PLen (ser (message [a; x] (entry_fs k e)))) :: records (VMap (Some l)) n (FMap k e)) with
    ([(n, PLen (ser (message [a; x] (entry_fs k e))))] ++ records (VMap (Some l)) n (FMap k e)) in Hsm.
  rewrite ser_app, zlen_app in Hsm.
  pose proof (zlen_nonneg (ser [(n, PLen (ser (message [a; x] (entry_fs k e))))])).
  pose proof (zlen_nonneg (ser (records (VMap (Some l)) n (FMap k e)))).
  assert (Hse : zlen (ser (message [a; x] (entry_fs k e))) < Z63) by (apply (ser_len_lt D sch n); lia).
  destruct (arrive_msg (entry_fs k e) (entry_fs k e') [a; x]) as (ys & E1 & E2 & E3 & E4).
  - reflexivity.
  - intros n' f' [Hin|[Hin|[]]]; inversion Hin; subst; (split; [|reflexivity]); [exact Ka|apply val_ok; exact Hv'].
  - reflexivity.
  - intros n' f' [Hin|[Hin|[]]]; inversion Hin; subst; (split; [|reflexivity]); [exact Ka|apply val_ok; exact Hv].
  - intros n' g g' [Hin|[Hin|[]]] [Hin'|[Hin'|[]]]; inversion Hin; inversion Hin'; subst; try discriminate; [exact Kc|exact Hc].
  - cbn [all2 map entry_fs fld_type go_type]. rewrite H4, H6. reflexivity.
  - repeat constructor; assumption.
  - cbn [SpecMsg.encodable_msg entry_fs]. rewrite H1. destruct a; reflexivity.
  - exact Hse.
  - destruct ys as [|a' [|x' [|? ?]]]; try discriminate E2. cbn [translate_msg entry_fs map SpecVersions.pick N.eqb Pos.eqb] in E2. inversion E2 as [[Na Nx]]. clear E2.
    assert (Ea : a' = a).
    { assert (Ka' : translate a (FAlways k) (FAlways k) = a).
      { replace (translate a (FAlways k) (FAlways k)) with (become k a) by (destruct a; reflexivity). apply (become_same D); assumption. }
      rewrite Ka' in Na. assert (Sa : scalar a = true) by (eapply wt_scalar; eassumption). apply (scalar_norm_inv a a' Sa). congruence. }
    subst a'.
    assert (Fr : forallb (fun kv => negb (same_key (fst kv) a)) (entries m) = true).
    { rewrite forallb_forall in Hm |- *. intros kv Hin. specialize (Hm kv Hin). cbn [forallb fst] in Hm. apply andb_true_iff in Hm. apply Hm. }
    destruct (IH Gl ltac:(assumption) ltac:(assumption) ltac:(assumption) ltac:(lia) (Some (put_entry (entries m) a x'))) as (ps & ws & z & F1 & F2 & F3 & F4).
    + cbn [entries]. rewrite (put_entry_new _ _ _ Fr), forallb_app. apply andb_true_iff. split.
      * rewrite forallb_forall in Hm |- *. intros kv Hin. specialize (Hm kv Hin). cbn [forallb fst] in Hm. apply andb_true_iff in Hm. apply Hm.
      * cbn [forallb fst]. rewrite andb_true_r. rewrite forallb_forall in *. intros [a2 x2] Hin. cbn [fst].
        rewrite <- (same_key_eq D k a a2 Hk); [|assumption|].
        -- match goal with Hq : forall x0, In x0 l -> negb (key_eqb a (fst x0)) = true |- _ => exact (Hq _ Hin) end.
        -- match goal with Hq : forall x0, In x0 l -> (let (_, _) := x0 in _) = true |- _ => specialize (Hq _ Hin); cbn beta iota in Hq; apply andb_true_iff in Hq; exact (proj1 Hq) end.
    + exists (PLen (ser (message [a; x] (entry_fs k e))) :: ps), ((a, x') :: ws), z. split; [cbn [recs map]; rewrite F1; reflexivity|].
      split; [cbn [map norm_kv]; rewrite F2, Nx; reflexivity|]. split.
      * rewrite F3. cbn [entries]. rewrite (put_entry_new _ _ _ Fr), <- app_assoc. reflexivity.
      * econstructor; [split; [exact E4|exact Hse]|reflexivity| | |exact F4].
        -- cbn [SpecMsg.put]. fold (entry_fs k e'). rewrite E1. reflexivity.
        -- cbn [SpecMsg.plain_put]. exact E3.
Qed.

Lemma all_arrive : forall v, arrives v.
Proof.
  induction v as [v IH] using val_ind2. intros n f f' Hw Hf Hf' Hc Hn He Hsm.
  destruct f as [q|q|q|q| |m|e|k e].
  1-5: destruct (compatible_scalars _ _ Hc Logic.I) as (s & s' & S1 & S2 & S3); eapply arrive_scalar; try eassumption; destruct v; reflexivity.
  - (* message *)
    assert (Hm : exists m', compatible (FMessage m) (FMessage m') = true /\ (f' = FMessage m' \/ f' = FRepeated (FMessage m'))).
    { destruct f' as [q|q|q|q| |m'|e|k e]; try discriminate Hc; [exists m'; auto|]. destruct e; try discriminate Hc. exists m0; auto. }
    destruct Hm as (m' & Hm & Hf2). cbn [go_type] in Hw. destruct (wt_msg _ _ _ Hw) as ([x|] & -> & Hx).
    2:{ exists [], (zero (go_type f')). split; [reflexivity|]. split; [constructor|]. split; [|intros _; reflexivity]. destruct Hf2 as [->| ->]; reflexivity. }
    destruct (wts_struct D x (SNamed m)) as (xs & -> & W); [discriminate|exact Hx|]. destruct IH as [_ IH].
    destruct (msg_arrives m m' xs n Hm Hw IH He Hsm) as (p & zs & E1 & E2 & E3 & E4 & E5 & E6).
    destruct Hf2 as [->| ->].
    + exists [p], (VPtr (Some (VStruct zs))). split; [exact E1|]. split; [|split; [exact E6|intros _; eexists; reflexivity]].
      econstructor; [exact E2|rewrite E3; reflexivity|exact E4|exact E5|constructor].
    + exists [p], (VSlice true [VPtr (Some (VStruct zs))] []). split; [exact E1|]. split; [|split; [|intros _; eexists; reflexivity]].
      * econstructor; [exact E2|rewrite E3; reflexivity| |exact E5|constructor]. cbn [put go_type zero] in *. rewrite E4. reflexivity.
      * assert (T : translate (VPtr (Some (VStruct xs))) (FMessage m) (FRepeated (FMessage m')) =
          VSlice true [translate (VPtr (Some (VStruct xs))) (FMessage m) (FMessage m')] []).
        { cbn [compatible] in Hm. apply Nat.eqb_eq in Hm. subst m'. reflexivity. }
        rewrite T, !norm_slice. cbn [map]. rewrite E6. reflexivity.
  - (* repeated *)
    assert (Hd : (exists m, e = FMessage m) \/ match e with FMessage _ => False | _ => True end) by (destruct e; eauto).
    destruct Hd as [(m & ->)|He2].
    2:{ destruct (compatible_scalars _ _ Hc) as (s & s' & S1 & S2 & S3); [destruct e; auto|].
        eapply arrive_scalar; try eassumption. destruct v, e; try reflexivity; try destruct He2; discriminate Hf. }
    destruct f' as [q|q|q|q| |m'|e'|k e']; try discriminate Hc. destruct e' as [q|q|q|q| |m'|e'|k e']; try discriminate Hc.
    cbn [go_type] in Hw. destruct (wt_slice _ _ _ Hw) as (nn & items & spare & -> & Hi & Hsp). destruct IH as [IH _].
    destruct (arrive_items n m m' Hc Hn items IH Hi He Hsm) as (ps & ws & E1 & E2 & E3).
    destruct (E3 false []) as [nn' E]. exists ps, (VSlice nn' ws []). split; [exact E1|]. split; [exact E|].
    split; [|intros []]. cbn [SpecVersions.translate]. rewrite !norm_slice, E2. f_equal.
    destruct ws, (flat_map (fun x => if is_nil x then [] else [translate x (FMessage m) (FMessage m')]) items); try discriminate E2; reflexivity.
  - (* map *)
    destruct f' as [q|q|q|q| |m'|e'|k' e']; try discriminate Hc. cbn [compatible] in Hc. apply andb_true_iff in Hc. destruct Hc as [Hk Hc].
    destruct (sty_eq_dec k k') as [<-|]; [|discriminate Hk]. clear Hk.
    cbn [go_type] in Hw. destruct (wt_map _ _ _ _ Hw) as (mm & -> & Hm). clear Hw.
    cbn [ok_fty] in Hf, Hf'. apply andb_true_iff in Hf, Hf'. destruct Hf as [Hk Hv], Hf' as [_ Hv'].
    destruct mm as [[|kv l]|]; try discriminate He. destruct Hm as [Hm Hd].
    destruct (arrive_entries n k e e' Hk Hv Hv' Hc Hn (kv :: l) IH Hm Hd He Hsm None eq_refl) as (ps & ws & z & E1 & E2 & E3 & E4).
    exists ps, (VMap z). split; [exact E1|]. split; [exact E4|]. split; [|intros []].
    cbn [SpecVersions.translate]. rewrite !norm_map, E3. cbn [entries app].
    destruct ws as [|w ws]; [discriminate E2|]. rewrite E2. reflexivity.
Qed.

Theorem merge_versions m xs : all2 (wt D) xs (field_types D m) = true -> encodable_msg xs (msg sch m) = true ->
  zlen (ser (message xs (msg sch m))) < Z63 ->
  exists zs, mg (msg sch' m) (zeros (msg sch' m)) (ser (message xs (msg sch m))) = MOk zs /\
    map norm zs = map norm (translate_msg sch sch' xs (msg sch m) (msg sch' m)) /\
    pl (msg sch' m) (ser (message xs (msg sch m))) = true /\ bytes_okb (ser (message xs (msg sch m))) = true.
Proof.
  intros Hw He Hsm. rewrite (field_types_of D sch HI) in Hw. destruct (schema_ok_msg sch HS m) as (_ & Hnd & _). destruct (schema_ok_msg sch' HS' m) as (_ & Hnd' & _).
  apply arrive_msg; auto; try (apply msg_fields_ok; assumption). apply HU. apply Forall_forall. intros x _. apply all_arrive.
Qed.
End Two.
