(** Merging what is written: specification level. *)
From Coq Require Import ZifyBool ZifyNat ZifyN.
From Verif Require Import Base Wire GoType Leaf Codec Tag Walker Resolve Typing CodecSim SpecWire SpecTag SpecMsg
  WireFacts DecodeFacts GenFacts TypingFacts TagFacts EncFacts MsgResolve MsgEnc MsgDec.
Local Open Scope Z_scope.
Ltac Zify.zify_post_hook ::= Z.div_mod_to_equations.

Section Round.
Variable sch : schema.
Notation merge := (merge sch).
Notation plain := (plain sch).
Notation put := (put sch).
Notation plain_put := (plain_put sch).
Notation records := (records sch).
Notation message := (message sch).

(** ** Enough fuel *)
Definition inner (p : payload) : nat := match p with PLen b => length b | _ => 0%nat end.
Lemma put_ext f p y s1 s2 : (forall fs xs b, (length b <= inner p)%nat -> s1 fs xs b = s2 fs xs b) -> put s1 f p y = put s2 f p y.
Proof.
  intros H. revert p y H. induction f as [s|s|s|s| |m|e IH|k e IH]; intros p y H; cbn [SpecMsg.put]; try reflexivity.
  - destruct p; try reflexivity. rewrite H by reflexivity. reflexivity.
  - rewrite (IH p _ H). reflexivity.
  - destruct p; try reflexivity. rewrite H by reflexivity. reflexivity.
Qed.
Lemma plain_put_ext f p n s1 s2 : (forall fs b, (length b <= inner p)%nat -> s1 fs b = s2 fs b) -> plain_put s1 f p n = plain_put s2 f p n.
Proof.
  intros H. revert p H. induction f as [s|s|s|s| |m|e IH|k e IH]; intros p H; cbn [SpecMsg.plain_put]; try reflexivity.
  - destruct p; try reflexivity. apply H. reflexivity.
  - apply IH. exact H.
  - destruct p; try reflexivity. apply H. reflexivity.
Qed.
Lemma read_payload_inner w r p r' : read_payload w r = Some (p, r') -> (inner p <= length r)%nat /\ (length r' <= length r)%nat.
Proof.
  intros H. pose proof (read_payload_len w r) as L. destruct (payload_len w r) as [n|] eqn:E; [|congruence].
  destruct L as (p' & L & Hn). rewrite H in L. inversion L; subst p' r'. rewrite skipn_length. split; [|lia].
  unfold read_payload in H. destruct (w =? 0)%N; [destruct (read_varint r); inversion H; cbn; lia|].
  destruct (w =? 1)%N; [destruct (_ <=? _)%nat; inversion H; cbn; lia|].
  destruct (w =? 2)%N; [|destruct (w =? 5)%N; [destruct (_ <=? _)%nat; inversion H; cbn; lia|discriminate]].
  destruct (read_varint r) as [l k r2| |] eqn:Er; try discriminate. destruct (l <=? _)%N eqn:El; inversion H; subst.
  apply read_varint_ok in Er. destruct Er as (_ & _ & <- & _). cbn [inner]. rewrite firstn_length, skipn_length. lia.
Qed.
Lemma merge_fuel m : forall m' fs xs b, (length b < m)%nat -> (length b < m')%nat -> merge m fs xs b = merge m' fs xs b.
Proof.
  induction m as [|m IH]; intros [|m'] fs xs b H H'; try lia. cbn [SpecMsg.merge]. destruct b as [|c b0] eqn:Eb; [reflexivity|]. rewrite <- Eb in *. clear Eb c b0.
  destruct (read_varint b) as [tag k r| |] eqn:Er; try reflexivity.
  assert (Hr : (length r < length b)%nat) by (apply read_varint_ok in Er; destruct Er as (_ & _ & <- & ? & ?); rewrite skipn_length; lia).
  destruct (read_payload (tag mod 8) r) as [[p r']|] eqn:Ep; [|reflexivity]. apply read_payload_inner in Ep as [Hp Hr'].
  destruct (find_field 0 fs (tag / 8)) as [[i f]|]; [|apply IH; lia].
  destruct (negb _); [reflexivity|]. destruct (nth_error xs i) as [y|]; [|reflexivity].
  rewrite (put_ext f p y (merge m) (merge m')) by (intros; apply IH; lia).
  destruct (put (merge m') f p y); try reflexivity. apply IH; lia.
Qed.
Lemma plain_fuel m : forall m' fs b, (length b < m)%nat -> (length b < m')%nat -> plain m fs b = plain m' fs b.
Proof.
  induction m as [|m IH]; intros [|m'] fs b H H'; try lia. cbn [SpecMsg.plain]. destruct b as [|c b0] eqn:Eb; [reflexivity|]. rewrite <- Eb in *. clear Eb c b0.
  destruct (read_varint b) as [tag k r| |] eqn:Er; try reflexivity.
  assert (Hr : (length r < length b)%nat) by (apply read_varint_ok in Er; destruct Er as (_ & _ & <- & ? & ?); rewrite skipn_length; lia).
  destruct (read_payload (tag mod 8) r) as [[p r']|] eqn:Ep; [|reflexivity]. apply read_payload_inner in Ep as [Hp Hr'].
  rewrite (IH m' fs r') by lia. f_equal.
  destruct (find_field 0 fs (tag / 8)) as [[i f]|]; [|reflexivity].
  rewrite (plain_put_ext f p _ (plain m) (plain m')) by (intros; apply IH; lia). reflexivity.
Qed.

Definition mg (fs : list sfld) (xs : list val) (b : list N) : mres (list val) := merge (S (length b)) fs xs b.
Definition pl (fs : list sfld) (b : list N) : bool := plain (S (length b)) fs b.

(** ** One record *)
Definition pay_ok (p : payload) : Prop :=
  match p with
  | PVar n | PFix64 n => (n < 2^64)%N
  | PFix32 n => (n < 2^32)%N
  | PLen b => bytes_okb b = true /\ zlen b < Z63
  end.
Lemma le_value_bytes k : forall n, (n < 256 ^ N.of_nat k)%N -> le_value (le_bytes k n) = n.
Proof.
  induction k as [|k IH]; intros n H; cbn [le_bytes le_value]; [change (256 ^ N.of_nat 0)%N with 1%N in H; lia|].
  rewrite Nat2N.inj_succ, N.pow_succ_r' in H. rewrite IH by lia. lia.
Qed.
Lemma read_payload_ser p b : pay_ok p -> read_payload (wire_of p) (ser_payload p ++ b) = Some (p, b).
Proof.
  destruct p as [n|n|d|n]; cbn [pay_ok wire_of ser_payload]; intros H.
  - change (read_payload 0 (vint n ++ b)) with (match read_varint (vint n ++ b) with VOk v _ r => Some (PVar v, r) | _ => None end).
    rewrite read_varint_vint by exact H. reflexivity.
  - set (r := le_bytes 8 n ++ b).
    change (read_payload 1 r) with (if (8 <=? length r)%nat then Some (PFix64 (le_value (firstn 8 r)), skipn 8 r) else None).
    unfold r. rewrite app_length, le_bytes_length. cbn [Nat.leb Nat.add].
    rewrite firstn_app, skipn_app, le_bytes_length, Nat.sub_diag, app_nil_r.
    rewrite (firstn_all2 (le_bytes 8 n)), (skipn_all2 (le_bytes 8 n)) by (rewrite le_bytes_length; lia).
    rewrite le_value_bytes by exact H. reflexivity.
  - destruct H as [_ H]. destruct (of_nat_64 _ H) as [_ L].
    set (r := (vint (N.of_nat (length d)) ++ d) ++ b).
    change (read_payload 2 r) with (match read_varint r with
      | VOk l _ r => if (l <=? N.of_nat (length r))%N then Some (PLen (firstn (N.to_nat l) r), skipn (N.to_nat l) r) else None
      | _ => None end).
    unfold r. rewrite <- app_assoc, read_varint_vint by exact L. rewrite app_length.
    replace (_ <=? _)%N with true by lia. rewrite Nat2N.id, firstn_app, skipn_app, Nat.sub_diag, app_nil_r, firstn_all, skipn_all. reflexivity.
  - set (r := le_bytes 4 n ++ b).
    change (read_payload 5 r) with (if (4 <=? length r)%nat then Some (PFix32 (le_value (firstn 4 r)), skipn 4 r) else None).
    unfold r. rewrite app_length, le_bytes_length. cbn [Nat.leb Nat.add].
    rewrite firstn_app, skipn_app, le_bytes_length, Nat.sub_diag, app_nil_r.
    rewrite (firstn_all2 (le_bytes 4 n)), (skipn_all2 (le_bytes 4 n)) by (rewrite le_bytes_length; lia).
    rewrite le_value_bytes by exact H. reflexivity.
Qed.
Lemma wire_of_lt p : (wire_of p < 8)%N.
Proof. destruct p; reflexivity. Qed.
Lemma inner_ser p : (inner p <= length (ser_payload p))%nat.
Proof. destruct p; cbn [inner ser_payload]; rewrite ?app_length; lia. Qed.

Lemma merge_step n p b fs xs i f y z : (n < 2^61)%N -> pay_ok p -> find_field 0 fs n = Some (i, f) -> wire_fty f = wire_of p ->
  nth_error xs i = Some y -> put mg f p y = MOk z -> mg fs xs (ser_rec (n, p) ++ b) = mg fs (replace xs i z) b.
Proof.
  intros Hn Hp Hf Hw Hy Hz. unfold mg at 1, ser_rec. cbn [fst snd]. cbn [SpecMsg.merge].
  assert (T : (8 * n + wire_of p < 2^64)%N) by (apply tag_lt; [exact Hn|pose proof (wire_of_lt p); lia]).
  rewrite <- app_assoc. destruct (vint _ ++ _) as [|c0 b0] eqn:Eb.
  { apply app_eq_nil in Eb. destruct Eb as [Eb _]. exfalso. revert Eb. apply vint_nonempty. }
  rewrite <- Eb. clear Eb c0 b0. rewrite read_varint_vint by exact T.
  pose proof (wire_of_lt p) as W8.
  replace ((8 * n + wire_of p) mod 8)%N with (wire_of p) by lia. replace ((8 * n + wire_of p) / 8)%N with n by lia.
  rewrite read_payload_ser, Hf, Hw, N.eqb_refl, Hy by exact Hp. cbn [negb].
  pose proof (inner_ser p) as Hi. pose proof (vint_nonempty (8 * n + wire_of p)) as V. destruct (vint (8 * n + wire_of p)) as [|v0 v1]; [contradiction|].
  rewrite !app_length. cbn [length].
  rewrite (put_ext f p y _ mg), Hz.
  - unfold mg. apply merge_fuel; lia.
  - intros fs' xs' b' Hb'. unfold mg. apply merge_fuel; lia.
Qed.
Lemma plain_step n p b fs i f : (n < 2^61)%N -> pay_ok p -> find_field 0 fs n = Some (i, f) -> wire_fty f = wire_of p ->
  pl fs (ser_rec (n, p) ++ b) = plain_put pl f p (length (ser_payload p)) && pl fs b.
Proof.
  intros Hn Hp Hf Hw. unfold pl at 1, ser_rec. cbn [fst snd]. cbn [SpecMsg.plain].
  assert (T : (8 * n + wire_of p < 2^64)%N) by (apply tag_lt; [exact Hn|pose proof (wire_of_lt p); lia]).
  rewrite <- app_assoc. destruct (vint _ ++ _) as [|c0 b0] eqn:Eb.
  { apply app_eq_nil in Eb. destruct Eb as [Eb _]. exfalso. revert Eb. apply vint_nonempty. }
  rewrite <- Eb. clear Eb c0 b0. rewrite read_varint_vint by exact T.
  pose proof (wire_of_lt p) as W8.
  replace ((8 * n + wire_of p) mod 8)%N with (wire_of p) by lia. replace ((8 * n + wire_of p) / 8)%N with n by lia.
  rewrite read_payload_ser, Hf, Hw, N.eqb_refl by exact Hp. cbn [negb orb].
  pose proof (inner_ser p) as Hi. pose proof (vint_nonempty (8 * n + wire_of p)) as V. destruct (vint (8 * n + wire_of p)) as [|v0 v1]; [contradiction|].
  rewrite !app_length. cbn [length]. replace (length (ser_payload p) + length b - length b)%nat with (length (ser_payload p)) by lia.
  rewrite (plain_put_ext f p _ _ pl).
  - f_equal. unfold pl. apply plain_fuel; lia.
  - intros fs' b' Hb'. unfold pl. apply plain_fuel; lia.
Qed.

(** ** The records of one field *)
Inductive put_list (f : fty) : val -> list payload -> val -> Prop :=
| put_nil y : put_list f y [] y
| put_cons y p z ps w : pay_ok p -> wire_fty f = wire_of p -> put mg f p y = MOk z ->
    plain_put pl f p (length (ser_payload p)) = true -> put_list f z ps w -> put_list f y (p :: ps) w.
Lemma put_list_app f y ps z qs w : put_list f y ps z -> put_list f z qs w -> put_list f y (ps ++ qs) w.
Proof. induction 1; [auto|]. intros. cbn [app]. econstructor; eauto. Qed.

Definition recs (n : N) (ps : list payload) : list record := map (pair n) ps.
Lemma replace_same {A} (l : list A) i x : nth_error l i = Some x -> replace l i x = l.
Proof. revert i. induction l as [|y l IH]; intros [|i]; cbn; try discriminate; [congruence|]. intros H. rewrite IH by exact H. reflexivity. Qed.
Lemma replace_replace {A} (l : list A) i x y : replace (replace l i x) i y = replace l i y.
Proof. revert i. induction l as [|z l IH]; intros [|i]; cbn; try reflexivity. rewrite IH. reflexivity. Qed.
Lemma nth_replace {A} (l : list A) i x y : nth_error l i = Some y -> nth_error (replace l i x) i = Some x.
Proof. revert i. induction l as [|z l IH]; intros [|i]; cbn; try discriminate; auto. Qed.

Lemma merge_recs n fs i f : (n < 2^61)%N -> find_field 0 fs n = Some (i, f) -> forall ps y z, put_list f y ps z ->
  forall xs b, nth_error xs i = Some y -> mg fs xs (ser (recs n ps) ++ b) = mg fs (replace xs i z) b.
Proof.
  intros Hn Hf. induction 1 as [y|y p z ps w H1 H2 H3 H4 H5 IH]; intros xs b Hy.
  - cbn. rewrite replace_same by exact Hy. reflexivity.
  - cbn [recs map]. unfold ser. cbn [map concat]. rewrite <- app_assoc.
    rewrite (merge_step n p _ fs xs i f y z Hn H1 Hf H2 Hy H3).
    change (concat (map ser_rec (map (pair n) ps))) with (ser (recs n ps)).
    rewrite IH by (eapply nth_replace; exact Hy). rewrite replace_replace. reflexivity.
Qed.
Lemma plain_recs n fs i f : (n < 2^61)%N -> find_field 0 fs n = Some (i, f) -> forall ps y z, put_list f y ps z ->
  forall b, pl fs (ser (recs n ps) ++ b) = pl fs b.
Proof.
  intros Hn Hf. induction 1 as [y|y p z ps w H1 H2 H3 H4 H5 IH]; intros b; [reflexivity|].
  cbn [recs map]. unfold ser. cbn [map concat]. rewrite <- app_assoc.
  rewrite (plain_step n p _ fs i f Hn H1 Hf H2), H4. apply IH.
Qed.

Lemma le_bytes_ok k : forall n, bytes_okb (le_bytes k n) = true.
Proof. induction k as [|k IH]; intros n; [reflexivity|]. cbn [le_bytes]. unfold bytes_okb in *. cbn [forallb]. rewrite IH. lia. Qed.
Lemma ser_payload_ok p : pay_ok p -> bytes_okb (ser_payload p) = true.
Proof.
  destruct p; cbn [pay_ok ser_payload]; intros H; try apply le_bytes_ok.
  - apply bytes_okb_ok, vint_ok.
  - rewrite bytes_okb_app. apply andb_true_iff. split; [apply bytes_okb_ok, vint_ok|apply H].
Qed.
Lemma ser_recs_ok n f y ps z : put_list f y ps z -> bytes_okb (ser (recs n ps)) = true.
Proof.
  induction 1 as [y|y p z ps w H1 H2 H3 H4 H5 IH]; [reflexivity|]. cbn [recs map]. unfold ser. cbn [map concat].
  change (concat (map ser_rec (map (pair n) ps))) with (ser (recs n ps)). rewrite bytes_okb_app, IH, andb_true_r.
  unfold ser_rec. rewrite bytes_okb_app. apply andb_true_iff. split; [apply bytes_okb_ok, vint_ok|apply ser_payload_ok; exact H1].
Qed.

(** ** Values *)
Variable D : decls.
Hypothesis HI : implements D sch = true.
Hypothesis HS : schema_ok sch = true.
Hypothesis HC : in_scope sch = true.
Notation kept := (kept sch).
Notation kept_msg := (kept_msg sch).
Notation encodable := (encodable sch).
Notation encodable_msg := (encodable_msg sch).

Lemma in64_signed z : in_i64 z = true -> signed 64 (in64 z) = z.
Proof.
  unfold in_i64, Z63, signed, in64. intros H. change (2^64) with 18446744073709551616. change (2^64)%N with 18446744073709551616%N. change (2^(64-1))%N with 9223372036854775808%N.
  destruct (_ <? _)%N eqn:E; lia.
Qed.
Lemma in64_signed32 z : in_i32 z = true -> signed 32 (in64 z) = z.
Proof.
  unfold in_i32, Z31, signed, in64. intros H. change (2^64) with 18446744073709551616. change (2^32)%N with 4294967296%N. change (2^(32-1))%N with 2147483648%N.
  destruct (_ <? _)%N eqn:E; lia.
Qed.
Lemma in64_lt z : (in64 z < 2^64)%N.
Proof. unfold in64. change (2^64) with 18446744073709551616. change (2^64)%N with 18446744073709551616%N. lia. Qed.
Lemma zigzag_32 z : in_i32 z = true -> (zigzag z < 2^32)%N.
Proof. unfold in_i32, Z31, zigzag. intros H. change (2^32)%N with 4294967296%N. destruct (z <? 0) eqn:E; lia. Qed.
Lemma zigzag_64 z : in_i64 z = true -> (zigzag z < 2^64)%N.
Proof. unfold in_i64, Z63, zigzag. intros H. change (2^64)%N with 18446744073709551616%N. destruct (z <? 0) eqn:E; lia. Qed.
Lemma lt_32_64 n : (n < 2^32)%N -> (n < 2^64)%N.
Proof. intros H. eapply N.lt_trans; [exact H|reflexivity]. Qed.
Lemma plain_put_scalar sub s p n f : (f = FImplicit s \/ f = FAlways s \/ f = FOptional s \/ f = FPointer s) -> plain_put sub f p n = plain_scalar s p n.
Proof. intros [->|[->|[->| ->]]]; reflexivity. Qed.

Lemma scalar_round s v : not_sfixed s = true -> wt D v (TScalar (go_kind s)) = true -> scalar_small v ->
  pay_ok (pay s v) /\ wire_of (pay s v) = wire_sty s /\ read_scalar s (pay s v) = Some v /\
  plain_scalar s (pay s v) (length (ser_payload (pay s v))) = true.
Proof.
  intros Hs Hw Hsm. destruct s; try discriminate Hs; cbn [go_kind] in Hw; wtd v; cbn [pay wire_of wire_sty read_scalar plain_scalar pay_ok]; cbn [wt] in Hw.
  - repeat split; [apply in64_lt|rewrite in64_signed32 by exact Hw; reflexivity].
  - repeat split; [apply in64_lt|rewrite in64_signed by exact Hw; reflexivity].
  - apply N.ltb_lt in Hw. repeat split; [apply lt_32_64; exact Hw|]. rewrite N.mod_small by exact Hw. reflexivity.
  - apply (wt_u64 D) in Hw. repeat split. exact Hw.
  - pose proof (zigzag_32 _ Hw) as Z. repeat split; [apply lt_32_64; exact Z| |apply N.ltb_lt; exact Z].
    rewrite N.mod_small by exact Z. rewrite unzigzag_zigzag. reflexivity.
  - repeat split; [apply zigzag_64; exact Hw|]. rewrite unzigzag_zigzag. reflexivity.
  - apply N.ltb_lt in Hw. repeat split. exact Hw.
  - apply (wt_u64 D) in Hw. repeat split. exact Hw.
  - apply N.ltb_lt in Hw. repeat split. exact Hw.
  - apply N.ltb_lt in Hw. repeat split. exact Hw.
  - destruct b; repeat split; reflexivity.
  - repeat split; [exact Hw|exact Hsm].
Qed.
Lemma zero_value k v : wt D v (TScalar k) = true -> is_zero v = true -> v = zero (TScalar k).
Proof.
  intros Hw Hz. wtd v; destruct k; try discriminate Hw; cbn [is_zero] in Hz; cbn.
  all: try (destruct b; [discriminate|reflexivity]).
  all: try (f_equal; lia).
  destruct b; [reflexivity|discriminate].
Qed.
Lemma zero_like_eq k v : wt D v (TScalar k) = true -> zero_like v = zero_k k.
Proof. intros Hw. wtd v; destruct k; try discriminate Hw; reflexivity. Qed.

(** An element, or a singular field holding one: nothing or one record. *)
Definition good (v : val) : Prop := forall n f, wt D v (go_type f) = true -> ok_fty f = true -> (n < 2^61)%N ->
  encodable v f = true -> zlen (ser (records v n f)) < Z63 ->
  exists ps w, records v n f = recs n ps /\ put_list f (zero (go_type f)) ps w /\ norm w = norm (kept v f) /\
    (ok_elem f = true -> if is_nil v then ps = [] else exists p, ps = [p]).

Lemma single f n p w v : pay_ok p -> wire_fty f = wire_of p -> put mg f p (zero (go_type f)) = MOk w ->
  plain_put pl f p (length (ser_payload p)) = true -> norm w = norm (kept v f) -> is_nil v = false -> records v n f = [(n, p)] ->
  exists ps w, records v n f = recs n ps /\ put_list f (zero (go_type f)) ps w /\ norm w = norm (kept v f) /\
    (ok_elem f = true -> if is_nil v then ps = [] else exists p, ps = [p]).
Proof.
  intros H1 H2 H3 H4 H5 H6 H7. exists [p], w. rewrite H7, H6. split; [reflexivity|]. split; [|split; [exact H5|eauto]].
  econstructor; eauto. constructor.
Qed.
Lemma nothing f n v : records v n f = [] -> norm (zero (go_type f)) = norm (kept v f) -> (ok_elem f = true -> is_nil v = true) ->
  exists ps w, records v n f = recs n ps /\ put_list f (zero (go_type f)) ps w /\ norm w = norm (kept v f) /\
    (ok_elem f = true -> if is_nil v then ps = [] else exists p, ps = [p]).
Proof.
  intros H1 H2 H3. exists [], (zero (go_type f)). split; [exact H1|]. split; [constructor|]. split; [exact H2|].
  intros H. rewrite (H3 H). reflexivity.
Qed.

Lemma find_field_at pre fs n f : ~ In n (numbers pre) -> forall i, find_field i (pre ++ Field n f :: fs) n = Some ((i + length pre)%nat, f).
Proof.
  induction pre as [|[t|n' f'] pre IH]; intros H i; cbn [app find_field numbers length] in *.
  - rewrite N.eqb_refl. f_equal. f_equal. lia.
  - rewrite (IH H). f_equal. f_equal. lia.
  - destruct (N.eqb_spec n' n); [exfalso; apply H; left; assumption|]. rewrite IH by (intros Hi; apply H; right; exact Hi). f_equal. f_equal. lia.
Qed.
Lemma numbers_app a b : numbers (a ++ b) = numbers a ++ numbers b.
Proof. induction a as [|[t|n f] a IH]; cbn [app numbers]; auto. rewrite IH. reflexivity. Qed.
Lemma nodup_app_not a n b : nodup_N (a ++ n :: b) = true -> ~ In n a.
Proof.
  induction a as [|x a IH]; cbn [app nodup_N]; [intros _ []|]. intros H. apply andb_true_iff in H. destruct H as [H1 H2].
  intros [->|Hi]; [|exact (IH H2 Hi)]. apply negb_true_iff in H1. rewrite existsb_app in H1. cbn [existsb] in H1. rewrite N.eqb_refl in H1.
  rewrite orb_true_r in H1. discriminate.
Qed.
Lemma replace_at {A} (a : list A) x y b : replace (a ++ x :: b) (length a) y = a ++ y :: b.
Proof. induction a as [|z a IH]; [reflexivity|]. cbn. rewrite IH. reflexivity. Qed.

Definition fields_ok (fs : list sfld) : Prop := forall n f, In (Field n f) fs -> ok_fty f = true /\ (n < 2^61)%N.
Lemma good_fields fs : forall pre dn xs, length dn = length pre -> nodup_N (numbers (pre ++ fs)) = true -> fields_ok fs ->
  all2 (wt D) xs (map fld_type fs) = true -> Forall good xs -> encodable_msg xs fs = true -> zlen (ser (message xs fs)) < Z63 ->
  exists ys, mg (pre ++ fs) (dn ++ zeros fs) (ser (message xs fs)) = MOk (dn ++ ys) /\ map norm ys = map norm (kept_msg xs fs) /\
    pl (pre ++ fs) (ser (message xs fs)) = true /\ bytes_okb (ser (message xs fs)) = true.
Proof.
  induction fs as [|f fs IH]; intros pre dn [|x xs] Hlen Hnd Hok Hw Hg He Hsm; try discriminate.
  { exists []. cbn [message zeros map]. rewrite app_nil_r. repeat split. }
  cbn [all2 map] in Hw. apply andb_true_iff in Hw. destruct Hw as [Hx Hw]. inversion Hg as [|? ? Gx Gxs]; subst.
  assert (Hok' : fields_ok fs) by (intros n g Hin; apply Hok; right; exact Hin).
  assert (Hpre : forall a, pre ++ a :: fs = (pre ++ [a]) ++ fs) by (intros a; rewrite <- app_assoc; reflexivity).
  destruct f as [t|n f]; cbn [SpecMsg.message SpecMsg.encodable_msg SpecMsg.kept_msg fld_type] in *.
  - destruct (IH (pre ++ [Hidden t]) (dn ++ [zero t]) xs) as (ys & E1 & E2 & E3 & E4); try assumption.
    + rewrite !app_length, Hlen. reflexivity.
    + rewrite <- app_assoc. exact Hnd.
    + exists (zero t :: ys). rewrite Hpre. rewrite <- !app_assoc in E1. rewrite <- app_assoc in E3.
      rewrite <- app_assoc. split; [exact E1|]. split; [cbn [map]; rewrite E2; reflexivity|]. split; assumption.
  - apply andb_true_iff in He. destruct He as [He1 He]. rewrite ser_app in *. rewrite zlen_app in Hsm.
    pose proof (zlen_nonneg (ser (records x n f))). pose proof (zlen_nonneg (ser (message xs fs))).
    destruct (Hok n f (or_introl eq_refl)) as [Hf Hn].
    destruct (Gx n f Hx Hf Hn He1 ltac:(lia)) as (ps & w & Er & Hp & Nw & _). rewrite Er.
    assert (Hff : find_field 0 (pre ++ Field n f :: fs) n = Some (length dn, f)).
    { rewrite Hlen. apply (find_field_at pre fs n f). rewrite numbers_app in Hnd. cbn [numbers] in Hnd. eapply nodup_app_not; exact Hnd. }
    destruct (IH (pre ++ [Field n f]) (dn ++ [w]) xs) as (ys & E1 & E2 & E3 & E4); try assumption; try lia.
    + rewrite !app_length, Hlen. reflexivity.
    + rewrite <- app_assoc. exact Hnd.
    + exists (w :: ys). cbn [zeros map fld_type].
      rewrite (merge_recs n _ _ f Hn Hff ps _ w Hp).
      2:{ rewrite nth_error_app2, Nat.sub_diag by lia. reflexivity. }
      rewrite replace_at. rewrite (plain_recs n _ _ f Hn Hff ps _ w Hp).
      rewrite <- !app_assoc in E1. rewrite <- app_assoc in E3. cbn [app] in E1, E3. split; [exact E1|].
      split; [cbn [map]; rewrite E2, Nw; reflexivity|]. split; [exact E3|].
      rewrite bytes_okb_app, E4, andb_true_r. eapply ser_recs_ok; exact Hp.
Qed.

Lemma kept_message xs m : kept (VPtr (Some (VStruct xs))) (FMessage m) = VPtr (Some (VStruct (kept_msg xs (msg sch m)))).
Proof. reflexivity. Qed.

Lemma msg_fields_ok m : fields_ok (msg sch m).
Proof.
  destruct (schema_ok_msg sch HS m) as (A & B & _). intros n f Hin. pose proof (scope_nth sch HC m) as S. unfold scope_msg in S. rewrite forallb_forall in S.
  split; [apply scope_ok, (S _ Hin)|]. unfold nums_ok in A. rewrite forallb_forall in A.
  assert (I : In n (numbers (msg sch m))).
  { clear - Hin. induction (msg sch m) as [|[t|n' f'] l IH]; [destruct Hin| |]; cbn [numbers].
    - apply IH. destruct Hin as [H|H]; [discriminate|assumption].
    - destruct Hin as [H|H]; [inversion H; left; reflexivity|right; auto]. }
  apply A in I. apply andb_true_iff in I. destruct I as [_ I]. apply num_61 in I. apply I.
Qed.

(** A list of elements. *)
Lemma good_items n e : ok_elem e = true -> (n < 2^61)%N -> forall items, Forall good items ->
  forallb (fun x => wt D x (go_type e)) items = true -> forallb (fun x => encodable x e) items = true ->
  zlen (ser (flat_map (fun x => records x n e) items)) < Z63 ->
  exists ps ws, flat_map (fun x => records x n e) items = recs n ps /\
    map norm ws = map norm (flat_map (fun x => if is_nil x then [] else [kept x e]) items) /\
    (forall nn acc, exists nn', put_list (FRepeated e) (VSlice nn acc []) ps (VSlice nn' (acc ++ ws) [])).
Proof.
  intros He Hn. induction items as [|x items IH]; intros Hg Hw Hen Hsm.
  - exists [], []. split; [reflexivity|]. split; [reflexivity|]. intros nn acc. exists nn. rewrite app_nil_r. constructor.
  - inversion Hg as [|? ? Gx Gi]; subst. cbn [forallb flat_map] in *. apply andb_true_iff in Hw, Hen. destruct Hw as [Wx Hw], Hen as [Ex Hen].
    rewrite ser_app, zlen_app in Hsm. pose proof (zlen_nonneg (ser (records x n e))). pose proof (zlen_nonneg (ser (flat_map (fun x => records x n e) items))).
    destruct (IH Gi Hw Hen ltac:(lia)) as (ps & ws & E1 & E2 & E3).
    destruct (Gx n e Wx (elem_ok _ He) Hn Ex ltac:(lia)) as (ps1 & w & F1 & F2 & F3 & F4). specialize (F4 He).
    rewrite E1, F1. destruct (is_nil x).
    + subst ps1. exists ps, ws. split; [reflexivity|]. split; [exact E2|exact E3].
    + destruct F4 as [p ->]. exists (p :: ps), (w :: ws). split; [reflexivity|]. split; [cbn [app map]; rewrite E2, F3; reflexivity|].
      intros nn acc. inversion F2 as [|? ? z ? ? G1 G2 G3 G4 G5]; subst. inversion G5; subst.
      destruct (E3 true (acc ++ [w])) as [nn' E]. rewrite <- app_assoc in E. exists nn'.
      econstructor; [exact G1|exact G2| |exact G4|exact E]. cbn [SpecMsg.put]. rewrite G3. reflexivity.
Qed.

Lemma put_entry_new l a x : forallb (fun kv => negb (same_key (fst kv) a)) l = true -> put_entry l a x = l ++ [(a, x)].
Proof.
  induction l as [|[k y] l IH]; [reflexivity|]. cbn [forallb fst put_entry app]. intros H. apply andb_true_iff in H. destruct H as [H1 H2].
  apply negb_true_iff in H1. rewrite H1, IH by exact H2. reflexivity.
Qed.
Lemma entry_nodup k e : nodup_N (numbers ([] ++ entry_fs k e)) = true.
Proof. reflexivity. Qed.
Lemma entry_msg a x k e : message [a; x] (entry_fs k e) = records a 1 (FAlways k) ++ records x 2 e.
Proof. cbn [SpecMsg.message entry_fs]. rewrite app_nil_r. reflexivity. Qed.

Lemma good_entries n k e : scope_key k = true -> scope_val e = true -> (n < 2^61)%N -> forall l,
  Forall (fun kv => good (fst kv) /\ good (snd kv)) l ->
  forallb (fun kv => match kv with (a, x) => wt D a (TScalar (go_kind k)) && wt D x (go_type e) end) l = true ->
  keys_distinct l = true ->
  forallb (fun kv => match kv with (_, x) => map_len_ok sch k e x && encodable x e end) l = true ->
  zlen (ser (records (VMap (Some l)) n (FMap k e))) < Z63 ->
  forall m, forallb (fun kv => forallb (fun kv' => negb (same_key (fst kv) (fst kv'))) l) (entries m) = true ->
  exists ps ws z, records (VMap (Some l)) n (FMap k e) = recs n ps /\
    map norm_kv ws = map norm_kv (map (fun kv => match kv with (a, x) => (a, kept x e) end) l) /\
    entries z = entries m ++ ws /\ put_list (FMap k e) (VMap m) ps (VMap z).
Proof.
  intros Hk Hv Hn. assert (Ka : not_sfixed k = true) by (destruct k; try discriminate; reflexivity).
  induction l as [|[a x] l IH]; intros Hg Hw Hd He Hsm m Hm.
  { exists [], [], m. rewrite app_nil_r. repeat split. constructor. }
  inversion Hg as [|? ? [Ga Gx] Gl]; subst. cbn [fst snd] in Ga, Gx.
  cbn [forallb keys_distinct] in Hw, Hd, He. btrue.
  assert (Er : records (VMap (Some ((a, x) :: l))) n (FMap k e) =
    (n, PLen (ser (message [a; x] (entry_fs k e)))) :: records (VMap (Some l)) n (FMap k e)) by (rewrite entry_msg; reflexivity).
  rewrite Er in Hsm |- *. change ((n, PLen (ser (message [a; x] (entry_fs k e)))) :: records (VMap (Some l)) n (FMap k e)) with
    ([(n, PLen (ser (message [a; x] (entry_fs k e))))] ++ records (VMap (Some l)) n (FMap k e)) in Hsm.
  rewrite ser_app, zlen_app in Hsm.
  pose proof (zlen_nonneg (ser [(n, PLen (ser (message [a; x] (entry_fs k e))))])).
  pose proof (zlen_nonneg (ser (records (VMap (Some l)) n (FMap k e)))).
  assert (Hse : zlen (ser (message [a; x] (entry_fs k e))) < Z63) by (apply (ser_len_lt D sch n); lia).
  destruct (good_fields (entry_fs k e) [] [] [a; x]) as (ys & E1 & E2 & E3 & E4).
  - reflexivity.
  - reflexivity.
  - intros n' f' [Hin|[Hin|[]]]; inversion Hin; subst; (split; [|reflexivity]); [exact Ka|apply val_ok; exact Hv].
  - cbn [all2 map entry_fs fld_type go_type]. rewrite H4, H6. reflexivity.
  - repeat constructor; assumption.
  - cbn [SpecMsg.encodable_msg entry_fs]. rewrite H1. destruct a; reflexivity.
  - exact Hse.
  - cbn [app] in E1, E3. destruct ys as [|a' [|x' [|? ?]]]; try discriminate E2. cbn [SpecMsg.kept_msg entry_fs map] in E2. inversion E2 as [[Na Nx]]. clear E2.
    assert (Ea : a' = a).
    { assert (Ka' : kept a (FAlways k) = a) by (destruct a; reflexivity). rewrite Ka' in Na.
      assert (Sa : scalar a = true) by (eapply wt_scalar; eassumption). apply (scalar_norm_inv a a' Sa). congruence. }
    subst a'.
    assert (Fr : forallb (fun kv => negb (same_key (fst kv) a)) (entries m) = true).
    { rewrite forallb_forall in Hm |- *. intros kv Hin. specialize (Hm kv Hin). cbn [forallb fst] in Hm. apply andb_true_iff in Hm. apply Hm. }
    destruct (IH Gl ltac:(assumption) ltac:(assumption) ltac:(assumption) ltac:(lia) (Some (put_entry (entries m) a x'))) as (ps & ws & z & F1 & F2 & F3 & F4).
    + cbn [entries]. rewrite (put_entry_new _ _ _ Fr), forallb_app. apply andb_true_iff. split.
      * rewrite forallb_forall in Hm |- *. intros kv Hin. specialize (Hm kv Hin). cbn [forallb fst] in Hm. apply andb_true_iff in Hm. apply Hm.
      * cbn [forallb fst]. rewrite andb_true_r. rewrite forallb_forall in *. intros [a2 x2] Hin. cbn [fst].
        rewrite <- (same_key_eq D k a a2 Hk); [|assumption|].
        -- match goal with Hq : forall x0, In x0 l -> negb (key_eqb a (fst x0)) = true |- _ => exact (Hq _ Hin) end.
        -- match goal with Hq : forall x0, In x0 l -> (let (_, _) := x0 in _) = true |- _ => specialize (Hq _ Hin); cbn beta iota in Hq; apply andb_true_iff in Hq; exact (proj1 Hq) end.
    + exists (PLen (ser (message [a; x] (entry_fs k e))) :: ps), ((a, x') :: ws), z. split; [cbn [recs map]; rewrite F1; reflexivity|].
      split; [cbn [map norm_kv]; rewrite F2, Nx; reflexivity|]. split.
      * rewrite F3. cbn [entries]. rewrite (put_entry_new _ _ _ Fr), <- app_assoc. reflexivity.
      * econstructor; [split; [exact E4|exact Hse]|reflexivity| | |exact F4].
        -- cbn [SpecMsg.put]. fold (entry_fs k e). rewrite E1. reflexivity.
        -- cbn [SpecMsg.plain_put]. exact E3.
Qed.

Lemma good_all : forall v, good v.
Proof.
  induction v as [v IH] using val_ind2. intros n f Hw Hf Hn He Hsm.
  destruct f as [s|s|s|s| |m|e|k e]; cbn [ok_fty] in Hf.
  - (* implicit *)
    cbn [go_type] in Hw.
    assert (E : records v n (FImplicit s) = if is_zero v then [] else [(n, pay s v)]) by (destruct v; reflexivity).
    assert (K : kept v (FImplicit s) = v) by (destruct v; reflexivity).
    assert (N : is_nil v = false) by (apply wt_scalar in Hw; destruct v; try discriminate; reflexivity).
    destruct (is_zero v) eqn:Z.
    + apply nothing; [exact E|rewrite K; cbn [go_type]; rewrite <- (zero_value _ _ Hw Z); reflexivity|discriminate].
    + rewrite E in Hsm. destruct (scalar_round s v Hf Hw (small_pay D sch s v n Hf Hw Hsm)) as (P1 & P2 & P3 & P4).
      eapply single; [exact P1|symmetry; exact P2|cbn [SpecMsg.put]; rewrite P3; reflexivity|exact P4|rewrite K; reflexivity|exact N|exact E].
  - (* optional *)
    cbn [go_type] in Hw. wtd v. cbn [wt] in Hw. destruct some.
    + cbn [SpecMsg.records] in Hsm. destruct (scalar_round s v Hf Hw (small_pay D sch s v n Hf Hw Hsm)) as (P1 & P2 & P3 & P4).
      eapply single; [exact P1|symmetry; exact P2|cbn [SpecMsg.put]; rewrite P3; reflexivity|exact P4|reflexivity|reflexivity|reflexivity].
    + apply nothing; [reflexivity| |discriminate]. cbn. rewrite (zero_like_eq _ _ Hw). destruct (go_kind s); reflexivity.
  - (* pointer *)
    cbn [go_type] in Hw. destruct (wt_ptr _ _ _ Hw) as ([x|] & -> & Hx); [|apply nothing; [reflexivity..|discriminate]].
    cbn [SpecMsg.records] in Hsm. destruct (scalar_round s x Hf Hx (small_pay D sch s x n Hf Hx Hsm)) as (P1 & P2 & P3 & P4).
    eapply single; [exact P1|symmetry; exact P2|cbn [SpecMsg.put]; rewrite P3; reflexivity|exact P4|reflexivity|reflexivity|reflexivity].
  - (* always *)
    cbn [go_type] in Hw.
    assert (E : records v n (FAlways s) = [(n, pay s v)]) by (destruct v; reflexivity).
    assert (K : kept v (FAlways s) = v) by (destruct v; reflexivity).
    assert (N : is_nil v = false) by (apply wt_scalar in Hw; destruct v; try discriminate; reflexivity).
    rewrite E in Hsm. destruct (scalar_round s v Hf Hw (small_pay D sch s v n Hf Hw Hsm)) as (P1 & P2 & P3 & P4).
    eapply single; [exact P1|symmetry; exact P2|cbn [SpecMsg.put]; rewrite P3; reflexivity|exact P4|rewrite K; reflexivity|exact N|exact E].
  - (* bytes *)
    cbn [go_type] in Hw. wtd v; [|apply nothing; reflexivity].
    cbn [SpecMsg.records] in Hsm. apply (ser_len_lt D sch) in Hsm.
    apply (single FBytes n (PLen l) (VBytes (Some l))); [split; [exact Hw|exact Hsm]|reflexivity..].
  - (* message *)
    cbn [go_type] in Hw. destruct (wt_msg _ _ _ Hw) as ([x|] & -> & Hx); [|apply nothing; reflexivity].
    destruct (wts_struct D x (SNamed m)) as (xs & -> & W); [discriminate|exact Hx|]. cbn [key_types] in W.
    rewrite (field_types_of D sch HI) in W. rewrite records_msg in Hsm. rewrite encodable_eq in He. apply (ser_len_lt D sch) in Hsm.
    destruct IH as [_ IH]. destruct (schema_ok_msg sch HS m) as (_ & Hnd & _).
    destruct (good_fields (msg sch m) [] [] xs eq_refl Hnd (msg_fields_ok m) W IH He Hsm) as (ys & E1 & E2 & E3 & E4).
    cbn [app] in E1, E3.
    apply (single (FMessage m) n (PLen (ser (message xs (msg sch m)))) (VPtr (Some (VStruct ys)))); [split; [exact E4|exact Hsm]|reflexivity| |exact E3| |reflexivity|apply records_msg].
    + cbn [SpecMsg.put go_type zero]. rewrite E1. reflexivity.
    + rewrite kept_message. cbn [norm]. rewrite E2. reflexivity.
  - (* repeated *)
    cbn [go_type] in Hw. destruct (wt_slice _ _ _ Hw) as (nn & items & spare & -> & Hi & Hsp). destruct IH as [IH _].
    destruct (good_items n e Hf Hn items IH Hi He Hsm) as (ps & ws & E1 & E2 & E3).
    destruct (E3 false []) as [nn' E]. exists ps, (VSlice nn' ws []). split; [exact E1|]. split; [exact E|].
    split; [|discriminate]. cbn [SpecMsg.kept]. rewrite !norm_slice, E2. f_equal.
    destruct ws, (flat_map (fun x => if is_nil x then [] else [kept x e]) items); try discriminate E2; reflexivity.
  - (* map *)
    cbn [go_type] in Hw. destruct (wt_map _ _ _ _ Hw) as (mm & -> & Hm). clear Hw.
    apply andb_true_iff in Hf. destruct Hf as [Hk Hv].
    destruct mm as [[|kv l]|]; try discriminate He. destruct Hm as [Hm Hd].
    destruct (good_entries n k e Hk Hv Hn (kv :: l) IH Hm Hd He Hsm None eq_refl) as (ps & ws & z & E1 & E2 & E3 & E4).
    exists ps, (VMap z). split; [exact E1|]. split; [exact E4|]. split; [|discriminate].
    cbn [SpecMsg.kept]. rewrite !norm_map, E3. cbn [entries app].
    destruct ws as [|w ws]; [discriminate E2|]. rewrite E2. reflexivity.
Qed.

(** The records of a message merge back into the message (Theorem C). *)
Theorem merge_message m xs : all2 (wt D) xs (field_types D m) = true -> encodable_msg xs (msg sch m) = true ->
  zlen (ser (message xs (msg sch m))) < Z63 ->
  exists ys, mg (msg sch m) (zeros (msg sch m)) (ser (message xs (msg sch m))) = MOk ys /\
    map norm ys = map norm (kept_msg xs (msg sch m)) /\
    pl (msg sch m) (ser (message xs (msg sch m))) = true /\ bytes_okb (ser (message xs (msg sch m))) = true.
Proof.
  intros Hw He Hsm. rewrite (field_types_of D sch HI) in Hw. destruct (schema_ok_msg sch HS m) as (_ & Hnd & _).
  apply (good_fields (msg sch m) [] [] xs eq_refl Hnd (msg_fields_ok m) Hw); try assumption.
  apply Forall_forall. intros x _. apply good_all.
Qed.
End Round.
