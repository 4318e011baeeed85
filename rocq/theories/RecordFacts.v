(** Records of different fields can be exchanged. *)
From Coq Require Import ZifyBool ZifyNat ZifyN.
From Verif Require Import Base Wire GoType Leaf Codec Tag Walker Api Resolve Typing CodecSim SpecWire SpecTag SpecMsg SpecLib SpecExact SpecRecords SpecVersions
  WireFacts DecodeFacts GenFacts TypingFacts WalkInv WalkSpec WalkSeq EncFacts MsgResolve MsgEnc MsgDec MsgRound MsgFit MsgApi TidyFacts ExactThms MsgVersions VersionThms.
Local Open Scope Z_scope.
Ltac Zify.zify_post_hook ::= Z.div_mod_to_equations.

Lemma read_payload_app w r p b : read_payload w r = Some (p, []) -> read_payload w (r ++ b) = Some (p, b).
Proof.
  unfold read_payload. destruct (w =? 0)%N.
  { destruct (read_varint r) as [v k r'| |] eqn:E; try discriminate. intros H. inversion H; subst. rewrite (read_varint_app _ _ _ _ b E). reflexivity. }
  destruct (w =? 1)%N.
  { destruct (8 <=? length r)%nat eqn:E; [|discriminate]. destruct (skipn 8 r) as [|q0 q1] eqn:H2; [|discriminate]. intros H. apply Nat.leb_le in E. injection H as H. rewrite <- H.
    assert (L : length r = 8%nat) by (apply (f_equal (@length N)) in H2; rewrite skipn_length in H2; cbn [length] in H2; lia).
    rewrite app_length, L. replace (8 <=? 8 + length b)%nat with true by lia. rewrite firstn_app, skipn_app, H2, L, Nat.sub_diag. cbn [firstn skipn app]. rewrite app_nil_r. reflexivity. }
  destruct (w =? 2)%N.
  { destruct (read_varint r) as [v k r'| |] eqn:E; try discriminate. destruct (v <=? N.of_nat (length r'))%N eqn:L; [|discriminate]. destruct (skipn (N.to_nat v) r') as [|q0 q1] eqn:H2; [|discriminate]. intros H. injection H as H. rewrite <- H.
    rewrite (read_varint_app _ _ _ _ b E). apply N.leb_le in L.
    assert (L2 : length r' = N.to_nat v) by (apply (f_equal (@length N)) in H2; rewrite skipn_length in H2; cbn [length] in H2; lia).
    rewrite app_length. replace (v <=? _)%N with true by lia. rewrite firstn_app, skipn_app, H2, L2, Nat.sub_diag. cbn [firstn skipn app]. rewrite app_nil_r. reflexivity. }
  destruct (w =? 5)%N; [|discriminate].
  destruct (4 <=? length r)%nat eqn:E; [|discriminate]. destruct (skipn 4 r) as [|q0 q1] eqn:H2; [|discriminate]. intros H. apply Nat.leb_le in E. injection H as H. rewrite <- H.
  assert (L : length r = 4%nat) by (apply (f_equal (@length N)) in H2; rewrite skipn_length in H2; cbn [length] in H2; lia).
  rewrite app_length, L. replace (4 <=? 4 + length b)%nat with true by lia. rewrite firstn_app, skipn_app, H2, L, Nat.sub_diag. cbn [firstn skipn app]. rewrite app_nil_r. reflexivity.
Qed.

Section Steps.
Variable sch : schema.
Notation mg := (mg sch).
Notation pl := (pl sch).
Variable fs : list sfld.

Definition step (xs : list val) (c : list N) : option (list val) :=
  match read_varint c with
  | VOk tag _ r =>
    match read_payload (tag mod 8) r with
    | Some (p, _) =>
      match find_field 0 fs (tag / 8) with
      | None => Some xs
      | Some (i, f) =>
        if negb (wire_fty f =? tag mod 8)%N then None
        else match nth_error xs i with
             | None => None
             | Some y => match put sch mg f p y with MOk y => Some (replace xs i y) | _ => None end
             end
      end
    | None => None
    end
  | _ => None
  end.
Fixpoint steps (xs : list val) (l : list (list N)) : option (list val) :=
  match l with [] => Some xs | c :: l => match step xs c with Some xs => steps xs l | None => None end end.

Lemma record_read c n : record_of c = Some n -> exists tag k r p, read_varint c = VOk tag k r /\ read_payload (tag mod 8) r = Some (p, []) /\ n = (tag / 8)%N /\
  (length r < length c)%nat /\ (inner p <= length r)%nat.
Proof.
  unfold record_of. destruct (read_varint c) as [tag k r| |] eqn:E; try discriminate. destruct (read_payload (tag mod 8) r) as [[p [|? ?]]|] eqn:Ep; try discriminate.
  intros H. inversion H; subst. exists tag, k, r, p. repeat (split; [reflexivity || assumption|]). split.
  - apply read_varint_ok in E. destruct E as (_ & _ & <- & ? & ?). rewrite skipn_length. lia.
  - apply (read_payload_inner _ _ _ _ Ep).
Qed.
Lemma mg_step c n xs b zs : record_of c = Some n ->
  (mg fs xs (c ++ b) = MOk zs <-> exists ys, step xs c = Some ys /\ mg fs ys b = MOk zs).
Proof.
  intros Hc. destruct (record_read _ _ Hc) as (tag & k & r & p & E1 & E2 & _ & L1 & L2). unfold MsgRound.mg at 1, step. rewrite E1, E2.
  cbn [SpecMsg.merge]. destruct (c ++ b) as [|c0 b0] eqn:Eb; [destruct c; [discriminate E1|discriminate Eb]|]. rewrite <- Eb. clear Eb c0 b0.
  rewrite (read_varint_app _ _ _ _ b E1), (read_payload_app _ _ _ b E2). rewrite app_length.
  destruct (find_field 0 fs (tag / 8)) as [[i f]|].
  2:{ replace (SpecMsg.merge sch (length c + length b) fs xs b) with (mg fs xs b) by (apply merge_fuel; lia). split; [eauto|]. intros (ys & H & ?). inversion H; subst. assumption. }
  destruct (negb _); [split; [discriminate|intros (ys & H & _); discriminate]|].
  destruct (nth_error xs i) as [y|]; [|split; [discriminate|intros (ys & H & _); discriminate]].
  rewrite (put_ext sch f p y (SpecMsg.merge sch (length c + length b)) mg) by (intros fs' xs' b' Hb'; unfold MsgRound.mg; apply merge_fuel; lia).
  destruct (put sch mg f p y) as [z| |]; try (split; [discriminate|intros (ys & H & _); discriminate]).
  replace (SpecMsg.merge sch (length c + length b) fs (replace xs i z) b) with (mg fs (replace xs i z) b) by (apply merge_fuel; lia).
  split; [eauto|]. intros (ys & H & ?). inversion H; subst. assumption.
Qed.
Lemma mg_steps l : records_only l -> forall xs zs, mg fs xs (concat l) = MOk zs <-> steps xs l = Some zs.
Proof.
  induction 1 as [|c l Hc _ IH]; intros xs zs; cbn [concat steps].
  - cbn. split; intros H; inversion H; reflexivity.
  - destruct (record_of c) as [n|] eqn:E; [|contradiction]. rewrite (mg_step c n xs (concat l) zs E). destruct (step xs c) as [ys|].
    + rewrite <- IH. split; [intros (ys' & H & ?); inversion H; subst; assumption|intros H; exists ys; split; [reflexivity|exact H]].
    + split; [intros (ys' & H & _); discriminate|discriminate].
Qed.
Lemma pl_record c n b : record_of c = Some n -> pl fs (c ++ b) = pl fs c && pl fs b.
Proof.
  intros Hc. destruct (record_read _ _ Hc) as (tag & k & r & p & E1 & E2 & _ & L1 & L2). unfold MsgRound.pl at 1 2.
  cbn [SpecMsg.plain]. destruct (c ++ b) as [|c0 b0] eqn:Eb; [destruct c; [discriminate E1|discriminate Eb]|]. rewrite <- Eb. clear Eb c0 b0.
  rewrite (read_varint_app _ _ _ _ b E1), (read_payload_app _ _ _ b E2), E1, E2. destruct c as [|c0 c1] eqn:Ec; [discriminate E1|]. rewrite <- Ec in *. clear c0 c1 Ec.
  rewrite !app_length. replace (SpecMsg.plain sch (length c + length b) fs b) with (pl fs b) by (apply plain_fuel; lia).
  replace (SpecMsg.plain sch (length c) fs []) with true by (destruct (length c); reflexivity). rewrite andb_true_r. f_equal.
  destruct (find_field 0 fs (tag / 8)) as [[i f]|]; [|reflexivity]. f_equal. replace (length r + length b - length b)%nat with (length r - length (@nil N))%nat by (cbn [length]; lia).
  apply plain_put_ext. intros fs' b' Hb'. apply plain_fuel; lia.
Qed.
Lemma pl_records l : records_only l -> pl fs (concat l) = forallb (pl fs) l.
Proof.
  induction 1 as [|c l Hc _ IH]; [reflexivity|]. cbn [concat forallb]. destruct (record_of c) as [n|] eqn:E; [|contradiction].
  rewrite (pl_record c n _ E), IH. reflexivity.
Qed.

(** ** Exchange *)
Lemma find_different n n' i j f f' : n <> n' -> find_field 0 fs n = Some (i, f) -> find_field 0 fs n' = Some (j, f') -> i <> j.
Proof.
  intros Hn. assert (G : forall l k, find_field k l n = Some (i, f) -> find_field k l n' = Some (j, f') -> i <> j).
  { induction l as [|[t|m g] l IH]; intros k H H'; cbn [find_field] in *; try discriminate; [eauto|].
    assert (F : forall a x g', find_field (S k) l a = Some (x, g') -> (k < x)%nat).
    { clear. intros a x g'. assert (Q : forall l k, find_field k l a = Some (x, g') -> (k <= x)%nat).
      { induction l0 as [|[t|m g] l0 IH]; intros k0 H; cbn [find_field] in H; try discriminate; [apply IH in H; lia|].
        destruct (m =? a)%N; [inversion H; lia|apply IH in H; lia]. }
      intros H. apply Q in H. lia. }
    destruct (N.eqb_spec m n), (N.eqb_spec m n'); subst; try contradiction; try (inversion H; subst); try (inversion H'; subst).
    - apply F in H'. lia.
    - apply F in H. lia.
    - eapply IH; eassumption. }
  apply G.
Qed.
Lemma nth_replace_ne {A} (l : list A) i j x : i <> j -> nth_error (replace l i x) j = nth_error l j.
Proof. revert i j. induction l as [|y l IH]; intros [|i] [|j] H; cbn; try reflexivity; [contradiction|]. apply IH. lia. Qed.
Lemma replace_swap {A} (l : list A) i j x y : i <> j -> replace (replace l i x) j y = replace (replace l j y) i x.
Proof. revert i j. induction l as [|z l IH]; intros [|i] [|j] H; cbn; try reflexivity; [contradiction|]. f_equal. apply IH. lia. Qed.
Lemma step_swap c d n n' xs : record_of c = Some n -> record_of d = Some n' -> n <> n' ->
  match step xs c with Some ys => step ys d | None => None end = match step xs d with Some ys => step ys c | None => None end.
Proof.
  intros Hc Hd Hn. destruct (record_read _ _ Hc) as (tag & k & r & p & E1 & E2 & -> & _). destruct (record_read _ _ Hd) as (tag' & k' & r' & p' & E1' & E2' & -> & _).
  unfold step. rewrite E1, E2, E1', E2'. destruct (find_field 0 fs (tag / 8)) as [[i f]|] eqn:F; destruct (find_field 0 fs (tag' / 8)) as [[j g]|] eqn:G; try reflexivity.
  - pose proof (find_different _ _ _ _ _ _ Hn F G) as Hij.
    destruct (negb (wire_fty f =? tag mod 8)%N); destruct (negb (wire_fty g =? tag' mod 8)%N); try reflexivity.
    + destruct (nth_error xs j) as [z|]; [|reflexivity]. destruct (put sch mg g p' z); reflexivity.
    + destruct (nth_error xs i) as [y|]; [|reflexivity]. destruct (put sch mg f p y); reflexivity.
    + destruct (nth_error xs i) as [y|] eqn:Ny; destruct (nth_error xs j) as [z|] eqn:Nz; try reflexivity.
      * destruct (put sch mg f p y) as [y'| |] eqn:Py; destruct (put sch mg g p' z) as [z'| |] eqn:Pz; try reflexivity;
          rewrite ?nth_replace_ne by auto; rewrite ?Ny, ?Nz, ?Py, ?Pz; try reflexivity.
        f_equal. apply replace_swap. exact Hij.
      * destruct (put sch mg f p y) as [y'| |] eqn:Py; try reflexivity. rewrite nth_replace_ne, Nz by auto. reflexivity.
      * destruct (put sch mg g p' z) as [z'| |] eqn:Pz; try reflexivity. rewrite nth_replace_ne, Ny by auto. reflexivity.
  - destruct (negb (wire_fty f =? tag mod 8)%N); [reflexivity|]. destruct (nth_error xs i) as [y|]; [|reflexivity]. destruct (put sch mg f p y); reflexivity.
  - destruct (negb (wire_fty g =? tag' mod 8)%N); [reflexivity|]. destruct (nth_error xs j) as [y|]; [|reflexivity]. destruct (put sch mg g p' y); reflexivity.
Qed.
Lemma steps_front c n a : record_of c = Some n -> records_only a -> filter (of_field n) a = [] -> forall b xs, steps xs (a ++ c :: b) = steps xs (c :: a ++ b).
Proof.
  intros Hc. induction 1 as [|d a Hd _ IH]; intros Hf b xs; [reflexivity|]. cbn [filter] in Hf. destruct (of_field n d) eqn:Fd; [discriminate|].
  cbn [app]. change (steps xs (d :: a ++ c :: b)) with (match step xs d with Some xs => steps xs (a ++ c :: b) | None => None end).
  change (steps xs (c :: d :: a ++ b)) with (match step xs c with Some xs => match step xs d with Some xs => steps xs (a ++ b) | None => None end | None => None end).
  unfold of_field in Fd. destruct (record_of d) as [n'|] eqn:Ed; [|contradiction]. apply N.eqb_neq in Fd.
  pose proof (step_swap c d n n' xs Hc Ed (not_eq_sym Fd)) as S.
  destruct (step xs d) as [ys|].
  - rewrite (IH Hf). cbn [steps]. destruct (step xs c) as [zs|]; rewrite <- S; [reflexivity|]. reflexivity.
  - destruct (step xs c) as [zs|]; [rewrite S|]; reflexivity.
Qed.
Lemma first_of n c l rest : filter (of_field n) l = c :: rest -> exists a b, l = a ++ c :: b /\ filter (of_field n) a = [] /\ filter (of_field n) b = rest /\ of_field n c = true.
Proof.
  induction l as [|d l IH]; [discriminate|]. cbn [filter]. destruct (of_field n d) eqn:E; intros H.
  - inversion H; subst. exists [], l. auto.
  - destruct (IH H) as (a & b & -> & H1 & H2 & H3). exists (d :: a), b. cbn [filter app]. rewrite E. auto.
Qed.
Lemma steps_order l : records_only l -> forall l', records_only l' -> same_order l l' -> forall xs, steps xs l = steps xs l'.
Proof.
  induction 1 as [|c l Hc Hl IH]; intros l' Hl' Ho xs.
  - destruct l' as [|d l']; [reflexivity|]. inversion Hl'; subst. destruct (record_of d) as [n|] eqn:E; [|contradiction].
    specialize (Ho n). cbn [filter] in Ho. unfold of_field at 1 in Ho. rewrite E, N.eqb_refl in Ho. discriminate.
  - destruct (record_of c) as [n|] eqn:E; [|contradiction]. pose proof (Ho n) as Hn. cbn [filter] in Hn.
    assert (Oc : of_field n c = true) by (unfold of_field; rewrite E; apply N.eqb_refl). rewrite Oc in Hn. symmetry in Hn.
    destruct (first_of _ _ _ _ Hn) as (a & b & -> & Fa & Fb & _). unfold records_only in Hl'. apply Forall_app in Hl'. destruct Hl' as [Ha Hb]. inversion Hb; subst.
    rewrite (steps_front c n a E Ha Fa b xs). cbn [steps]. destruct (step xs c) as [ys|]; [|reflexivity]. apply IH; [apply Forall_app; auto|].
    intros n'. specialize (Ho n'). rewrite filter_app in *. cbn [filter] in Ho. destruct (of_field n' c) eqn:En; [|exact Ho].
    assert (n' = n) by (unfold of_field in En; rewrite E in En; apply N.eqb_eq in En; auto). subst n'. rewrite Fa in *. cbn [app] in *. inversion Ho. reflexivity.
Qed.
Lemma order_forallb (f : list N -> bool) l : records_only l -> forall l', records_only l' -> same_order l l' -> forallb f l = true -> forallb f l' = true.
Proof.
  intros Hl l' Hl' Ho Hf. rewrite forallb_forall in *. intros c Hc. unfold records_only in Hl'. rewrite Forall_forall in Hl'. specialize (Hl' c Hc).
  destruct (record_of c) as [n|] eqn:E; [|contradiction]. apply Hf.
  assert (I : In c (filter (of_field n) l')) by (apply filter_In; split; [exact Hc|unfold of_field; rewrite E; apply N.eqb_refl]).
  rewrite <- (Ho n) in I. apply filter_In in I. apply I.
Qed.
End Steps.

Lemma order_length l : records_only l -> forall l', records_only l' -> same_order l l' -> length (concat l) = length (concat l').
Proof.
  induction 1 as [|c l Hc Hl IH]; intros l' Hl' Ho.
  - destruct l' as [|d l']; [reflexivity|]. inversion Hl'; subst. destruct (record_of d) as [n|] eqn:E; [|contradiction].
    specialize (Ho n). cbn [filter] in Ho. unfold of_field at 1 in Ho. rewrite E, N.eqb_refl in Ho. discriminate.
  - destruct (record_of c) as [n|] eqn:E; [|contradiction]. pose proof (Ho n) as Hn. cbn [filter] in Hn.
    assert (Oc : of_field n c = true) by (unfold of_field; rewrite E; apply N.eqb_refl). rewrite Oc in Hn. symmetry in Hn.
    destruct (first_of _ _ _ _ Hn) as (a & b & -> & Fa & Fb & _). unfold records_only in Hl'. apply Forall_app in Hl'. destruct Hl' as [Ha Hb]. inversion Hb; subst.
    assert (L : length (concat l) = length (concat (a ++ b))).
    { apply IH; [apply Forall_app; auto|].
      intros n'. specialize (Ho n'). rewrite filter_app in *. cbn [filter] in Ho. destruct (of_field n' c) eqn:En; [|exact Ho].
      assert (n' = n) by (unfold of_field in En; rewrite E in En; apply N.eqb_eq in En; auto). subst n'. rewrite Fa in *. cbn [app] in *. inversion Ho. reflexivity. }
    rewrite concat_app in L |- *. cbn [concat]. rewrite !app_length in *. lia.
Qed.
Lemma concat_ok l : bytes_okb (concat l) = forallb bytes_okb l.
Proof. induction l as [|c l IH]; [reflexivity|]. cbn [concat forallb]. rewrite bytes_okb_app, IH. reflexivity. Qed.


(** ** At any depth *)
Definition alike (sch : schema) (fs : list sfld) (b b' : list N) : Prop :=
  length b = length b' /\ bytes_okb b = bytes_okb b' /\ MsgRound.pl sch fs b = MsgRound.pl sch fs b' /\
  forall xs zs, MsgRound.mg sch fs xs b = MOk zs <-> MsgRound.mg sch fs xs b' = MOk zs.
Lemma order_alike sch fs l l' : records_only l -> records_only l' -> same_order l l' -> alike sch fs (concat l) (concat l').
Proof.
  intros Hl Hl' Ho. assert (Ho' : same_order l' l) by (intros n; symmetry; apply Ho).
  assert (B : forall f : list N -> bool, forallb f l = forallb f l').
  { intros f. pose proof (order_forallb f l Hl l' Hl' Ho). pose proof (order_forallb f l' Hl' l Hl Ho'). destruct (forallb f l), (forallb f l'); auto; symmetry; auto. }
  split; [apply order_length; assumption|]. split; [rewrite !concat_ok; apply B|]. split; [rewrite !pl_records by assumption; apply B|].
  intros xs zs. rewrite !mg_steps by assumption. rewrite (steps_order sch fs l Hl l' Hl' Ho xs). reflexivity.
Qed.
Lemma find_in n f fs : nodup_N (numbers fs) = true -> In (Field n f) fs -> exists i, find_field 0 fs n = Some (i, f).
Proof.
  intros Hd Hin. assert (G : forall k, exists i, find_field k fs n = Some (i, f)); [|apply G].
  induction fs as [|[t|n' f'] fs IH]; intros k; [destruct Hin| |].
  - destruct Hin as [Hin|Hin]; [discriminate|]. apply IH; assumption.
  - cbn [numbers nodup_N] in Hd. apply andb_true_iff in Hd. destruct Hd as [H1 H2]. cbn [find_field]. destruct (N.eqb_spec n' n) as [->|Hn].
    + destruct Hin as [Hin|Hin]; [inversion Hin; eauto|]. exfalso. apply negb_true_iff in H1. assert (existsb (N.eqb n) (numbers fs) = true); [|congruence].
      apply existsb_exists. exists n. split; [|apply N.eqb_refl]. clear - Hin. induction fs as [|[t|m g] fs IH]; [destruct Hin| |]; destruct Hin as [Hin|Hin]; try discriminate; cbn [numbers]; auto.
      * inversion Hin. left. reflexivity.
      * right. auto.
    + destruct Hin as [Hin|Hin]; [inversion Hin; contradiction|]. apply IH; assumption.
Qed.
Lemma head_record n h b : head_of n h (length b) -> exists k r, read_varint (h ++ b) = VOk (8 * n + 2) k (r ++ b) /\ (length r < length h)%nat /\
  read_payload 2 (r ++ b) = Some (PLen b, []).
Proof.
  intros (k & r & k' & H1 & H2). exists k, r. split; [apply read_varint_app; exact H1|].
  split; [apply read_varint_ok in H1; destruct H1 as (_ & _ & <- & ? & ?); rewrite skipn_length; lia|].
  change (read_payload 2 (r ++ b)) with (match read_varint (r ++ b) with
    | VOk l _ r => if (l <=? N.of_nat (length r))%N then Some (PLen (firstn (N.to_nat l) r), skipn (N.to_nat l) r) else None | _ => None end).
  rewrite (read_varint_app _ _ _ _ b H2). cbn [app]. rewrite N.leb_refl, Nat2N.id, firstn_all, skipn_all. reflexivity.
Qed.
Lemma sub_alike sch fs n f l h b b' r : nodup_N (numbers fs) = true -> records_only l -> In (Field n f) fs -> wire_fty f = 2%N -> head_of n h (length b) ->
  (forall y z, put sch (MsgRound.mg sch) f (PLen b) y = MOk z <-> put sch (MsgRound.mg sch) f (PLen b') y = MOk z) ->
  (forall k, plain_put sch (MsgRound.pl sch) f (PLen b) k = plain_put sch (MsgRound.pl sch) f (PLen b') k) ->
  length b = length b' -> bytes_okb b = bytes_okb b' -> alike sch fs (concat l ++ h ++ b ++ r) (concat l ++ h ++ b' ++ r).
Proof.
  intros Hnd Hl Hin Hwf Hh Hput Hpl Hlen Hbo. destruct (find_in n f fs Hnd Hin) as [i Hi].
  assert (Hh' : head_of n h (length b')) by (rewrite <- Hlen; exact Hh).
  destruct (head_record n h b Hh) as (k & q & A1 & A2 & A3). destruct (head_record n h b' Hh') as (k' & q' & B1 & B2 & B3).
  assert (M : ((8 * n + 2) mod 8 = 2 /\ (8 * n + 2) / 8 = n)%N) by lia. destruct M as [M1 M2].
  assert (Q : length (q ++ b) = length (q' ++ b')).
  { pose proof Hh as (k1 & r1 & k2 & R1 & R2). pose proof (read_varint_app _ _ _ _ b R1) as R3. rewrite A1 in R3. pose proof (read_varint_app _ _ _ _ b' R1) as R4. rewrite B1 in R4.
    assert (E1 : q ++ b = r1 ++ b) by congruence. assert (E2 : q' ++ b' = r1 ++ b') by congruence. rewrite E1, E2, !app_length. lia. }
  assert (R : record_of (h ++ b) = Some n) by (unfold record_of; rewrite A1, M1, A3, M2; reflexivity).
  assert (R' : record_of (h ++ b') = Some n) by (unfold record_of; rewrite B1, M1, B3, M2; reflexivity).
  split; [rewrite !app_length; lia|]. split; [rewrite !bytes_okb_app, Hbo; reflexivity|]. rewrite !(app_assoc h).
  assert (P1 : forall t, MsgRound.pl sch fs (concat l ++ t) = forallb (MsgRound.pl sch fs) l && MsgRound.pl sch fs t).
  { intros t. induction Hl as [|c l Hc _ IH]; [reflexivity|]. cbn [concat forallb]. destruct (record_of c) as [nc|] eqn:E; [|contradiction].
    rewrite <- app_assoc, (pl_record sch fs c nc _ E), IH, andb_assoc. reflexivity. }
  assert (P2 : forall t xs zs, MsgRound.mg sch fs xs (concat l ++ t) = MOk zs <-> exists ys, steps sch fs xs l = Some ys /\ MsgRound.mg sch fs ys t = MOk zs).
  { clear P1. intros t. induction Hl as [|c l Hc _ IH]; intros xs zs; cbn [concat steps].
    - split; [intros H; exists xs; split; [reflexivity|exact H]|]. intros (ys & H & ?). inversion H; subst. assumption.
    - destruct (record_of c) as [nc|] eqn:E; [|contradiction]. rewrite <- app_assoc, (mg_step sch fs c nc xs _ zs E). destruct (step sch fs xs c) as [ys|].
      + rewrite <- IH. split; [intros (ys' & H & ?); inversion H; subst; assumption|intros H; exists ys; split; [reflexivity|exact H]].
      + split; [intros (ys' & H & _); discriminate|intros (ys' & H & _); discriminate]. }
  split.
  - rewrite !P1. f_equal. rewrite (pl_record sch fs _ n r R), (pl_record sch fs _ n r R'). f_equal.
    unfold MsgRound.pl. cbn [SpecMsg.plain].
    destruct (h ++ b) as [|c0 c1] eqn:Eb; [discriminate A1|]. rewrite <- Eb in *. clear c0 c1 Eb. destruct (h ++ b') as [|c0 c1] eqn:Eb; [discriminate B1|]. rewrite <- Eb in *. clear c0 c1 Eb.
    rewrite A1, B1, M1, M2, A3, B3, Hi, Hwf. cbn [N.eqb Pos.eqb negb orb].
    replace (SpecMsg.plain sch (length (h ++ b)) fs []) with true by (destruct (length (h ++ b)); reflexivity).
    replace (SpecMsg.plain sch (length (h ++ b')) fs []) with true by (destruct (length (h ++ b')); reflexivity). rewrite !andb_true_r.
    rewrite (plain_put_ext sch f (PLen b) _ (SpecMsg.plain sch (length (h ++ b))) (MsgRound.pl sch)) by (intros g t Ht; apply plain_fuel; cbn [inner] in Ht; rewrite ?app_length in *; lia).
    rewrite (plain_put_ext sch f (PLen b') _ (SpecMsg.plain sch (length (h ++ b'))) (MsgRound.pl sch)) by (intros g t Ht; apply plain_fuel; cbn [inner] in Ht; rewrite ?app_length in *; lia).
    rewrite Q. apply Hpl.
  - intros xs zs. rewrite !P2. assert (S : forall ys t zs, MsgRound.mg sch fs ys ((h ++ b) ++ t) = MOk zs <-> MsgRound.mg sch fs ys ((h ++ b') ++ t) = MOk zs).
    { intros ys t zs'. rewrite (mg_step sch fs _ n ys t zs' R), (mg_step sch fs _ n ys t zs' R'). unfold step. rewrite A1, B1, M1, M2, A3, B3, Hi, Hwf. cbn [N.eqb Pos.eqb negb].
      destruct (nth_error ys i) as [y|]; [|reflexivity]. specialize (Hput y).
      destruct (put sch (MsgRound.mg sch) f (PLen b) y) as [z| |]; destruct (put sch (MsgRound.mg sch) f (PLen b') y) as [z'| |]; try reflexivity;
        try (discriminate (proj1 (Hput z) eq_refl)); try (discriminate (proj2 (Hput z') eq_refl)).
      assert (E : z = z') by (pose proof (proj1 (Hput z) eq_refl); congruence). rewrite E. reflexivity. }
    split; intros (ys & H1 & H2); exists ys; (split; [exact H1|]); apply S; exact H2.
Qed.
Lemma mmap_same {A B} (g : A -> B) (a a' : mres A) : (forall z, a = MOk z <-> a' = MOk z) -> forall z, mmap g a = MOk z <-> mmap g a' = MOk z.
Proof.
  intros H z. destruct a as [x| |]; destruct a' as [x'| |]; cbn [mmap]; try reflexivity; try (split; discriminate);
    try (discriminate (proj1 (H _) eq_refl)); try (discriminate (proj2 (H _) eq_refl)).
  assert (E : x = x') by (pose proof (proj1 (H x) eq_refl); congruence). rewrite E. reflexivity.
Qed.
Lemma arranged_alike sch : schema_ok sch = true -> forall fs b b', arranged sch fs b b' -> nodup_N (numbers fs) = true -> alike sch fs b b'.
Proof.
  intros HS fs b b' H. induction H as [fs l l' H1 H2 H3|fs n f sub l h b b' r Hl Hin Hf Hh _ IH|fs n k e l h b b' r Hl Hin Hh _ IH|fs a b c _ IH1 _ IH2]; intros Hnd.
  - apply order_alike; assumption.
  - destruct (schema_ok_msg sch HS sub) as (_ & Hs & _). destruct (IH Hs) as (L & B & P & M).
    destruct Hf as [->| ->]; eapply sub_alike; try eassumption; try reflexivity; try (intros; cbn [plain_put]; exact P);
      intros y z; cbn [put]; repeat apply mmap_same; apply M.
  - destruct (IH eq_refl) as (L & B & P & M). eapply sub_alike; try eassumption; try reflexivity; try (intros; cbn [plain_put]; exact P).
    intros y z. cbn [put]. apply mmap_same. apply M.
  - destruct (IH1 Hnd) as (L1 & B1 & P1 & M1). destruct (IH2 Hnd) as (L2 & B2 & P2 & M2). split; [congruence|]. split; [congruence|]. split; [congruence|].
    intros xs zs. rewrite M1. apply M2.
Qed.

Theorem order_proof D sch : covers D sch = true -> forall s s' m xs b b', reachable D s -> reachable D s' ->
  wts D (VStruct xs) (SNamed m) = true -> forallb fresh xs = true -> forallb tidy xs = true ->
  arranged sch (msg sch m) b b' -> bytes_okb b = true -> zlen b < 2^63 -> plain sch (S (length b)) (msg sch m) b = true ->
  (exists ys ys', fst (Unmarshal D b (ptr m xs) s) = Returns (ptr m ys, None) /\
    fst (Unmarshal D b' (ptr m xs) s') = Returns (ptr m ys', None) /\ map shown ys = map shown ys') \/
  (exists x e x' e', fst (Unmarshal D b (ptr m xs) s) = Returns (x, Some e) /\
    fst (Unmarshal D b' (ptr m xs) s') = Returns (x', Some e')).
Proof.
  intros HV s s' m xs b b' Hr Hr' Hw Hf Ht Ha Hb Hs Hp.
  destruct (covers_facts _ _ HV) as (_ & HS & _ & _). destruct (schema_ok_msg sch HS m) as (_ & Hnd & _).
  destruct (arranged_alike sch HS _ _ _ Ha Hnd) as (Hlen & Hb2 & Hp2 & M).
  assert (Hb' : bytes_okb b' = true) by congruence.
  assert (Hs' : zlen b' < 2^63) by (unfold zlen in *; rewrite <- Hlen; exact Hs).
  assert (Hp' : plain sch (S (length b')) (msg sch m) b' = true) by (unfold MsgRound.pl in Hp2; congruence).
  pose proof (unmarshal_exact_proof D sch HV s m xs xs b Hr Hw Hf Ht eq_refl Hb Hs Hp) as U.
  pose proof (unmarshal_exact_proof D sch HV s' m xs xs b' Hr' Hw Hf Ht eq_refl Hb' Hs' Hp') as U'.
  fold (MsgRound.mg sch (msg sch m) xs b) in U. fold (MsgRound.mg sch (msg sch m) xs b') in U'. specialize (M xs).
  destruct (MsgRound.mg sch (msg sch m) xs b) as [zs| |]; [| |contradiction].
  - rewrite (proj1 (M zs) eq_refl) in U'.
    destruct U as (ys & U & N & _). destruct U' as (ys' & U' & N' & _). left. exists ys, ys'. split; [exact U|]. split; [exact U'|congruence].
  - right. destruct (MsgRound.mg sch (msg sch m) xs b') as [zs'| |]; [discriminate (proj2 (M zs') eq_refl)| |contradiction].
    destruct U as (x & e & U). destruct U' as (x' & e' & U'). eauto 8.
Qed.

Theorem rearranged_proof D sch D' sch' : covers D sch = true -> covers D' sch' = true -> understood sch sch' ->
  forall s s' m xs, reachable D s -> reachable D' s' -> (m < length D')%nat -> wts D (VStruct xs) (SNamed m) = true ->
  encodable_msg sch xs (msg sch m) = true -> zlen (ser (message sch xs (msg sch m))) < 2^63 ->
  exists b, fst (Marshal D (ptr m xs) s) = Returns (Some b, None) /\ forall b', arranged sch' (msg sch' m) b b' ->
    exists ys, fst (Unmarshal D' b' (ptr m (zeros (msg sch' m))) s') = Returns (ptr m ys, None) /\
      map shown ys = map norm (translate_msg sch sch' xs (msg sch m) (msg sch' m)).
Proof.
  intros HV HV' HU s s' m xs Hr Hr' Hm Hw He Hsm.
  destruct (versions_proof D sch D' sch' HV HV' HU s s' m xs Hr Hr' Hm Hw He Hsm) as (b & ys & M & U & N & _).
  exists b. split; [exact M|]. intros b' Ha.
  destruct (covers_facts _ _ HV) as (HI & HS & HC & _). destruct (covers_facts _ _ HV') as (_ & HS' & HC' & _).
  pose proof (wts_msg _ _ _ Hw) as [Hk Hw'].
  assert (Hk' : user_key D' (SNamed m) = true) by (apply Nat.ltb_lt; exact Hm).
  destruct (marshal_spec D sch HV s m xs Hr Hw He Hsm) as [_ M2]. rewrite M2 in M. inversion M; subst b. clear M.
  destruct (merge_versions sch sch' D HI HS HC HS' HC' HU m xs Hw' He Hsm) as (zs & G & _ & P & B).
  destruct (order_proof D' sch' HV' s' s' m (zeros (msg sch' m)) _ b' Hr' Hr' (zeros_wts D' sch' HV' m Hk') (zeros_fresh _) (zeros_tidy _) Ha B Hsm P)
    as [(y1 & y2 & U1 & U2 & E)|(x & e & x' & e' & U1 & _)].
  - exists y2. split; [exact U2|]. rewrite <- E. rewrite U1 in U. inversion U; subst. exact N.
  - rewrite U1 in U. discriminate U.
Qed.
