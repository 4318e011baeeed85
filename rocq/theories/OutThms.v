(** Consequences: the difference between Size and what is written, and the
    messages that are written as they should be. *)
From Coq Require Import ZifyBool ZifyNat ZifyN String.
From Verif Require Import Base Wire GoType Leaf Codec Tag Walker Api Resolve Typing SpecWire SpecTag SpecMsg SpecProto SpecOut
  WireFacts DecodeFacts TypingFacts CodecSim EncFacts TagFacts WalkSeq MsgResolve MsgEnc MsgFit MsgApi ProtoGen ProtoFacts ProtoFit OutFacts.
Local Open Scope Z_scope.
Ltac Zify.zify_post_hook ::= Z.div_mod_to_equations.

(** [t] is [d] bytes longer than announced. *)
Definition off (o : out) (d : Z) : Prop := match snd o with Some t => zlen t = Z.of_N (fst o) + d | None => True end.
Lemma off_just b : off (just b) 0.
Proof. unfold off. cbn. unfold zlen. lia. Qed.
Lemma off_join a b d e : off a d -> off b e -> off (join a b) (d + e).
Proof. unfold off. cbn [join fst snd]. destruct (snd a), (snd b); auto. rewrite zlen_app. lia. Qed.
Lemma off_joined {A} (l : list A) o d : Forall (fun x => off (o x) (d x)) l -> off (joined (map o l)) (total (map d l)).
Proof. induction 1 as [|x l H _ IH]; [apply off_just|]. unfold joined, total in *. cbn [map fold_right]. apply off_join; assumption. Qed.
Lemma off_eq o d e : off o d -> d = e -> off o e.
Proof. intros H <-. exact H. Qed.

Section Skew.
Variable sch : schema.
Notation output := (output sch).
Notation skew := (skew sch).
Definition skew_ok (v : val) : Prop := forall n f, off (output v n f) (skew v n f).

Lemma skew_fields xs : Forall skew_ok xs -> forall fs, off (output_msg sch xs fs) (skew_msg sch xs fs).
Proof.
  induction 1 as [|x xs H _ IH]; intros [|[t|n f] fs]; cbn [output_msg skew_msg]; try apply off_just; [apply IH|].
  apply off_join; [apply H|apply IH].
Qed.
Lemma skew_spec : forall v, skew_ok v.
Proof.
  induction v as [v IH] using val_ind2. intros n f.
  destruct f as [s|s|s|s| |m|e|k e].
  - destruct v; cbn [SpecOut.output SpecOut.skew]; try apply off_just; destruct (is_zero _); apply off_just.
  - destruct v; cbn [SpecOut.output SpecOut.skew]; try apply off_just; destruct some; apply off_just.
  - destruct v; try apply off_just.
  - destruct v; apply off_just.
  - destruct v as [| | | | | | | |[]| | | | | |]; apply off_just.
  - destruct v as [| | | | | | | | | | | |[[]|]| |]; try apply off_just. destruct IH as [_ IH].
    change (off (join (just (header n (fst (output_msg sch fs (msg sch m))))) (output_msg sch fs (msg sch m))) (skew_msg sch fs (msg sch m))).
    eapply off_eq; [apply off_join; [apply off_just|apply skew_fields; exact IH]|]. lia.
  - destruct v; try apply off_just. destruct IH as [IH _].
    cbn [SpecOut.output SpecOut.skew]. apply off_joined. eapply Forall_impl; [|exact IH]. intros x H. apply H.
  - destruct v as [| | | | | | | | | | |[[|kv l]|]| | |]; try apply off_just.
    remember (kv :: l) as l' eqn:E.
    assert (A : output (VMap (Some l')) n (FMap k e) = joined (map (fun kv => match kv with (a, x) => entry n k x (output a 1 (FAlways k)) (output x 2 e) end) l')) by (rewrite E; reflexivity).
    assert (B : skew (VMap (Some l')) n (FMap k e) = total (map (fun kv => match kv with (a, x) => entry_skew n k x (output a 1 (FAlways k)) (output x 2 e) + skew x 2 e end) l')) by reflexivity.
    rewrite A, B. clear A B E. apply off_joined. eapply Forall_impl; [|exact IH]. intros [a x] [Ha Hx]. cbn [fst snd] in *.
    specialize (Ha 1%N (FAlways k)). specialize (Hx 2%N e). assert (Ea : skew a 1 (FAlways k) = 0) by (destruct a; reflexivity). rewrite Ea in Ha.
    revert Ha Hx. unfold off, entry, entry_skew. generalize (output a 1 (FAlways k)) as oa, (output x 2 e) as ox. intros oa ox Ha Hx.
    cbn [fst snd join just]. destruct (length_as_key k x) as [lk|]; [|exact Logic.I].
    destruct (snd oa) as [ta|]; [|exact Logic.I]. destruct (snd ox) as [tx|]; [|exact Logic.I].
    unfold header, tagged. rewrite !zlen_app, !app_length. unfold zlen at 1 2. lia.
Qed.
Lemma skew_msg_spec xs fs : off (output_msg sch xs fs) (skew_msg sch xs fs).
Proof. apply skew_fields. apply Forall_forall. intros x _. apply skew_spec. Qed.
End Skew.

(** ** Messages written as they should be *)
Section Right.
Variables (D : decls) (sch : schema).
Hypothesis HI : implements D sch = true.
Hypothesis HC : in_scope sch = true.
Hypothesis HM : all_made sch = true.
Definition good (f : fty) : bool := scope_field f && made f || scope_elem f || scope_val f.
Definition right_ok (v : val) : Prop := forall n f, wt D v (go_type f) = true -> good f = true ->
  encodable sch v f = true -> output sch v n f = just (ser (records sch v n f)).
Lemma join_just a b : join (just a) (just b) = just (a ++ b).
Proof. unfold join, just. cbn [fst snd]. rewrite app_length. f_equal. lia. Qed.
Lemma joined_just {A} (l : list A) o r : Forall (fun x => o x = just (ser (r x))) l -> joined (map o l) = just (ser (flat_map r l)).
Proof.
  induction 1 as [|x l H _ IH]; [reflexivity|]. unfold joined in *. cbn [map fold_right flat_map]. rewrite H, IH, join_just, ser_app. reflexivity.
Qed.
Lemma header_one n b : join (just (header n (fst (just b)))) (just b) = just (ser [(n, PLen b)]).
Proof.
  rewrite join_just. f_equal. rewrite ser_one. unfold ser_rec, header, tagged. cbn [fst snd wire_of ser_payload just]. rewrite <- app_assoc. reflexivity.
Qed.
Lemma good_own s : good (FImplicit s) = true -> own s = s.
Proof. destruct s; try discriminate; reflexivity. Qed.
Lemma good_opt s : good (FOptional s) = true -> own s = s.
Proof. destruct s; try discriminate; reflexivity. Qed.
Lemma good_item s : good (FAlways s) = true -> item s = s.
Proof. destruct s; try discriminate; reflexivity. Qed.
Lemma field_just n s v : not_sfixed s = true -> wt D v (TScalar (go_kind s)) = true -> field n s s v = just (ser [(n, pay s v)]).
Proof.
  intros Hs Hw. unfold field, tagged. rewrite ser_one. unfold ser_rec. cbn [fst snd]. do 4 f_equal. destruct s; try discriminate Hs; cbn [go_kind] in Hw; wtd v; reflexivity.
Qed.
Lemma own_not s : own s = s -> not_sfixed s = true.
Proof. destruct s; try discriminate; reflexivity. Qed.
Lemma item_not s : item s = s -> not_sfixed s = true.
Proof. destruct s; try discriminate; reflexivity. Qed.
Lemma made_msg m n f : In (Field n f) (msg sch m) -> good f = true.
Proof.
  intros Hin. unfold good. assert (A : scope_field f = true).
  { pose proof (scope_nth sch HC m) as H. unfold scope_msg in H. rewrite forallb_forall in H. exact (H _ Hin). }
  assert (B : made f = true).
  { unfold all_made in HM. rewrite forallb_forall in HM. apply HM. unfold fields_of. apply in_flat_map. exists (msg sch m). split.
    - unfold msg in *. destruct (nth_in_or_default m sch []) as [H|H]; [exact H|]. rewrite H in Hin. destruct Hin.
    - apply in_flat_map. exists (Field n f). split; [exact Hin|left; reflexivity]. }
  rewrite A, B. reflexivity.
Qed.
Lemma right_fields xs : Forall right_ok xs -> forall fs, (forall n f, In (Field n f) fs -> good f = true) ->
  all2 (wt D) xs (map fld_type fs) = true -> encodable_msg sch xs fs = true -> output_msg sch xs fs = just (ser (message sch xs fs)).
Proof.
  induction 1 as [|x xs H _ IH]; intros [|[t|n f] fs] Hg Hw He; try discriminate; try reflexivity; cbn [map all2 fld_type] in Hw; apply andb_true_iff in Hw; destruct Hw as [Hx Hw];
    cbn [output_msg message encodable_msg] in *.
  - apply IH; auto. intros n f Hin. apply (Hg n f). right. exact Hin.
  - apply andb_true_iff in He. destruct He as [E1 E2]. rewrite ser_app, <- join_just. rewrite (H n f Hx (Hg n f (or_introl eq_refl)) E1). f_equal.
    apply IH; auto. intros n' f' Hin. apply (Hg n' f'). right. exact Hin.
Qed.
Lemma right_spec : forall v, right_ok v.
Proof.
  induction v as [v IH] using val_ind2. intros n f Hw Hf He.
  destruct f as [s|s|s|s| |m|e|k e].
  - assert (E : output sch v n (FImplicit s) = if is_zero v then just [] else field n s (own s) v) by (destruct v; reflexivity).
    assert (R : records sch v n (FImplicit s) = if is_zero v then [] else [(n, pay s v)]) by (destruct v; reflexivity).
    rewrite E, R. destruct (is_zero v); [reflexivity|]. pose proof (good_own s Hf) as O. rewrite O. apply field_just; [apply own_not; exact O|exact Hw].
  - cbn [go_type] in Hw. wtd v. cbn [wt] in Hw. destruct some; [|reflexivity]. cbn [output records]. pose proof (good_opt s Hf) as O. rewrite O. apply field_just; [apply own_not; exact O|exact Hw].
  - unfold good in Hf. cbn in Hf. rewrite andb_false_r in Hf. discriminate Hf.
  - assert (E : output sch v n (FAlways s) = field n s (item s) v) by (destruct v; reflexivity).
    assert (R : records sch v n (FAlways s) = [(n, pay s v)]) by (destruct v; reflexivity).
    rewrite E, R. pose proof (good_item s Hf) as O. rewrite O. apply field_just; [apply item_not; exact O|exact Hw].
  - cbn [go_type] in Hw. wtd v; [|reflexivity]. cbn [output records]. rewrite ser_one. reflexivity.
  - cbn [go_type] in Hw. destruct (wt_msg _ _ _ Hw) as ([x|] & -> & Hx); [|reflexivity].
    destruct (wts_struct D x (SNamed m)) as (xs & -> & W); [discriminate|exact Hx|]. cbn [key_types] in W.
    rewrite (field_types_of D sch HI) in W. rewrite output_message, records_msg. cbv zeta. destruct IH as [_ IH].
    rewrite (right_fields xs IH (msg sch m) (made_msg m) W He). apply header_one.
  - cbn [go_type] in Hw. destruct (wt_slice _ _ _ Hw) as (nn & items & spare & -> & Hi & Hsp). destruct IH as [IH _].
    assert (Ge : good e = true) by (unfold good in *; cbn in Hf; rewrite !orb_false_r in Hf; apply andb_true_iff in Hf; destruct Hf as [Hf _]; rewrite Hf, orb_true_r; reflexivity).
    cbn [output records encodable] in *. apply joined_just. apply Forall_forall. intros x Hx. rewrite Forall_forall in IH. rewrite forallb_forall in *. apply IH; auto.
  - cbn [go_type] in Hw. destruct (wt_map _ _ _ _ Hw) as (mm & -> & Hm). clear Hw.
    assert (Ge : scope_key k = true /\ scope_val e = true) by (unfold good in *; cbn in Hf; rewrite !orb_false_r in Hf; apply andb_true_iff in Hf; destruct Hf as [Hf _]; apply andb_true_iff; exact Hf).
    destruct Ge as [Gk Ge]. assert (Gv : good e = true) by (unfold good; rewrite Ge, orb_true_r; reflexivity).
    assert (Gk' : good (FAlways k) = true) by (destruct k; try discriminate Gk; reflexivity).
    destruct mm as [[|kv l]|]; try discriminate He. destruct Hm as [Hm _]. remember (kv :: l) as l' eqn:E.
    assert (A : output sch (VMap (Some l')) n (FMap k e) = joined (map (fun kv => match kv with (a, x) => entry n k x (output sch a 1 (FAlways k)) (output sch x 2 e) end) l')) by (rewrite E; reflexivity).
    assert (B : encodable sch (VMap (Some l')) (FMap k e) = forallb (fun kv => match kv with (_, x) => map_len_ok sch k e x && encodable sch x e end) l') by (rewrite E; reflexivity).
    rewrite A. rewrite B in He. clear A B E. cbn [records]. apply joined_just. apply Forall_forall. intros [a x] Hin.
    rewrite Forall_forall in IH. rewrite forallb_forall in *. specialize (IH _ Hin). specialize (Hm _ Hin). specialize (He _ Hin). cbn [fst snd] in *.
    apply andb_true_iff in Hm. destruct Hm as [Wa Wx]. apply andb_true_iff in He. destruct He as [Ml Ex]. destruct IH as [IHa IHx].
    rewrite (IHa 1%N (FAlways k) Wa Gk') by (destruct a; reflexivity). rewrite (IHx 2%N e Wx Gv Ex).
    unfold map_len_ok in Ml. unfold entry. rewrite join_just, header_one, <- ser_app.
    assert (K : length_as_key k x = key_length k x) by (destruct k; try discriminate Gk; reflexivity). rewrite K.
    destruct (key_length k x) as [lk|]; [|discriminate Ml]. apply Nat.eqb_eq in Ml. rewrite Ml.
    assert (Q : (fst (just (ser (records sch a 1 (FAlways k)))) + N.of_nat (length (ser (records sch x 2 e))))%N = fst (just (ser (records sch a 1 (FAlways k) ++ records sch x 2 e)))).
    { cbn [just fst]. rewrite ser_app, app_length. lia. }
    rewrite Q, header_one. reflexivity.
Qed.
Lemma right_msg m xs : all2 (wt D) xs (field_types D m) = true -> encodable_msg sch xs (msg sch m) = true ->
  output_msg sch xs (msg sch m) = just (ser (message sch xs (msg sch m))).
Proof.
  intros Hw He. rewrite (field_types_of D sch HI) in Hw. apply right_fields; auto; [|intros n f; apply made_msg].
  apply Forall_forall. intros x _. apply right_spec.
Qed.
End Right.

(** ** Without maps *)
Section NoMaps.
Variable sch : schema.
Hypothesis HN : no_maps sch = true.
Definition mapless (f : fty) : bool := match f with FMap _ _ | FRepeated (FMap _ _) | FRepeated (FRepeated _) => false | _ => true end.
Definition exact_ok (v : val) : Prop := forall n f, mapless f = true -> skew sch v n f = 0 /\ snd (output sch v n f) <> None.
Hypothesis HM : all_made sch = true.
Lemma mapless_msg m n f : In (Field n f) (msg sch m) -> mapless f = true.
Proof.
  intros Hin. assert (I : In f (fields_of sch)).
  { unfold fields_of. apply in_flat_map. exists (msg sch m). split.
    - unfold msg in *. destruct (nth_in_or_default m sch []) as [H|H]; [exact H|]. rewrite H in Hin. destruct Hin.
    - apply in_flat_map. exists (Field n f). split; [exact Hin|left; reflexivity]. }
  unfold no_maps in HN. unfold all_made in HM. rewrite forallb_forall in HN, HM. specialize (HN _ I). specialize (HM _ I).
  destruct f as [| | | | | |e|]; try reflexivity; try discriminate. destruct e; try discriminate; reflexivity.
Qed.
Lemma exact_fields xs : Forall exact_ok xs -> forall fs, (forall n f, In (Field n f) fs -> mapless f = true) ->
  skew_msg sch xs fs = 0 /\ snd (output_msg sch xs fs) <> None.
Proof.
  induction 1 as [|x xs H _ IH]; intros [|[t|n f] fs] Hg; cbn [output_msg skew_msg]; try (split; [reflexivity|discriminate]).
  - apply IH. intros n f Hin. apply (Hg n f). right. exact Hin.
  - destruct (H n f (Hg n f (or_introl eq_refl))) as [A1 A2].
    destruct (IH fs) as [B1 B2]; [intros n' f' Hin; apply (Hg n' f'); right; exact Hin|].
    split; [lia|]. cbn [join snd]. destruct (snd (output sch x n f)); [|contradiction]. destruct (snd (output_msg sch xs fs)); [discriminate|contradiction].
Qed.
Lemma exact_spec : forall v, exact_ok v.
Proof.
  induction v as [v IH] using val_ind2. intros n f Hf.
  destruct f as [s|s|s|s| |m|e|k e]; try discriminate Hf.
  - destruct v; cbn [output skew]; (split; [reflexivity|]); try discriminate; destruct (is_zero _); discriminate.
  - destruct v; cbn [output skew]; (split; [reflexivity|]); try discriminate; destruct some; discriminate.
  - destruct v; (split; [reflexivity|discriminate]).
  - destruct v; (split; [reflexivity|discriminate]).
  - destruct v as [| | | | | | | |[]| | | | | |]; (split; [reflexivity|discriminate]).
  - destruct v as [| | | | | | | | | | | |[[]|]| |]; try (split; [reflexivity|discriminate]). destruct IH as [_ IH].
    destruct (exact_fields fs IH (msg sch m) (mapless_msg m)) as [A B]. split; [exact A|].
    rewrite output_message. cbv zeta. cbn [join snd just]. destruct (snd (output_msg sch fs (msg sch m))); [discriminate|contradiction].
  - assert (Me : mapless e = true) by (destruct e; try discriminate; reflexivity).
    destruct v; try (split; [reflexivity|discriminate]). destruct IH as [IH _]. cbn [output skew].
    induction IH as [|x l Hx _ IHl]; [split; [reflexivity|discriminate]|]. unfold total, joined in *. cbn [map fold_right].
    destruct (Hx n e Me) as [A1 A2]. destruct IHl as [B1 B2]. split; [lia|]. cbn [join snd].
    destruct (snd (output sch x n e)); [|contradiction]. match goal with |- match ?o with _ => _ end <> None => destruct o; [discriminate|contradiction] end.
Qed.
Lemma exact_msg m xs : skew_msg sch xs (msg sch m) = 0 /\ exists b, output_msg sch xs (msg sch m) = just b.
Proof.
  destruct (exact_fields xs) with (fs := msg sch m) as [A B]; [apply Forall_forall; intros x _; apply exact_spec|apply mapless_msg|]. split; [exact A|].
  pose proof (skew_msg_spec sch xs (msg sch m)) as O. rewrite A in O. unfold off in O.
  destruct (output_msg sch xs (msg sch m)) as [n [b|]]; [|destruct (B eq_refl)]. exists b. cbn [fst snd] in O. unfold just. f_equal. unfold zlen in O. lia.
Qed.
End NoMaps.

Section Api.
Variables (D : decls) (sch : schema).
Hypothesis HI : implements D sch = true.
Hypothesis HS : schema_ok sch = true.
Hypothesis HM : all_made sch = true.
Hypothesis HA : agreeing sch = true.
Lemma difference_proof s m xs b : reachable D s -> wts D (VStruct xs) (SNamed m) = true -> (fst (output_msg sch xs (msg sch m)) < 2^63)%N ->
  fst (Marshal D (ptr m xs) s) = Returns (Some b, None) ->
  fst (Size D (ptr m xs) s) = Returns (zlen b - skew_msg sch xs (msg sch m)).
Proof.
  intros Hr Hw Ho Hb. destruct (output_proof D sch HI HS HM HA s m xs Hr Hw Ho) as [E1 E2]. rewrite E2 in Hb. rewrite E1.
  pose proof (skew_msg_spec sch xs (msg sch m)) as O. unfold off in O. destruct (snd (output_msg sch xs (msg sch m))) as [t|]; [|discriminate Hb].
  inversion Hb; subst t. f_equal. lia.
Qed.
Lemma without_maps_proof s m xs : no_maps sch = true -> reachable D s -> wts D (VStruct xs) (SNamed m) = true -> (fst (output_msg sch xs (msg sch m)) < 2^63)%N ->
  exists b, fst (Marshal D (ptr m xs) s) = Returns (Some b, None) /\ fst (Size D (ptr m xs) s) = Returns (zlen b).
Proof.
  intros HN Hr Hw Ho. destruct (output_proof D sch HI HS HM HA s m xs Hr Hw Ho) as [E1 E2].
  destruct (exact_msg sch HN HM m xs) as [_ [b Eb]]. exists b. rewrite E1, E2, Eb. split; [reflexivity|]. cbn [just fst]. unfold zlen. f_equal. lia.
Qed.
Lemma right_proof m xs : in_scope sch = true -> wts D (VStruct xs) (SNamed m) = true -> encodable_msg sch xs (msg sch m) = true ->
  output_msg sch xs (msg sch m) = just (ser (message sch xs (msg sch m))).
Proof. intros HC Hw He. apply wts_msg in Hw. destruct Hw as [_ Hw]. apply (right_msg D sch HI HC HM); assumption. Qed.
End Api.
Lemma generated_output_proof F : valid F = true -> usable F = true -> agreeing (schema_of F) = true ->
  forall s m xs, reachable (generate F) s -> wts (generate F) (VStruct xs) (SNamed m) = true ->
  let o := output_msg (schema_of F) xs (msg (schema_of F) m) in (fst o < 2^63)%N ->
  fst (Size (generate F) (ptr m xs) s) = Returns (Z.of_N (fst o)) /\
  fst (Marshal (generate F) (ptr m xs) s) = match snd o with Some b => Returns (Some b, None) | None => Panics Confused end.
Proof.
  intros HV HU HA. apply output_proof; [apply generated_implements; assumption|apply schema_valid; assumption|apply generable_all_made, schema_generable|exact HA].
Qed.
