(** Getters of oneof members; comparability of generated structs. *)
From Coq Require Import String Lia.
From Verif Require Import Base GoType Typing ProtoGen SpecProto GenGetter SpecGetter.
Local Open Scope list_scope.

Lemma default_of : forall F y, member_ok F y = true ->
  literal_value (fieldDefaultValue F y) (fst (fst (fieldGoType F (y_desc y)))) = Some (kind_default y).
Proof.
  intros F y M. unfold member_ok in M. apply andb_prop in M as [M E]. apply andb_prop in M as [M Mp]. apply andb_prop in M as [C W].
  apply negb_true_iff in W, Mp. unfold fieldDefaultValue, fieldGoType, plainGoType, is_list, kind_default. rewrite W, Mp. unfold kindGoType.
  destruct (d_card (y_desc y)); try discriminate C. destruct (d_kind (y_desc y)); try reflexivity. destruct (y_enum y); [discriminate E|reflexivity].
Qed.
Lemma real_member : forall m i o, member_of m i o -> exists y, nth_error (y_fields m) i = Some y /\ real_oneof (y_message m) (y_desc y) = Some o.
Proof. intros m i o (y & E & O & S). exists y. split; [exact E|]. unfold real_oneof. rewrite O. cbn [y_message m_oneofs]. rewrite S. reflexivity. Qed.
Lemma getter_exists_proof : forall F m i x, getMember F m i x <> None <-> exists o, member_of m i o.
Proof.
  intros F m i x. split.
  - unfold getMember. destruct (nth_error (y_fields m) i) as [y|] eqn:E; [|tauto]. unfold real_oneof. destruct (d_oneof (y_desc y)) as [o|] eqn:O; [|tauto].
    cbn [y_message m_oneofs]. destruct (nth o (y_oneofs m) false) eqn:S; [tauto|]. intros _. exists o, y. auto.
  - intros (o & M). apply real_member in M as (y & E & R). unfold getMember. rewrite E, R. destruct (literal_value _ _); discriminate.
Qed.
Lemma getter_proof : forall F m i o y x, member_of m i o -> nth_error (y_fields m) i = Some y -> member_ok F y = true ->
  (forall v, holds x o i (Some v) -> getMember F m i x = Some (Some (Got v))) /\
  ((forall p, ~ holds x o i p) -> getMember F m i x = Some (Some (Got (kind_default y)))) /\
  (holds x o i None -> getMember F m i x = Some (Some NilDereference)).
Proof.
  intros F m i o y x M E K. destruct (real_member m i o M) as (y' & E' & R). rewrite E in E'. injection E' as <-.
  unfold getMember. rewrite E, R, (default_of F y K). split; [|split].
  - intros v (fs & -> & H). cbn [getOneof]. rewrite H, Nat.eqb_refl. reflexivity.
  - intro H. destruct x as [fs|]; [|reflexivity]. cbn [getOneof]. destruct (fs o) as [|j p] eqn:Eo; [reflexivity|].
    destruct (Nat.eqb_spec j i) as [->|N]; [|reflexivity]. destruct (H p). exists fs. auto.
  - intros (fs & -> & H). cbn [getOneof]. rewrite H, Nat.eqb_refl. reflexivity.
Qed.
Lemma default_typed_proof : forall D F y, member_ok F y = true -> wt D (kind_default y) (fst (fst (fieldGoType F (y_desc y)))) = true.
Proof.
  intros D F y M. unfold member_ok in M. apply andb_prop in M as [M E]. apply andb_prop in M as [M Mp]. apply andb_prop in M as [C W].
  apply negb_true_iff in W, Mp. unfold fieldGoType, plainGoType, is_list, kind_default. rewrite W, Mp. unfold kindGoType.
  destruct (d_card (y_desc y)); try discriminate C. destruct (d_kind (y_desc y)); try reflexivity.
  destruct (y_enum y) as [|z l]; [discriminate E|]. exact E.
Qed.

(** Comparability. *)
Lemma kind_comparable : forall fd t o c, kindGoType fd = (t, o, c) -> c = comparable_type t /\ (o = true -> exists k, t = TScalar k).
Proof. intros fd t o c E. unfold kindGoType in E. destruct (d_kind fd); injection E as <- <- <-; split; eauto; discriminate. Qed.
Lemma plain_comparable : forall F fd t o c, plainGoType F fd = (t, o, c) -> c = comparable_type t /\ (o = true -> exists k, t = TScalar k).
Proof.
  intros F fd t o c E. unfold plainGoType in E. destruct (d_weak fd); [injection E as <- <- <-; split; [reflexivity|discriminate]|].
  destruct (kindGoType fd) as [[t' o'] c'] eqn:K. apply kind_comparable in K as (Ec & Es).
  destruct (is_list F fd); injection E as <- <- <-; [split; [reflexivity|discriminate]|auto].
Qed.
Lemma key_plain : forall F kf, key_kind (d_kind kf) = true -> d_weak kf = false -> d_card kf = CardOptional -> exists k, fst (fst (plainGoType F kf)) = TScalar k.
Proof.
  intros F kf K W C. unfold plainGoType, is_list, kindGoType. rewrite W, C. destruct (d_kind kf); try discriminate K; eexists; reflexivity.
Qed.
Lemma map_entry_ok : forall F fd, valid F = true -> is_map F fd = true ->
  exists kf vf, m_fields (message_of F fd) = [kf; vf] /\ key_kind (d_kind kf) = true /\ d_weak kf = false /\ d_card kf = CardOptional.
Proof.
  intros F fd V M. unfold is_map in M. destruct (d_kind fd); try discriminate M. unfold message_of in *.
  assert (I : In (nth (d_message fd) F no_message) F).
  { destruct (Nat.lt_ge_cases (d_message fd) (length F)) as [L|L]; [apply nth_In; exact L|]. rewrite nth_overflow in M by exact L. discriminate M. }
  unfold valid in V. rewrite forallb_forall in V. specialize (V _ I). unfold valid_message in V. rewrite M in V. cbn [negb orb] in V.
  apply andb_prop in V as [_ V]. destruct (m_fields (nth (d_message fd) F no_message)) as [|kf [|vf [|]]]; try discriminate V.
  exists kf, vf. split; [reflexivity|]. apply andb_prop in V as [V Vf]. apply andb_prop in V as [V _]. apply andb_prop in V as [_ Vk].
  cbn [forallb] in Vf. apply andb_prop in Vf as [Vf _]. apply andb_prop in Vf as [Vw Vc]. apply negb_true_iff in Vw.
  split; [exact Vk|]. split; [exact Vw|]. destruct (d_card kf); [reflexivity|discriminate Vc|discriminate Vc].
Qed.
Lemma field_comparable : forall F m before fd g c, valid F = true -> genMessageField F m before fd = (g, c) ->
  match g with Some g => gf_exported g = true /\ comparable_type (gf_type g) = c | None => c = true end.
Proof.
  intros F m before fd g c V E. unfold genMessageField in E. destruct (real_oneof m fd) as [o|].
  - destruct (existsb _ _); injection E as <- <-; [reflexivity|split; reflexivity].
  - destruct (fieldGoType F fd) as [[t o] comp] eqn:T.
    assert (H : comp = comparable_type t /\ (o = true -> exists k, t = TScalar k)).
    { unfold fieldGoType in T. destruct (d_weak fd); [injection T as <- <- <-; split; [reflexivity|discriminate]|].
      destruct (is_map F fd) eqn:M; [|apply (plain_comparable _ _ _ _ _ T)].
      destruct (map_entry_ok F fd V M) as (kf & vf & Em & K & W & C). rewrite Em in T. destruct (key_plain F kf K W C) as (k & Ek). rewrite Ek in T.
      injection T as <- <- <-. split; [reflexivity|discriminate]. }
    destruct H as (-> & So). destruct (if is_map F fd then _ else _) as [key v]. injection E as <- <-. split; [reflexivity|]. cbn [gf_type].
    destruct o; [|reflexivity]. destruct (So eq_refl) as (k & ->). reflexivity.
Qed.
Lemma fields_comparable : forall F m, valid F = true -> forall l before comp,
  genFields F m before l comp = filter gf_exported (genFields F m before l comp) ++
    (if comp && forallb (fun g => comparable_type (gf_type g)) (filter gf_exported (genFields F m before l comp)) then [marker_field] else []).
Proof.
  intros F m V. induction l as [|fd l IH]; intros before comp; cbn [genFields]; [destruct comp; reflexivity|].
  destruct (genMessageField F m before fd) as [g c] eqn:E. apply field_comparable in E; [|exact V]. specialize (IH (before ++ [fd]) (comp && c)).
  destruct g as [g|].
  - destruct E as (X & <-). cbn [filter]. rewrite X. cbn [forallb app]. f_equal. rewrite IH at 1. f_equal. rewrite andb_assoc. reflexivity.
  - subst c. rewrite andb_true_r in *. exact IH.
Qed.
Lemma incomparable_proof : forall F m, valid F = true -> m_entry m = false ->
  genMessage F m = filter gf_exported (genMessage F m) ++
    (if forallb (fun g => comparable_type (gf_type g)) (filter gf_exported (genMessage F m)) then [marker_field] else []).
Proof. intros F m V X. unfold genMessage. rewrite X. apply (fields_comparable F m V (m_fields m) [] true). Qed.
Lemma struct_incomparable_proof : forall F m, valid F = true -> m_entry m = false -> incomparable (genMessage F m).
Proof.
  intros F m V X. pose proof (incomparable_proof F m V X) as E. unfold incomparable. rewrite E.
  destruct (forallb _ _) eqn:A; [left; apply in_or_app; right; left; reflexivity|]. right.
  assert (H : exists g, In g (filter gf_exported (genMessage F m)) /\ comparable_type (gf_type g) = false).
  { clear E. revert A. induction (filter gf_exported (genMessage F m)) as [|g l IH]; [discriminate|]. cbn [forallb]. intro A. apply andb_false_iff in A as [A|A].
    - exists g. split; [left; reflexivity|exact A].
    - destruct (IH A) as (x & I & C). exists x. split; [right; exact I|exact C]. }
  destruct H as (g & I & C). exists g. split; [apply in_or_app; left; exact I|exact C].
Qed.
