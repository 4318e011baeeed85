(** Programs generated from two versions of .proto files. *)
From Coq Require Import String.
From Verif Require Import Base Wire GoType Leaf Codec Tag Walker Api Resolve Typing SpecWire SpecTag SpecMsg SpecLib SpecExact SpecVersions SpecJoin SpecAbsorb
  WalkSeq MsgApi ProtoGen SpecProto SpecEvolve ProtoFacts ProtoThms MsgAbsorb AbsorbThms RefuteMsg GenText GenDesc SpecText SpecGo SpecDesc SpecProgram GoSample ProgramFacts.
From Verif Require Import SpecProto SpecVersions.
Local Open Scope N_scope.

Lemma in_slots F m n f : forall l before, In (Field n f) (slots F m before l) ->
  exists fd, In fd l /\ oneof_member m fd = false /\ meaning F fd = Some f /\ d_number fd = n.
Proof.
  induction l as [|fd l IH]; intros before H; [destruct H|]. cbn [slots] in H. apply in_app_or in H. destruct H as [H|H].
  - exists fd. split; [left; reflexivity|]. unfold slot in H. destruct (oneof_member m fd).
    + destruct (first_member before fd); [destruct H as [H|[]]; discriminate H|destruct H].
    + destruct (meaning F fd) as [g|]; [|destruct H]. destruct H as [H|[]]. injection H as -> ->. auto.
  - destruct (IH _ H) as (fd' & I & R). exists fd'. split; [right; exact I|exact R].
Qed.
Lemma in_schema F m n f : In (Field n f) (msg (schema_of F) m) ->
  exists d fd, nth_error F m = Some d /\ In fd (ordinary d) /\ meaning F fd = Some f /\ d_number fd = n.
Proof.
  unfold msg, schema_of. intros H. destruct (nth_error F m) as [d|] eqn:E.
  - rewrite (nth_indep _ [] (message_schema F d)), map_nth, (nth_error_nth _ _ d E) in H
      by (rewrite map_length; apply nth_error_Some; congruence).
    unfold message_schema in H. destruct (m_entry d); [destruct H|]. apply in_app_or in H. destruct H as [H|H].
    + destruct (in_slots _ _ _ _ _ _ H) as (fd & I & O & R). exists d, fd. split; [reflexivity|]. split; [|exact R].
      apply filter_In. split; [exact I|]. rewrite O. reflexivity.
    + destruct (existsb _ _); [destruct H|]. destruct H as [H|[]]. discriminate H.
  - rewrite nth_overflow in H; [destruct H|]. rewrite map_length. apply nth_error_None. exact E.
Qed.
Definition kind_scalar (k : pkind) : option sty := match k with BytesKind => Some Y_string | k => scalar_of k end.
Lemma become_change k k' s s' : may_become k k' = true -> kind_scalar k = Some s -> kind_scalar k' = Some s' -> change s s' = true.
Proof.
  intros H E E'. destruct k; cbn in E; try discriminate E; injection E as <-; destruct k'; cbn in H; try discriminate H; cbn in E'; injection E' as <-; reflexivity.
Qed.
Lemma become_scalar k k' : may_become k k' = true -> k <> MessageKind /\ k' <> MessageKind.
Proof. destruct k, k'; try discriminate; split; discriminate. Qed.
Lemma accepts_change same f f' s s' : scalars f = Some s -> scalars f' = Some s' -> change s s' = true -> accepts same f f' = true.
Proof.
  intros E E' H. destruct f as [q|q|q|q| |m|e|k e]; try discriminate E; try (cbn [accepts]; rewrite E, E'; exact H).
  destruct e; try discriminate E; cbn [accepts]; rewrite E, E'; exact H.
Qed.
(** The type of a field that is not a map. *)
Lemma meaning_single F fd f : map_parts F fd = None -> meaning F fd = Some f ->
  if kind_eq_dec (d_kind fd) MessageKind then f = FMessage (d_message fd) \/ f = FRepeated (FMessage (d_message fd))
  else scalars f = kind_scalar (d_kind fd).
Proof.
  unfold meaning, map_parts. intros P H. destruct (d_weak fd); [discriminate H|].
  destruct (d_card fd); try discriminate H.
  - destruct (d_kind fd); cbn in *; try discriminate H; try (injection H as <-; auto; fail); destruct (d_presence fd); injection H as <-; reflexivity.
  - unfold elem_of in H. destruct (d_kind fd); cbn in *; try discriminate H; try (injection H as <-; auto; fail).
    destruct (nth_error F _) as [[[] [|? [|? [|? ?]]] ?]|]; try discriminate P; injection H as <-; auto.
Qed.
Lemma meaning_map F fd f k v : map_parts F fd = Some (k, v) -> meaning F fd = Some f ->
  exists s e, scalar_of (d_kind k) = Some s /\ elem_of v = Some e /\ f = FMap s e.
Proof.
  unfold meaning, map_parts. intros P H. destruct (d_weak fd); [discriminate H|].
  destruct (d_card fd); try discriminate P; try discriminate H. destruct (d_kind fd); try discriminate P.
  destruct (nth_error F _) as [[[] [|a [|b [|c l]]] o]|]; try discriminate P. injection P as -> ->.
  destruct (scalar_of (d_kind k)) as [s|]; [|discriminate H]. destruct (elem_of v) as [e|]; [|discriminate H]. injection H as <-. eauto.
Qed.
Lemma elem_single v e : elem_of v = Some e -> if kind_eq_dec (d_kind v) MessageKind then e = FMessage (d_message v) else scalars e = kind_scalar (d_kind v).
Proof. unfold elem_of. intros H. destruct (d_kind v); cbn in H |- *; try discriminate H; injection H as <-; reflexivity. Qed.
Lemma scalars_none e k : scalars e = kind_scalar k -> forall k', may_become k k' = true \/ may_become k' k = true -> exists s, scalars e = Some s.
Proof. intros -> k' H. destruct k; cbn; eauto; destruct k'; destruct H; discriminate. Qed.
Lemma hold_accepts same a b f f' : may_hold same a b = true ->
  (if kind_eq_dec (d_kind a) MessageKind then f = FMessage (d_message a) \/ f = FRepeated (FMessage (d_message a)) else scalars f = kind_scalar (d_kind a)) ->
  (if kind_eq_dec (d_kind b) MessageKind then f' = FMessage (d_message b) \/ f' = FRepeated (FMessage (d_message b)) else scalars f' = kind_scalar (d_kind b)) ->
  accepts same f f' = true.
Proof.
  intros H A B. unfold may_hold in H. destruct (kind_eq_dec (d_kind a) MessageKind) as [Ea|Na].
  - rewrite Ea in H. destruct (kind_eq_dec (d_kind b) MessageKind) as [Eb|Nb].
    + rewrite Eb in H. destruct A as [-> | ->], B as [-> | ->]; exact H.
    + exfalso. destruct (d_kind b); try discriminate H. apply Nb. reflexivity.
  - assert (H' : may_become (d_kind a) (d_kind b) = true) by (destruct (d_kind a); try exact H; destruct (Na eq_refl)).
    destruct (become_scalar _ _ H') as [_ Nb]. destruct (kind_eq_dec (d_kind b) MessageKind) as [Eb|_]; [destruct (Nb Eb)|].
    destruct (scalars_none _ _ A _ (or_introl H')) as (s & Es). destruct (scalars_none _ _ B _ (or_intror H')) as (s' & Es').
    apply (accepts_change same f f' s s' Es Es'). apply (become_change _ _ s s' H'); congruence.
Qed.
Theorem evolves_accepted same F F' : evolves same F F' -> accepted same (schema_of F) (schema_of F').
Proof.
  intros H m m' Hm n f f' I I'. destruct (in_schema _ _ _ _ I) as (d & a & Ed & Ia & Ma & Na). destruct (in_schema _ _ _ _ I') as (d' & b & Ed' & Ib & Mb & Nb).
  specialize (H m m' d d' Hm Ed Ed' a b Ia Ib ltac:(congruence)). unfold field_may_become in H.
  destruct (map_parts F a) as [[k v]|] eqn:Pa; destruct (map_parts F' b) as [[k' v']|] eqn:Pb; try discriminate H.
  - apply andb_true_iff in H. destruct H as [Hk Hv]. destruct (kind_eq_dec (d_kind k) (d_kind k')) as [Ek|]; [|discriminate Hk].
    destruct (meaning_map _ _ _ _ _ Pa Ma) as (s & e & Es & Ee & ->). destruct (meaning_map _ _ _ _ _ Pb Mb) as (s' & e' & Es' & Ee' & ->).
    cbn [accepts]. destruct (sty_eq_dec s s') as [_|N]; [|destruct N; congruence]. cbn [andb].
    apply (hold_accepts same v v' e e' Hv); [pose proof (elem_single _ _ Ee) as X|pose proof (elem_single _ _ Ee') as X];
      destruct (kind_eq_dec _ _); auto.
  - exact (hold_accepts same a b f f' H (meaning_single _ _ _ Pa Ma) (meaning_single _ _ _ Pb Mb)).
Qed.

Lemma program_covers X scope files D : good_scope X scope -> covered (descs X) = true -> good_files X files -> compiles X scope (texts X files) D ->
  covers D (schema_of (descs X)) = true.
Proof.
  intros SC CV GF C. rewrite (compiles_generate X scope files D SC); [apply generated_covers; exact CV| |exact GF|exact C].
  unfold covered in CV. repeat (apply andb_true_iff in CV; destruct CV as [CV _]). exact CV.
Qed.
Theorem program_versions_proof X scope files D X' scope' files' D' same :
  good_scope X scope -> covered (descs X) = true -> good_files X files -> compiles X scope (texts X files) D ->
  good_scope X' scope' -> covered (descs X') = true -> good_files X' files' -> compiles X' scope' (texts X' files') D' ->
  evolves same (descs X) (descs X') ->
  let sch := schema_of (descs X) in let sch' := schema_of (descs X') in
  forall s s' m m' xs ys, same m m' = true -> reachable D s -> reachable D' s' ->
  wts D' (VStruct xs) (SNamed m') = true -> forallb fresh xs = true -> forallb tidy xs = true ->
  wts D (VStruct ys) (SNamed m) = true -> encodable_msg sch ys (msg sch m) = true -> (zlen (ser (message sch ys (msg sch m))) < 2^63)%Z ->
  exists b zs, fst (Marshal D (ptr m ys) s) = Returns (Some b, None) /\
    fst (Unmarshal D' b (ptr m' xs) s') = Returns (ptr m' zs, None) /\
    map shown zs = map norm (absorb_msg sch sch' xs ys (msg sch m) (msg sch' m')) /\ wts D' (VStruct zs) (SNamed m') = true.
Proof.
  intros SC CV GF C SC' CV' GF' C' EV sch sch'. apply (absorb_proof D sch D' sch' same).
  - eapply program_covers; eassumption.
  - eapply program_covers; eassumption.
  - apply evolves_accepted. exact EV.
Qed.
