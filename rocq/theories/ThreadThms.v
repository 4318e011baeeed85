(** Programs made from generated files, used by several goroutines. *)
From Coq Require Import String.
From Verif Require Import Base Wire GoType Leaf Codec Tag Walker Api Resolve Typing SpecWire SpecMsg SpecLib WalkSeq MsgApi ProtoGen SpecProto ProtoFacts ProtoFit
  RefuteMsg GenText GenDesc SpecText SpecGo SpecDesc SpecProgram GoSample ProgramFacts SpecOut SpecIn OutThms InThms Conc SpecConc ConcFacts SpecThreads AnyProgram.
Local Open Scope N_scope.

Lemma called_seq F c s : valid F = true -> usable F = true -> agreeing (schema_of F) = true -> reachable (generate F) s ->
  called_for (generate F) (schema_of F) c (fst (seq_call (generate F) c s)).
Proof.
  intros HV HU HA Hs. destruct c as [i|i|b i]; destruct i as [| | |k p]; try exact Logic.I; destruct k as [m| |]; try exact Logic.I; destruct p as [x|]; try exact Logic.I; destruct x; try exact Logic.I; cbn [called_for].
  - intros W Ho. destruct (generated_output_proof F HV HU HA s m _ Hs W Ho) as [E _].
    cbn [seq_call]. destruct (Size _ _ _). cbn [fst] in *. rewrite E. reflexivity.
  - intros W Ho. destruct (generated_output_proof F HV HU HA s m _ Hs W Ho) as [_ E].
    cbn [seq_call]. destruct (Marshal _ _ _). cbn [fst] in *. rewrite E. reflexivity.
  - intros W Fr B L. pose proof (generated_reads_proof F HV HU HA s m _ _ b Hs W Fr eq_refl B L) as E.
    cbn [seq_call]. destruct (Unmarshal _ _ _ _). cbn [fst] in *. destruct (merge_any _ _ _ _ _).
    + destruct E as (ys' & E & N & _). exists ys'. rewrite E. split; [reflexivity|exact N].
    + destruct E as (x & e & E). exists x, e. rewrite E. reflexivity.
    + exact E.
Qed.

(** ** Messages that do not contain themselves *)
Lemma impl_nth D sch : implements D sch = true -> forall m gs g, nth_error D m = Some gs -> In g gs ->
  exists f, In f (msg sch m) /\ gf_type g = match f with Hidden t => t | Field _ f => go_type f end.
Proof.
  unfold msg. revert sch. induction D as [|gs0 D IH]; intros [|fs0 sch] H m gs g E I; try discriminate; [destruct m; discriminate|].
  cbn [implements] in H. apply andb_true_iff in H. destruct H as [H1 H2].
  destruct m as [|m]; [|exact (IH _ H2 m gs g E I)]. cbn in E. injection E as ->. cbn [nth].
  clear - H1 I. revert fs0 H1. induction gs as [|g0 gs IH]; intros [|f0 fs] H; try discriminate; [destruct I|].
  cbn [implements_msg] in H. apply andb_true_iff in H. destruct H as [Hf H].
  destruct I as [->|I].
  - exists f0. split; [left; reflexivity|].
    unfold implements_field, is_type in Hf. destruct f0; repeat (apply andb_true_iff in Hf; destruct Hf as [Hf ?]).
    + destruct (gotype_eq_dec _ _); congruence.
    + destruct (gotype_eq_dec _ _); congruence.
  - destruct (IH I fs H) as (f & A & B). exists f. split; [right; exact A|exact B].
Qed.
Lemma hidden_other F m t : In (Hidden t) (msg (schema_of F) m) -> t = TOther.
Proof.
  unfold msg, schema_of. intros H.
  destruct (nth_error F m) as [d|] eqn:E.
  2:{ rewrite nth_overflow in H; [destruct H|]. rewrite map_length. apply nth_error_None. exact E. }
  erewrite nth_indep in H by (rewrite map_length; apply nth_error_Some; rewrite E; discriminate).
  rewrite (map_nth (message_schema F) F d) in H. rewrite (nth_error_nth F m d E) in H.
  unfold message_schema in H. destruct (m_entry d); [destruct H|].
  apply in_app_or in H. destruct H as [H|H].
  - revert H. generalize (@nil pfield_desc) as before. induction (m_fields d) as [|fd l IH]; intros before; cbn [slots]; [intros []|].
    intros H. apply in_app_or in H. destruct H as [H|H]; [|exact (IH _ H)].
    unfold slot in H. destruct (oneof_member d fd).
    + destruct (first_member before fd); [|destruct H]. destruct H as [H|[]]. congruence.
    + destruct (meaning F fd); [|destruct H]. destruct H as [H|[]]. congruence.
  - destruct (existsb _ _); [destruct H|]. destruct H as [H|[]]. congruence.
Qed.
Lemma fty_finite D used f : (forall m, message_in f = Some m -> finite_upto D used (TMsg m)) -> finite_upto D used (go_type f).
Proof. induction f; cbn [message_in go_type]; intros H; try (apply H; reflexivity); repeat constructor; auto. Qed.
Lemma ends_finite F used m : valid F = true -> usable F = true ->
  Acc (part_of (schema_of F)) m -> finite_upto (generate F) used (TMsg m).
Proof.
  intros HV HU. induction 1 as [m _ IH]. apply fu_msg. intros fs g E I.
  destruct (impl_nth _ _ (generated_implements F HV HU) m fs g E I) as (f & Hf & ->).
  destruct f as [t|n f].
  - apply hidden_other in Hf. subst. constructor.
  - apply fty_finite. intros m' Em. apply IH. exists n, f. split; assumption.
Qed.

(** ** Programs *)
Definition named_calls (D : decls) (css : list (list call)) : Prop :=
  Forall (Forall (fun c => match arg_type c with Some k => user_key D k = true | None => True end)) css.
Lemma called_quiet F c s : valid F = true -> usable F = true -> agreeing (schema_of F) = true -> quiet (generate F) s ->
  match arg_type c with Some k => user_key (generate F) k = true | None => True end ->
  called_for (generate F) (schema_of F) c (fst (seq_call (generate F) c s)).
Proof.
  intros HV HU HA Hs Hc. rewrite (recovers_proof _ (generated_supported F HV HU HA) s Hs c Hc). apply called_seq; try assumption. constructor.
Qed.
Lemma F2_in {A B} (R R' : A -> B -> Prop) l l' : Forall2 R l l' -> (forall x y, In x l -> R x y -> R' x y) -> Forall2 R' l l'.
Proof. induction 1 as [|x y l l' Hx _ IH]; intros H; constructor; [apply H; [left; reflexivity|assumption]|]. apply IH. intros a b Ha. apply H. right. exact Ha. Qed.
Lemma threads_gen F s0 css ts s : valid F = true -> usable F = true -> agreeing (schema_of F) = true -> quiet (generate F) s0 ->
  named_calls (generate F) css -> csteps (map (p_calls (generate F)) css, s0) (ts, s) ->
  Forall2 (fun cs t => (exists o k, t = Do o k) \/ exists ans, t = Ret ans /\
    Forall2 (fun c a =>
      match arg_type c with Some k => ready_key (generate F) (fun k => exists i, In (k, i) (g_infoCache s0)) k | None => True end ->
      called_for (generate F) (schema_of F) c a) cs ans) css ts.
Proof.
  intros HV HU HA Hs Hc S. pose proof (concurrent_proof _ (generated_supported F HV HU HA) s0 Hs css ts s Hc S) as H.
  apply F2_in with (1 := H). intros cs t I [A|(ans & A & B)]; [left; exact A|]. right. exists ans. split; [exact A|].
  apply F2_in with (1 := B). intros c a J E R. rewrite (E R). apply called_quiet; try assumption.
  unfold named_calls in Hc. rewrite Forall_forall in Hc. specialize (Hc cs I). rewrite Forall_forall in Hc. exact (Hc c J).
Qed.

Section Program.
Variables (X : list nmessage) (scope : string -> entity) (files : list nfile) (D : decls).
Hypothesis SC : good_scope X scope.
Hypothesis HV : valid (descs X) = true.
Hypothesis HU : usable (descs X) = true.
Hypothesis HA : agreeing (schema_of (descs X)) = true.
Hypothesis GF : good_files X files.
Hypothesis C : compiles X scope (texts X files) D.
Notation sch := (schema_of (descs X)).

Lemma threads_proof : forall s0, quiet D s0 -> forall css ts s, named_calls D css -> csteps (map (p_calls D) css, s0) (ts, s) ->
  Forall2 (fun cs t => (exists o k, t = Do o k) \/ exists ans, t = Ret ans /\
    Forall2 (fun c a =>
      match arg_type c with Some k => ready_key D (fun k => exists i, In (k, i) (g_infoCache s0)) k | None => True end ->
      called_for D sch c a) cs ans) css ts.
Proof.
  rewrite (compiles_generate X scope files D SC HV GF C). intros s0 Hs css ts s. apply threads_gen; assumption.
Qed.
Lemma threads_end_proof : forall s0, quiet D s0 -> forall css ts s, named_calls D css -> csteps (map (p_calls D) css, s0) (ts, s) ->
  Forall2 (fun cs t => (exists o k, t = Do o k) \/ exists ans, t = Ret ans /\
    Forall2 (fun c a => ends sch c -> called_for D sch c a) cs ans) css ts.
Proof.
  intros s0 Hs css ts s Hc S. apply F2_in with (1 := threads_proof s0 Hs css ts s Hc S).
  intros cs t _ [A|(ans & A & B)]; [left; exact A|]. right. exists ans. split; [exact A|].
  apply F2_in with (1 := B). intros c a _ H E. unfold ends in E. destruct (arg_type c) as [k|] eqn:Ec; [|exact (H Logic.I)].
  destruct k as [m| |].
  - apply H. right. rewrite (compiles_generate X scope files D SC HV GF C). apply ends_finite; assumption.
  - destruct c as [i|i|b i]; destruct i as [| | |k' p]; try discriminate; injection Ec as ->; exact Logic.I.
  - apply H. right. exact Logic.I.
Qed.
Lemma later_proof : forall s, quiet D s -> forall c, match arg_type c with Some k => user_key D k = true | None => True end ->
  called_for D sch c (fst (seq_call D c s)).
Proof. rewrite (compiles_generate X scope files D SC HV GF C). intros s Hs c. apply called_quiet; assumption. Qed.
End Program.
Lemma world_ends : Acc (part_of (schema_of (descs world))) 2%nat.
Proof.
  constructor. intros m (n & f & I & E). exfalso.
  assert (A : forallb (fun g => match g with Field _ g => match message_in g with None => true | _ => false end | _ => true end) (msg (schema_of (descs world)) 2) = true) by (vm_compute; reflexivity).
  rewrite forallb_forall in A. specialize (A _ I). cbn beta iota in A. rewrite E in A. discriminate.
Qed.
Lemma world_self : part_of (schema_of (descs world)) 0%nat 0%nat.
Proof.
  assert (A : existsb (fun g => match g with Field _ g => match message_in g with Some O => true | _ => false end | _ => false end) (msg (schema_of (descs world)) 0) = true) by (vm_compute; reflexivity).
  apply existsb_exists in A. destruct A as ([t|n f] & I & E); [discriminate|]. exists n, f. split; [exact I|].
  destruct (message_in f) as [[]|]; try discriminate. reflexivity.
Qed.
