(** Property theorems about data races. *)
From Coq Require Import String.
From Verif Require Import Base Wire GoType Leaf Codec Tag Walker Api Conc SpecConc SpecRace Typing WalkSeq Sample RefuteConc RaceThms.

(** C53. Any number of goroutines making any number of calls, in any
    interleaving, starting after any calls made one after the other and, for
    supported declarations, at the same time: no data race in the sense of the Go
    memory model. The types used do not contain themselves, except through types
    used before the goroutines started. *)
Theorem data_race_free_partial : forall D s0 css l c, reachable D s0 \/ (supported D = true /\ quiet D s0) ->
  Forall (Forall (fun c => match arg_type c with
    | Some k => ready_key D (fun k => exists i, In (k, i) (g_infoCache s0)) k | None => True end)) css ->
  traced (map (p_calls D) css, s0) l c -> race_free l.
Proof. exact race_free_proof. Qed.
Print Assumptions data_race_free_partial.
(** The second goroutine reads what the first one wrote. *)
Example data_race_free_ex :
  let css := [[CMarshal (IPtr (SNamed 1) (Some account))]; [CMarshal (IPtr (SNamed 1) (Some account))]] in
  let '(l, c) := rsched (repeat 0 60 ++ repeat 1 60) [] (map (p_calls sampleD) css, g_empty) in
  ready_key sampleD (fun _ => False) (SNamed 1) /\ traced (map (p_calls sampleD) css, g_empty) l c /\
  exists i j x, nth_error l i = Some (0, AWrite x) /\ nth_error l j = Some (1, ARead x).
Proof.
  cbv zeta. rewrite (surjective_pairing (rsched _ _ _)). split; [|split].
  - right. apply fu_msg. intros fs f E H. inversion E; subst. cbn in H. intuition; subst; constructor.
  - apply rsched_traced. constructor.
  - exists 2, 18, (LInfo 0). split; vm_compute; reflexivity.
Qed.
(** The goroutines and the schedule of [data_race_free_refuted], after the type
    that contains itself was used: one goroutine meets the type for the first time
    that contains it. *)
Example data_race_free_mixed_ex :
  let s0 := snd (Size nodeD (IPtr (SNamed 0) None) g_empty) in
  let used := fun k => exists i, In (k, i) (g_infoCache s0) in
  let '(l, c) := rsched race_schedule [] (map (p_calls nodeD) race, s0) in
  reachable nodeD s0 /\ ready_key nodeD used (SNamed 0) /\ ready_key nodeD used (SNamed 1) /\ ~ used (SNamed 1) /\
  traced (map (p_calls nodeD) race, s0) l c /\ exists i x, nth_error l i = Some (1, AWrite x).
Proof.
  cbv zeta. rewrite (surjective_pairing (rsched _ _ _)). split; [constructor; [constructor|reflexivity]|].
  assert (U : exists i, In (SNamed 0, i) (g_infoCache (snd (Size nodeD (IPtr (SNamed 0) None) g_empty)))) by (exists 0%nat; vm_compute; auto).
  split; [left; exact U|]. split; [|split; [|split]].
  - right. apply fu_msg. intros fs f E H. inversion E; subst. cbn in H. destruct H as [<-|[]]. apply fu_used. exact U.
  - intros [i H]. vm_compute in H. destruct H as [H|[]]. discriminate.
  - apply rsched_traced. constructor.
  - exists 9, (LInfo 1). vm_compute; reflexivity.
Qed.
(** The recorded executions are the executions of C23. *)
Theorem recorded_executions : forall c0 c, csteps c0 c <-> exists l, traced c0 l c.
Proof. exact traced_csteps_proof. Qed.
Print Assumptions recorded_executions.
(** Types that contain themselves too, if every type was used before the goroutines start. *)
Theorem data_race_free_warm : forall D s css l c,
  Forall (Forall (fun c => match c with
    | CSize (IPtr k _) | CMarshal (IPtr k _) | CUnmarshal _ (IPtr k _) => exists i, In (k, i) (g_infoCache s)
    | _ => True end)) css ->
  traced (map (p_calls D) css, s) l c -> race_free l.
Proof. exact race_free_warm_proof. Qed.
Print Assumptions data_race_free_warm.
Example data_race_free_warm_ex :
  let s := snd (Size nodeD (IPtr (SNamed 1) None) (snd (Size nodeD (IPtr (SNamed 0) None) g_empty))) in
  (exists i, In (SNamed 0, i) (g_infoCache s)) /\ (exists i, In (SNamed 1, i) (g_infoCache s)) /\
  20 <= length (fst (rsched race_schedule [] (map (p_calls nodeD) race, s))).
Proof. split; [|split]; [eexists; vm_compute; auto..|vm_compute; repeat constructor]. Qed.
(** With a type that contains itself there is an execution with a data race. *)
Theorem data_race_free_refuted : exists D css l c, supported D = true /\
  Forall (Forall (fun c => match c with CMarshal (IPtr k (Some x)) => wts D x k = true | _ => False end)) css /\
  traced (map (p_calls D) css, g_empty) l c /\ ~ race_free l.
Proof. exact race_refuted_proof. Qed.
Print Assumptions data_race_free_refuted.
