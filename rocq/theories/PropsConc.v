(** Property theorems about the caches: concurrent use, rejected types. *)
From Coq Require Import String.
From Verif Require Import Base Wire GoType Leaf Codec Tag Walker Api Conc SpecConc SpecReject SpecWire Typing EncFacts WalkSeq
  ConcFacts RejectFacts Sample RefuteConc.
Local Open Scope N_scope.

(** C23. Any number of goroutines, each making any number of calls, in any
    interleaving of their operations on shared memory, starting after any calls
    made one after the other or at the same time: a goroutine has either more to do
    or has an answer for every call, and this is the answer it would have got alone
    if the type of the argument does not contain itself, except through types used
    before the goroutines started; whatever types the other calls use. *)
Theorem concurrent_use_partial : forall D, supported D = true -> forall s0, quiet D s0 -> forall css ts s,
  Forall (Forall (fun c => match arg_type c with Some k => user_key D k = true | None => True end)) css ->
  csteps (map (p_calls D) css, s0) (ts, s) ->
  Forall2 (fun cs t => (exists o k, t = Do o k) \/ exists ans, t = Ret ans /\
    Forall2 (fun c a =>
      match arg_type c with Some k => ready_key D (fun k => exists i, In (k, i) (g_infoCache s0)) k | None => True end ->
      a = fst (seq_call D c s0)) cs ans) css ts.
Proof. exact concurrent_proof. Qed.
Print Assumptions concurrent_use_partial.
Example concurrent_use_ex :
  supported sampleD = true /\ quiet sampleD g_empty /\ ready_key sampleD (fun _ => False) (SNamed 1) /\
  let css := [[CMarshal (IPtr (SNamed 1) (Some account))]; [CUnmarshal [16; 1] (IPtr (SNamed 1) (Some account)); CSize (IPtr (SNamed 1) None)]] in
  let '(ts, s) := sched (flat_map (fun _ => [0; 1; 1]%nat) (seq 0 40)) (map (p_calls sampleD) css, g_empty) in
  ts = map (fun cs => Ret (map (fun c => fst (seq_call sampleD c g_empty)) cs)) css.
Proof.
  split; [reflexivity|]. split; [constructor; constructor|]. split; [|vm_compute; reflexivity].
  right. apply fu_msg. intros fs f E H. inversion E; subst. cbn in H. intuition; subst; constructor.
Qed.
(** A new type with a field of a type that contains itself and was used before;
    the goroutines and the schedule of [concurrent_use_refuted]. *)
Example concurrent_use_mixed_ex :
  let s0 := snd (Size nodeD (IPtr (SNamed 0) None) g_empty) in
  let used := fun k => exists i, In (k, i) (g_infoCache s0) in
  supported nodeD = true /\ quiet nodeD s0 /\ ready_key nodeD used (SNamed 0) /\ ready_key nodeD used (SNamed 1) /\
  ~ used (SNamed 1) /\
  fst (sched race_schedule (map (p_calls nodeD) race, s0)) =
  [Ret [AMarshal (Returns (Some [8; 1], None))]; Ret [AMarshal (Returns (Some [10; 2; 8; 1], None))]].
Proof.
  cbv zeta. split; [reflexivity|]. split; [constructor; constructor; [constructor|reflexivity]|].
  assert (U : exists i, In (SNamed 0, i) (g_infoCache (snd (Size nodeD (IPtr (SNamed 0) None) g_empty)))) by (exists 0%nat; vm_compute; auto).
  split; [left; exact U|]. split; [|split; [|vm_compute; reflexivity]].
  - right. apply fu_msg. intros fs f E H. inversion E; subst. cbn in H. destruct H as [<-|[]]. apply fu_used. exact U.
  - intros [i H]. vm_compute in H. destruct H as [H|[]]. discriminate.
Qed.
(** A third goroutine, with a type of its own, during the race of
    [concurrent_use_refuted]: it gets the right answer, the second does not. *)
Example concurrent_use_other_ex :
  let D := nodeD ++ [[ sfield "varint,1,opt" (TScalar KInt32) ]] in
  let css := race ++ [[CMarshal (IPtr (SNamed 2) (Some (VStruct [VI32 5])))]] in
  supported D = true /\ ready_key D (fun k => exists i, In (k, i) (g_infoCache g_empty)) (SNamed 2) /\
  fst (sched (repeat 2 4 ++ flat_map (fun i => [2; i]) race_schedule)%nat (map (p_calls D) css, g_empty)) =
  [Ret [AMarshal (Returns (Some [8; 1], None))]; Ret [AMarshal (Returns (Some [10; 0], None))];
   Ret [AMarshal (Returns (Some [8; 5], None))]].
Proof.
  cbv zeta. split; [reflexivity|]. split; [|vm_compute; reflexivity].
  right. apply fu_msg. intros fs f E H. inversion E; subst. cbn in H. destruct H as [<-|[]]. constructor.
Qed.
(** Every such execution ends, for all declarations. *)
Theorem concurrent_terminates : forall c, Acc (fun c' c => cstep c c') c.
Proof. exact cstep_acc. Qed.
Print Assumptions concurrent_terminates.
(** Recursive types too, and all declarations, if every type was used once
    before the goroutines start; the caches do not change any more. *)
Theorem concurrent_use_warm : forall D s css ts s',
  Forall (Forall (fun c => match c with
    | CSize (IPtr k _) | CMarshal (IPtr k _) | CUnmarshal _ (IPtr k _) => exists i, In (k, i) (g_infoCache s)
    | _ => True end)) css ->
  csteps (map (p_calls D) css, s) (ts, s') ->
  s' = s /\ Forall2 (fun cs t => (exists o k, t = Do o k) \/ t = Ret (map (fun c => fst (seq_call D c s)) cs)) css ts.
Proof. exact concurrent_warm_proof. Qed.
Print Assumptions concurrent_use_warm.
Theorem used_before : forall D k p s n s', Size D (IPtr k p) s = (Returns n, s') -> exists i, In (k, i) (g_infoCache s').
Proof. exact used_before_proof. Qed.
Print Assumptions used_before.
Example concurrent_use_warm_ex :
  let s := snd (Size nodeD (IPtr (SNamed 1) None) (snd (Size nodeD (IPtr (SNamed 0) None) g_empty))) in
  (exists i, In (SNamed 0, i) (g_infoCache s)) /\ (exists i, In (SNamed 1, i) (g_infoCache s)) /\
  fst (sched race_schedule (map (p_calls nodeD) race, s)) =
  [Ret [AMarshal (Returns (Some [8; 1], None))]; Ret [AMarshal (Returns (Some [10; 2; 8; 1], None))]].
Proof. split; [|split]; [eexists; vm_compute; auto..|vm_compute; reflexivity]. Qed.
(** With a recursive type, one goroutine's Marshal can lose a field. *)
Theorem concurrent_use_refuted : exists D css ts s ans, supported D = true /\
  Forall (Forall (fun c => match c with CMarshal (IPtr k (Some x)) => wts D x k = true | _ => False end)) css /\
  csteps (map (p_calls D) css, g_empty) (ts, s) /\
  nth_error ts 1 = Some (Ret ans) /\
  nth_error (map (map (fun c => fst (seq_call D c g_empty))) css) 1 <> Some ans.
Proof. exact race_proof. Qed.
Print Assumptions concurrent_use_refuted.

(** C74. Whatever the goroutines did, also with recursive types and with wrong
    answers, once all their calls have returned every call gives the answer it
    gives in a program that has made no call before. *)
Theorem concurrent_recovers : forall D, supported D = true -> forall s, quiet D s -> forall c,
  match arg_type c with Some k => user_key D k = true | None => True end ->
  fst (seq_call D c s) = fst (seq_call D c g_empty).
Proof. exact recovers_proof. Qed.
Print Assumptions concurrent_recovers.
(** After the race of [concurrent_use_refuted] and its wrong answer. *)
Example concurrent_recovers_ex :
  let '(ts, s) := sched race_schedule (map (p_calls nodeD) race, g_empty) in
  ts = [Ret [AMarshal (Returns (Some [8; 1], None))]; Ret [AMarshal (Returns (Some [10; 0], None))]] /\
  quiet nodeD s /\ map (fun cs => map (fun c => fst (seq_call nodeD c s)) cs) race =
  [[AMarshal (Returns (Some [8; 1], None))]; [AMarshal (Returns (Some [10; 2; 8; 1], None))]].
Proof.
  pose proof (sched_csteps race_schedule (map (p_calls nodeD) race, g_empty)) as S.
  destruct (sched race_schedule (map (p_calls nodeD) race, g_empty)) as [ts s] eqn:E. vm_compute in E.
  inversion E; subst. split; [reflexivity|]. split; [|vm_compute; reflexivity].
  apply (q_phase _ g_empty race [[AMarshal (Returns (Some [8; 1], None))]; [AMarshal (Returns (Some [10; 0], None))]]).
  - constructor. constructor.
  - repeat constructor.
  - exact S.
Qed.

(** C23, tie: executed alone, the programs whose operations are interleaved
    above are Size, Marshal and Unmarshal. *)
Theorem alone_is_call : forall D c s,
  match run (p_call D c) s with
  | (Done a, s') => seq_call D c s = (a, s')
  | (Panicked, s') => snd (seq_call D c s) = s'
  | (OutOfFuel, s') => snd (seq_call D c s) = s'
  end.
Proof. exact alone_proof. Qed.
Print Assumptions alone_is_call.

(** C24. A type whose first use panics makes a later call on another type
    succeed with a wrong result, although that call panics when it comes first. *)
Theorem poison_refuted : exists D s x y b, reachable D s /\
  wts D x (SNamed 0) = true /\ wts D y (SNamed 1) = true /\
  fst (Marshal D (IPtr (SNamed 0) (Some x)) s) = Panics Unsupported /\
  fst (Marshal D (IPtr (SNamed 1) (Some y)) s) = Panics Unsupported /\
  fst (Marshal D (IPtr (SNamed 1) (Some y)) (snd (Marshal D (IPtr (SNamed 0) (Some x)) s))) = Returns (Some b, None).
Proof. exact poison_proof. Qed.
Print Assumptions poison_refuted.

(** C24, C40. A struct type one of whose fields has a tag that cannot be parsed or a
    type without a codec is rejected by every call in every reachable state, for
    all declarations: neither earlier calls nor earlier panics make it usable. *)
Theorem rejected_always : forall D sid f fs, nth_error D sid = Some fs -> In f fs -> hopeless_field f = true ->
  forall s, reachable D s -> forall p b x, b <> [] ->
  fst (Size D (IPtr (SNamed sid) p) s) = Panics Unsupported /\
  fst (Marshal D (IPtr (SNamed sid) p) s) = Panics Unsupported /\
  fst (Unmarshal D b (IPtr (SNamed sid) (Some x)) s) = Panics Unsupported.
Proof. exact hopeless_proof. Qed.
Print Assumptions rejected_always.
Example rejected_always_ex :
  hopeless_field (sfield "varint,2,opt" TOther) = true /\
  hopeless_field (sfield "fixed32,2,opt" (TOption KBool)) = false /\
  hopeless_field (sfield "varint,2,opt" (TOption KFloat32)) = true /\
  hopeless_field (sfield "group,2,opt" (TScalar KInt32)) = true /\
  fst (Marshal badD (IPtr (SNamed 0) (Some bad)) (snd (Marshal badD (IPtr (SNamed 0) (Some bad)) g_empty))) = Panics Unsupported.
Proof. vm_compute. repeat split. Qed.
(** C40. For supported declarations with maps whose keys and values share a codec, no
    call panics: every field is read and written as the type it has. *)
Theorem accepted_sound_partial : forall D, supported D = true -> homogeneous D = true -> forall s k x,
  reachable D s -> user_key D k = true -> wts D x k = true ->
  (exists n, fst (Size D (IPtr k (Some x)) s) = Returns n) /\
  (exists b, fst (Marshal D (IPtr k (Some x)) s) = Returns (Some b, None)) /\
  (forall b, bytes_okb b = true -> (zlen b < 2^63)%Z ->
     exists x' e, fst (Unmarshal D b (IPtr k (Some x)) s) = Returns (IPtr k (Some x'), e) /\ wts D x' k = true).
Proof. exact accepted_proof. Qed.
Print Assumptions accepted_sound_partial.
Example accepted_sound_ex : supported sampleD = true /\ homogeneous sampleD = true /\ wts sampleD (VStruct person) (SNamed 0) = true.
Proof. vm_compute. repeat split. Qed.
(** Accepted (Size of a nil pointer returns) and then read as another type. *)
Theorem accepted_sound_refuted : exists D x, wts D x (SNamed 0) = true /\
  fst (Size D (IPtr (SNamed 0) None) g_empty) = Returns 0%Z /\
  fst (Marshal D (IPtr (SNamed 0) (Some x)) g_empty) = Panics Confused.
Proof. exact confusion_proof. Qed.
Print Assumptions accepted_sound_refuted.
