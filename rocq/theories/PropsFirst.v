(** Property theorems about the cost of building codecs (C79). [declared D]
    (SpecFirst.v) is the number of types that the fields of the declared structs
    are written with. [amid] (First.v) runs the walker while other goroutines use
    the caches, and counts. All declarations are meant, supported or not. *)
From Coq Require Import String.
From Verif Require Import Base GoType Leaf Codec Walker Api Conc Typing WalkSeq Sample SpecAny SpecFirst First FirstFacts FirstConc RefuteFirst RefuteConc.
Local Open Scope nat_scope.

(** Nothing is ever taken out of the cache of types, whatever a goroutine does. *)
Theorem cached_for_good : forall o s k, cached s k -> cached (snd (exec o s)) k.
Proof. exact kept_proof. Qed.
Print Assumptions cached_for_good.
(** A call spends operations on building codecs in proportion to the
    declarations, recursive or not, whatever the caches hold and whatever other
    goroutines do, and whether it returns, panics or is still running. *)
Theorem first_use_linear : forall D fuel k s n r s', user_key D k = true -> amid every (cachedStructInfoOf D fuel k) s n r s' ->
  n <= 18 * declared D + 4 * List.length D + 35.
Proof. exact first_use_proof. Qed.
Print Assumptions first_use_linear.
(** Once a call with a type has returned, all later calls spend one operation. *)
Theorem later_use_constant : forall D fuel k s s1 s2 n r s', user_key D k = true -> used D k s s1 ->
  (forall q, cached s1 q -> cached s2 q) -> amid every (cachedStructInfoOf D fuel k) s2 n r s' -> n <= 1.
Proof. exact later_use. Qed.
Print Assumptions later_use_constant.
(** However many calls have returned, codecs, structInfos and entries of caches
    are in proportion to the declarations. Partial: calls that panic are left out. *)
Theorem caches_bounded_partial : forall D s, answered D s -> memory s <= 18 * declared D + 4 * List.length D + 32.
Proof. exact answered_proof. Qed.
Print Assumptions caches_bounded_partial.
(** A single call, whatever its outcome, adds no more than that. *)
Theorem one_call_memory : forall D v b s, iface_ok D v = true ->
  forall s', s' = snd (Size D v s) \/ s' = snd (Marshal D v s) \/ s' = snd (Unmarshal D b v s) ->
  memory s' <= memory s + (18 * declared D + 4 * List.length D + 32).
Proof. exact one_call_proof. Qed.
Print Assumptions one_call_memory.
(** Up to [G] goroutines at the same time, making any numbers of calls, again and
    again: memory stays within [G] times what the declarations account for, also
    while calls are running, and however the goroutines are interleaved. *)
Theorem concurrent_memory : forall D G s css ts s', shared D G s -> List.length css <= G -> declared_args D css ->
  csteps (map (p_calls D) css, s) (ts, s') -> memory s' <= G * (18 * declared D + 4 * List.length D + 32).
Proof. exact shared_proof. Qed.
Print Assumptions concurrent_memory.
(** And their operations on codecs and caches, without those of calls of codecs. A
    goroutine may panic. *)
Theorem concurrent_building : forall D css s n c, declared_args D css -> spent building (map (p_calls D) css, s) n c ->
  n <= List.length css * (18 * declared D + 4 * List.length D + 32) + 3 * list_sum (map (@List.length call) css).
Proof. exact building_proof. Qed.
Print Assumptions concurrent_building.
(** The counted executions are those of C23. *)
Theorem counted_executions : forall f c0 c, csteps c0 c <-> exists n, spent f c0 n c.
Proof. exact spent_csteps_proof. Qed.
Print Assumptions counted_executions.
(** Two goroutines that take turns build more than one that has finished when the
    other starts; a second phase adds nothing. *)
Example concurrent_memory_ex :
  let css := [[CSize (IPtr (SNamed 0) None); CSize (IPtr (SNamed 0) None)]; [CSize (IPtr (SNamed 0) None)]] in
  let ans := [[ASize (Returns 0%Z); ASize (Returns 0%Z)]; [ASize (Returns 0%Z)]] in
  let c0 := (map (p_calls sampleD) css, g_empty) in
  declared_args sampleD css /\
  (let '(ts, s) := sched (repeat 0 100 ++ repeat 1 60) c0 in ts = map Ret ans /\ memory s = 17) /\
  (let '(ts, s) := sched (flat_map (fun _ => [0; 1]) (seq 0 60)) c0 in ts = map Ret ans /\ memory s = 29 /\ shared sampleD 2 s /\
     memory (snd (sched (repeat 0 20 ++ repeat 1 20) (map (p_calls sampleD) css, s))) = 29).
Proof.
  cbv zeta. split; [repeat constructor|]. split; [vm_compute; split; reflexivity|].
  match goal with |- context[sched ?l ?c] => pose proof (sched_csteps l c) as S; destruct (sched l c) as [ts s] eqn:E end.
  vm_compute in E. inversion E; subst. split; [reflexivity|]. split; [reflexivity|]. split; [|vm_compute; reflexivity].
  eapply (shared_phase sampleD 2 g_empty) with (ans := [[ASize (Returns 0%Z); ASize (Returns 0%Z)]; [ASize (Returns 0%Z)]]); [constructor| | |exact S];
    [repeat constructor|repeat constructor].
Qed.
(** The sample types: the first call, a second call with the same type, and a
    call with another type; a call that panics. *)
Example first_use_ex :
  declared sampleD = 22 /\
  (let p := cachedStructInfoOf sampleD (walk_fuel sampleD) (SNamed 0) in
   let s := snd (run p g_empty) in
   user_key sampleD (SNamed 0) = true /\ count every p g_empty = 40 /\ memory s = 17 /\ count every p s = 1 /\
   memory (snd (Size sampleD (IPtr (SNamed 1) None) s)) = 17 /\ fst (Size sampleD (IPtr (SNamed 0) None) g_empty) = Returns 0%Z) /\
  count every (cachedStructInfoOf leakD (walk_fuel leakD) (SNamed 0)) g_empty = 9.
Proof. vm_compute. repeat split. Qed.
(** With calls that panic it is false: there are declarations with which the
    caches grow beyond every bound. *)
Theorem caches_bounded_refuted : exists D, forall bound, exists s,
  reachable D s /\ NoDup (map fst (g_sliceMap s)) /\ bound < List.length (g_sliceMap s).
Proof. exact leak_proof. Qed.
Print Assumptions caches_bounded_refuted.
