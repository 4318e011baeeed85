(** Witnesses against properties of the caches that do not hold in general. *)
From Coq Require Import String.
From Verif Require Import Base Wire GoType Leaf Codec Tag Walker Api Conc SpecConc Typing WalkSeq EncFacts ApiFacts SpecReject RejectFacts Sample.
Local Open Scope N_scope.

(** Executing the goroutines in a given order. *)
Definition step1 (i : nat) (c : config) : config :=
  let '(ts, s) := c in
  match nth_error ts i with
  | Some (Do o k) => (firstn i ts ++ k (fst (exec o s)) :: skipn (S i) ts, snd (exec o s))
  | _ => c
  end.
Fixpoint sched (l : list nat) (c : config) : config :=
  match l with [] => c | i :: l => sched l (step1 i c) end.
Lemma sched_csteps l : forall c, csteps c (sched l c).
Proof.
  induction l as [|i l IH]; intros [ts s]; [constructor|]. cbn [sched step1].
  destruct (nth_error ts i) as [[a| | |o k]|] eqn:E; try apply IH.
  econstructor; [|apply IH]. apply nth_error_split in E. destruct E as (l1 & l2 & -> & <-).
  rewrite firstn_app, Nat.sub_diag, firstn_all. cbn [firstn]. rewrite app_nil_r.
  replace (skipn (S (length l1)) (l1 ++ Do o k :: l2)) with l2.
  - constructor.
  - rewrite skipn_app. replace (S (length l1) - length l1)%nat with 1%nat by lia. rewrite skipn_all2 by lia. reflexivity.
Qed.

(** message Node { int32 x = 1; Node next = 2; }  message Box { Node node = 1; } *)
Definition nodeD : decls :=
  [[ sfield "varint,1,opt" (TScalar KInt32); sfield "bytes,2,opt" (TMsg 0)];
   [ sfield "bytes,1,opt" (TMsg 0) ]].
Definition node : val := VStruct [VI32 1; VPtr None].
Definition box : val := VStruct [VPtr (Some node)].
(** One goroutine marshals a Node and has put the codec of the pointer to Node in the
    cache, but not yet stored the fields of Node (walker.go:119 is before
    walker.go:267); the other marshals a Box, whose node then is encoded as an
    empty message. *)
Definition race : list (list call) :=
  [[CMarshal (IPtr (SNamed 0) (Some node))]; [CMarshal (IPtr (SNamed 1) (Some box))]].
Definition race_schedule : list nat := (repeat 0 8 ++ repeat 1 60 ++ repeat 0 60)%nat.

Lemma race_proof : exists D css ts s ans, supported D = true /\
  Forall (Forall (fun c => match c with CMarshal (IPtr k (Some x)) => wts D x k = true | _ => False end)) css /\
  csteps (map (p_calls D) css, g_empty) (ts, s) /\
  nth_error ts 1 = Some (Ret ans) /\
  nth_error (map (map (fun c => fst (seq_call D c g_empty))) css) 1 <> Some ans.
Proof.
  exists nodeD, race. eexists. eexists. exists [AMarshal (Returns (Some [10; 0], None))].
  split; [reflexivity|]. split; [repeat constructor|].
  split; [rewrite <- surjective_pairing; apply (sched_csteps race_schedule)|].
  split; [vm_compute; reflexivity|]. vm_compute. discriminate.
Qed.

(** type Bad struct { Next *Bad; X chan int }; type Other struct { B *Bad; N int32 }: marshalling an
    Other panics, unless marshalling a Bad panicked before; then the B field is
    written as an empty message. *)
Definition badD : decls :=
  [[ sfield "bytes,1,opt" (TMsg 0); sfield "varint,2,opt" TOther ];
   [ sfield "bytes,1,opt" (TMsg 0); sfield "varint,2,opt" (TScalar KInt32)]].
Definition bad : val := VStruct [VPtr (Some (VStruct [VPtr None; VOther 0])); VOther 0].
Definition other : val := VStruct [VPtr (Some bad); VI32 5].
Lemma poison_proof : exists D s x y b, reachable D s /\
  wts D x (SNamed 0) = true /\ wts D y (SNamed 1) = true /\
  fst (Marshal D (IPtr (SNamed 0) (Some x)) s) = Panics Unsupported /\
  fst (Marshal D (IPtr (SNamed 1) (Some y)) s) = Panics Unsupported /\
  fst (Marshal D (IPtr (SNamed 1) (Some y)) (snd (Marshal D (IPtr (SNamed 0) (Some x)) s))) = Returns (Some b, None).
Proof.
  exists badD, g_empty, bad, other, [10; 0; 16; 5]. split; [constructor|]. repeat split; vm_compute; reflexivity.
Qed.

(** A type that is accepted and whose field is then read as another type: the
    field is a pointer to uint32, the codec that of fixed32 values (walker.go:174-179). *)
Lemma confusion_proof : exists D x, wts D x (SNamed 0) = true /\
  fst (Size D (IPtr (SNamed 0) None) g_empty) = Returns 0%Z /\
  fst (Marshal D (IPtr (SNamed 0) (Some x)) g_empty) = Panics Confused.
Proof.
  exists [[sfield "fixed32,1,opt" (TPtr (TScalar KUint32))]], (VStruct [VPtr (Some (VU32 7))]).
  repeat split; vm_compute; reflexivity.
Qed.

Lemma accepted_proof : forall D, supported D = true -> homogeneous D = true -> forall s k x,
  reachable D s -> user_key D k = true -> wts D x k = true ->
  (exists n, fst (Size D (IPtr k (Some x)) s) = Returns n) /\
  (exists b, fst (Marshal D (IPtr k (Some x)) s) = Returns (Some b, None)) /\
  (forall b, bytes_okb b = true -> (zlen b < 2^63)%Z ->
     exists x' e, fst (Unmarshal D b (IPtr k (Some x)) s) = Returns (IPtr k (Some x'), e) /\ wts D x' k = true).
Proof.
  intros D HD Hh s k x Hs Hk Hx.
  destruct (size_exact_proof D HD s s k x Hs Hs Hk Hx Hh) as (b & E1 & E2).
  split; [eauto|]. split; [eauto|]. intros b' Hb Hl. apply unmarshal_total_proof; assumption.
Qed.
