(** Property theorems about Size, Marshal and Unmarshal on typed memory, in
    which messages can share parts and point back to themselves.
    [typed D other W H]: memory [H] is as Go's type system would have it, where
    the world [W] says what is where: values of Go types, bytes of byte slices,
    maps, and map entries for the pools. Each value has the form of its type and
    points only to values of the right type, and two values are the same or do
    not overlap. [struct_at D other W k a]: the fields of a struct of type [k]
    are at [a]. [pooled W l]: the entries [l] in the pools are map entries of
    [W]. [cover D other W]: the memory [W] speaks about. [grows H W W']: [W']
    says the same as [W] about the memory of [H], and more about new memory. *)
From Coq Require Import String.
From Verif Require Import Base Wire GoType Leaf Codec Walker Api Resolve Typing EncFacts WalkFuel WalkSeq ApiFacts Sample RefuteConc Unsafe SpecUnsafe UnsafeSample RefuteUnsafe
  SpecTyped TypedThms TypedTree TypedSample.
Local Open Scope nat_scope.

(** C57. Unmarshal into typed memory returns, leaves typed memory behind, and
    writes only memory of the right kind; its error is the one of Unmarshal
    into any value of the type. *)
Theorem unmarshal_typed : forall D, supported D = true -> forall other grow pick s k b u a W,
  reachable D s -> user_key D k = true -> bytes_okb b = true -> (zlen b < 2^63)%Z ->
  typed D other W (hp u) -> pooled W (pl u) -> struct_at D other W k a ->
  exists u' e s' W',
    uUnmarshal grow pick D other b k u a s = (Returns (u', e), s') /\
    (forall x, wts D x k = true -> exists x', Unmarshal D b (IPtr k (Some x)) s = (Returns (IPtr k (Some x'), e), s')) /\
    typed D other W' (hp u') /\ pooled W' (pl u') /\ grows (hp u) W W' /\ extends (hp u) (hp u') /\
    (forall c o, c < length (hp u) -> ~ cover D other W c o -> spot (hp u') c o = spot (hp u) c o).
Proof. exact unmarshal_typed_proof. Qed.
Print Assumptions unmarshal_typed.
(** A Node that is its own successor. *)
Example unmarshal_typed_loop_ex :
  let b := [8; 5; 18; 4; 18; 2; 8; 9]%N in
  supported nodeD = true /\ bytes_okb b = true /\
  ld_ptr loopH (0, 8) = Some (Some (0, 0)) /\ typed nodeD no_other loopW loopH /\ struct_at nodeD no_other loopW (SNamed 0) (0, 0) /\
  fst (uUnmarshal (fun n => n) (fun _ _ => None) nodeD no_other b (SNamed 0) {| hp := loopH; pl := [] |} (0, 0) g_empty) =
    Returns ({| hp := [OMem (le_cells 4 9 ++ zeros 4 ++ ptr_cells (Some (0, 0)))]; pl := [] |}, None).
Proof.
  cbv zeta. split; [reflexivity|]. split; [reflexivity|]. split; [reflexivity|].
  split; [apply loop_typed|]. split; [apply loop_typed|]. vm_compute. reflexivity.
Qed.
(** Two fields that point to the same Node. *)
Example unmarshal_typed_pair_ex :
  supported pairD = true /\ typed pairD no_other pairW (pairH 1) /\ struct_at pairD no_other pairW (SNamed 0) (0, 0) /\
  fst (uUnmarshal (fun n => n) (fun _ _ => None) pairD no_other [10; 2; 8; 5]%N (SNamed 0) {| hp := pairH 1; pl := [] |} (0, 0) g_empty) =
    Returns ({| hp := pairH 5; pl := [] |}, None).
Proof.
  split; [reflexivity|]. split; [apply pair_typed|]. split; [apply pair_typed|]. vm_compute. reflexivity.
Qed.
(** Memory that represents a value, as in C54, is typed. *)
Theorem represented_typed : forall D other H k a x S l P,
  rep_struct D other true H k a x S -> pool D other H l P -> disjoint S P ->
  exists W, typed D other W H /\ struct_at D other W k a /\ pooled W l /\ subset (cover D other W) (union S P).
Proof. exact memory_typed. Qed.
Print Assumptions represented_typed.
Example represented_typed_ex : exists S P, rep_struct flatD no_other true flatH (SNamed 0) (0, 0) flat_msg S /\
  pool flatD no_other flatH [(flat_entry, (9, 0))] P /\ disjoint S P.
Proof. destruct flat_rep as (S & R & P & Dj & _). eauto. Qed.

(** C58. Size of typed memory does not crash; it returns or, for cyclic
    messages, runs forever. *)
Theorem size_typed : forall D, supported D = true -> forall other s k H a W fuel,
  reachable D s -> user_key D k = true -> typed D other W H -> struct_at D other W k a ->
  forall c, fst (uSize D other fuel k H a s) <> Panics c.
Proof. exact size_typed_proof. Qed.
Print Assumptions size_typed.
Example size_typed_ex : fst (uSize pairD no_other 9 (SNamed 0) (pairH 1) (0, 0) g_empty) = Returns 8%Z /\
  fst (uSize nodeD no_other 9 (SNamed 0) loopH (0, 0) g_empty) = Diverges.
Proof. vm_compute. split; reflexivity. Qed.
(** [homogeneous D]: key and value of every map have the same codec. *)
Theorem marshal_typed_partial : forall D, supported D = true -> forall other s k H a W fuel, homogeneous D = true ->
  reachable D s -> user_key D k = true -> typed D other W H -> struct_at D other W k a ->
  (forall c, fst (uMarshal D other fuel k H a s) <> Panics c) /\
  forall b e, fst (uMarshal D other fuel k H a s) = Returns (b, e) -> e = None.
Proof. exact marshal_typed_proof. Qed.
Print Assumptions marshal_typed_partial.
Example marshal_typed_ex : homogeneous pairD = true /\ homogeneous nodeD = true /\
  fst (uMarshal pairD no_other 9 (SNamed 0) (pairH 1) (0, 0) g_empty) = Returns (Some [10; 2; 8; 1; 18; 2; 8; 1]%N, None) /\
  fst (uMarshal nodeD no_other 9 (SNamed 0) loopH (0, 0) g_empty) = Diverges.
Proof. vm_compute. repeat split. Qed.
Theorem marshal_typed_refuted : exists D other H a W, supported D = true /\ typed D other W H /\ struct_at D other W (SNamed 0) a /\
  exists N, forall fuel, N <= fuel -> fst (uMarshal D other fuel (SNamed 0) H a g_empty) = Panics Confused.
Proof. exact narrow_typed_proof. Qed.
Print Assumptions marshal_typed_refuted.
(** More steps do not change the outcome, so it does not depend on [fuel]. *)
Theorem size_outcome : forall D other k H a s fuel fuel', fuel <= fuel' -> fst (uSize D other fuel k H a s) <> Diverges ->
  uSize D other fuel' k H a s = uSize D other fuel k H a s.
Proof. exact size_more_proof. Qed.
Print Assumptions size_outcome.
Theorem marshal_outcome : forall D other k H a s fuel fuel', fuel <= fuel' -> fst (uMarshal D other fuel k H a s) <> Diverges ->
  uMarshal D other fuel' k H a s = uMarshal D other fuel k H a s.
Proof. exact marshal_more_proof. Qed.
Print Assumptions marshal_outcome.
Example outcome_ex : fst (uMarshal pairD no_other 3 (SNamed 0) (pairH 1) (0, 0) g_empty) = Diverges /\
  fst (uMarshal pairD no_other 4 (SNamed 0) (pairH 1) (0, 0) g_empty) <> Diverges.
Proof. vm_compute. split; [reflexivity|discriminate]. Qed.
