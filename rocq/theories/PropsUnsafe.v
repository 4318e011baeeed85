(** Property theorems about Size, Marshal and Unmarshal on flat memory: objects
    of bytes, addresses and pointer arithmetic.
    [rep_struct D other sep H k a x S]: in heap [H] the struct of type [k] at
    address [a] has the value [x], and [S] is the memory it consists of; with
    [sep] no two parts of it overlap. [pool D other H l P]: the entries [l] in
    the pools are zeroed memory [P]. [other] gives size and alignment of fields
    the codec does not look at; [grow] is how much append allocates in excess;
    [pick] is which pooled entry, if any, sync.Pool.Get returns. *)
From Coq Require Import String.
From Verif Require Import Base Wire GoType Leaf Codec Walker Api Resolve Typing EncFacts WalkFuel WalkSeq ApiFacts Sample Unsafe SpecUnsafe UnsafeThms UnsafeSample RefuteUnsafe.
Local Open Scope nat_scope.

(** C54. Unmarshal on memory computes what Unmarshal on values computes; it
    never accesses memory outside an object or at a wrong type (the outcome
    [Confused]), writes only memory of the message, pooled entries and new
    memory, and does not let the message and the pools overlap. *)
Theorem unmarshal_memory : forall D other grow pick, supported D = true -> forall s k b u a x S P,
  reachable D s -> user_key D k = true -> wts D x k = true -> bytes_okb b = true -> (zlen b < 2^63)%Z ->
  rep_struct D other true (hp u) k a x S -> pool D other (hp u) (pl u) P -> disjoint S P ->
  exists u' x' e s' S' P',
    uUnmarshal grow pick D other b k u a s = (Returns (u', e), s') /\
    Unmarshal D b (IPtr k (Some x)) s = (Returns (IPtr k (Some x'), e), s') /\
    wts D x' k = true /\
    rep_struct D other true (hp u') k a x' S' /\ pool D other (hp u') (pl u') P' /\ disjoint S' P' /\
    subset S' (union S (unborn (hp u))) /\ subset P' (union P (unborn (hp u))) /\
    extends (hp u) (hp u') /\
    (forall c o, c < length (hp u) -> ~ union S P c o -> spot (hp u') c o = spot (hp u) c o).
Proof. exact (fun D other grow pick HP => unmarshal_flat_proof D HP other grow pick). Qed.
Print Assumptions unmarshal_memory.
Example unmarshal_memory_ex :
  let b := [8; 5; 18; 1; 67; 26; 2; 8; 9; 34; 6; 10; 1; 97; 18; 1; 99; 34; 3; 10; 1; 100]%N in
  let u := {| hp := flatH; pl := [(flat_entry, (9, 0))] |} in
  supported flatD = true /\ wts flatD flat_msg (SNamed 0) = true /\ bytes_okb b = true /\
  (exists S, rep_struct flatD no_other true flatH (SNamed 0) (0, 0) flat_msg S /\
    pool flatD no_other flatH [(flat_entry, (9, 0))] (union (range (9, 0) 32) none) /\ disjoint S (union (range (9, 0) 32) none) /\
    disjoint S (range (8, 0) 2)) /\
  exists u', fst (uUnmarshal (fun n => n) (fun _ _ => Some 0) flatD no_other b (SNamed 0) u (0, 0) g_empty) = Returns (u', None) /\
    length (hp u') = 16 /\ ld_n (hp u') (0, 0) 4 = Some 5%N /\ nth_error (hp u') 1 = Some (OMem [MB 67; MB 66; MB 0]) /\
    nth_error (hp u') 4 = Some (OMap [(5, 6); (14, 15)]) /\ nth_error (hp u') 6 = Some (OMem (str_hdr (Some (12, 0)) 1)) /\
    nth_error (hp u') 9 = Some (OMem (zeros 32)) /\ pl u' = [(flat_entry, (9, 0))].
Proof.
  cbv zeta. split; [reflexivity|]. split; [reflexivity|]. split; [reflexivity|]. split; [exact flat_rep|].
  eexists. split; [vm_compute; reflexivity|]. vm_compute. repeat split.
Qed.
(** Whatever else the memory represents stays as it was. *)
Theorem unmarshal_spares_others : forall D, supported D = true -> forall other grow pick s k b u a x S P,
  reachable D s -> user_key D k = true -> wts D x k = true -> bytes_okb b = true -> (zlen b < 2^63)%Z ->
  rep_struct D other true (hp u) k a x S -> pool D other (hp u) (pl u) P -> disjoint S P ->
  forall sep k2 a2 y S2, rep_struct D other sep (hp u) k2 a2 y S2 -> disjoint S2 S -> disjoint S2 P ->
  exists u' e s', uUnmarshal grow pick D other b k u a s = (Returns (u', e), s') /\
    rep_struct D other sep (hp u') k2 a2 y S2.
Proof. exact others_proof. Qed.
Print Assumptions unmarshal_spares_others.
(** Every value has a representation, so the theorems speak about all values. *)
Theorem memory_exists : forall D other k x H, user_key D k = true -> wts D x k = true ->
  exists H' y S, extends H H' /\ rep_struct D other true H' k (y, 0) x S /\ subset S (unborn H) /\
    (forall b o, b < length H -> spot H' b o = spot H b o).
Proof. exact represented_proof. Qed.
Print Assumptions memory_exists.
Example memory_exists_ex : user_key sampleD (SNamed 0) = true /\ wts sampleD (VStruct person) (SNamed 0) = true.
Proof. vm_compute. repeat split. Qed.

(** C55. Size and Marshal on memory compute what they compute on values, also
    if parts of the message are shared ([sep] can be false). *)
Theorem size_memory : forall D other, supported D = true -> forall s k H a x S sep,
  reachable D s -> user_key D k = true -> wts D x k = true -> rep_struct D other sep H k a x S ->
  exists n s' N, Size D (IPtr k (Some x)) s = (Returns n, s') /\
    forall fuel, N <= fuel -> uSize D other fuel k H a s = (Returns n, s').
Proof. exact (fun D other HP => size_flat_proof D HP other). Qed.
Print Assumptions size_memory.
Example size_memory_ex : fst (uSize flatD no_other 10 (SNamed 0) flatH (0, 0) g_empty) = Returns 19%Z /\
  fst (Size flatD (IPtr (SNamed 0) (Some flat_msg)) g_empty) = Returns 19%Z.
Proof. vm_compute. repeat split. Qed.
(** [homogeneous D]: key and value of every map have the same codec. *)
Theorem marshal_memory_partial : forall D, supported D = true -> homogeneous D = true -> forall other s k H a x S sep,
  reachable D s -> user_key D k = true -> wts D x k = true -> rep_struct D other sep H k a x S ->
  exists b s' N, Marshal D (IPtr k (Some x)) s = (Returns (Some b, None), s') /\
    forall fuel, N <= fuel -> uMarshal D other fuel k H a s = (Returns (Some b, None), s').
Proof. exact marshal_homogeneous_proof. Qed.
Print Assumptions marshal_memory_partial.
Example marshal_memory_ex : supported flatD = true /\ homogeneous flatD = true /\
  fst (uMarshal flatD no_other 10 (SNamed 0) flatH (0, 0) g_empty) =
    Returns (Some [8; 7; 18; 2; 65; 66; 26; 2; 34; 0; 34; 7; 10; 1; 97; 18; 2; 97; 98]%N, None).
Proof. vm_compute. repeat split. Qed.
(** Without [homogeneous]: whenever Marshal of the value returns. *)
Theorem marshal_memory_agrees : forall D other, supported D = true -> forall s k H a x S sep,
  reachable D s -> user_key D k = true -> rep_struct D other sep H k a x S -> forall b s',
  Marshal D (IPtr k (Some x)) s = (Returns (Some b, None), s') ->
  exists N, forall fuel, N <= fuel -> uMarshal D other fuel k H a s = (Returns (Some b, None), s').
Proof. exact (fun D other HP => marshal_flat_proof D HP other). Qed.
Print Assumptions marshal_memory_agrees.
(** map<int64, bool>: map.go:80 reads eight bytes at a bool. *)
Theorem marshal_memory_refuted : exists D other H a x S, supported D = true /\ wts D x (SNamed 0) = true /\
  rep_struct D other true H (SNamed 0) a x S /\
  (exists n, fst (Size D (IPtr (SNamed 0) (Some x)) g_empty) = Returns n) /\
  exists N, forall fuel, N <= fuel -> fst (uMarshal D other fuel (SNamed 0) H a g_empty) = Panics Confused.
Proof. exact narrow_proof. Qed.
Print Assumptions marshal_memory_refuted.

(** C56. Two fields share a message: Unmarshal of one changes the other. *)
Theorem shared_parts_refuted : exists D other H a x y z b S S', supported D = true /\
  rep_struct D other false H (SNamed 0) a x S /\
  fst (Unmarshal D b (IPtr (SNamed 0) (Some x)) g_empty) = Returns (IPtr (SNamed 0) (Some y), None) /\
  (forall grow pick, exists u', fst (uUnmarshal grow pick D other b (SNamed 0) {| hp := H; pl := [] |} a g_empty) = Returns (u', None) /\
     rep_struct D other false (hp u') (SNamed 0) a z S') /\ y <> z.
Proof. exact shared_proof. Qed.
Print Assumptions shared_parts_refuted.
(** A message that contains itself: Size and Marshal do not return. *)
Theorem cyclic_refuted : exists D other H a, supported D = true /\ ld_ptr H (shift a (foffset D other (SNamed 0) 1)) = Some (Some a) /\
  forall fuel, fst (uSize D other fuel (SNamed 0) H a g_empty) = Diverges /\ fst (uMarshal D other fuel (SNamed 0) H a g_empty) = Diverges.
Proof. exact cycle_proof. Qed.
Print Assumptions cyclic_refuted.
