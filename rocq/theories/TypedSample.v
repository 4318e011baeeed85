(** Messages with shared parts and cyclic messages as typed memory. *)
From Coq Require Import String.
From Verif Require Import Base Wire GoType Leaf Codec Walker Resolve Api Typing Sample WalkFuel RefuteConc Unsafe SpecUnsafe UnsafeMem UnsafeRep UnsafeSample RefuteUnsafe SpecTyped TypedFacts TypedTree.
Local Open Scope nat_scope.

Definition listw (L : list (gotype * addr)) : world :=
  {| wval := fun t a => In (t, a) L; wbyte := fun _ => False; wmap := fun _ _ _ => False; wentry := fun _ _ => False |}.
(** A Node that is its own successor. *)
Definition loopW : world := listw [(TScalar KInt32, (0, 0)); (TMsg 0, (0, 8))].
Lemma loop_typed : typed nodeD no_other loopW loopH /\ struct_at nodeD no_other loopW (SNamed 0) (0, 0).
Proof.
  assert (A : struct_at nodeD no_other loopW (SNamed 0) (0, 0)).
  { intros t p I. vm_compute in I. destruct I as [I|[I|[]]]; inversion I; subst; [left|right; left]; reflexivity. }
  split; [|exact A]. constructor; try contradiction.
  - intros t a [E|[E|[]]]; inversion E; subst.
    + exists (VI32 1). eapply rep_num; [reflexivity|reflexivity|mem].
    + exists (Some (0, 0)). split; [mem|exact A].
  - intros t a t' a' [E|[E|[]]] [E'|[E'|[]]]; inversion E; inversion E'; subst; (left; split; reflexivity) || (right; sets).
Qed.
(** Two fields that point to the same Node. *)
Definition pairW : world := listw [(TMsg 1, (0, 0)); (TMsg 1, (0, 8)); (TScalar KInt32, (1, 0))].
Lemma pair_typed : typed pairD no_other pairW (pairH 1) /\ struct_at pairD no_other pairW (SNamed 0) (0, 0).
Proof.
  assert (B : struct_at pairD no_other pairW (SNamed 1) (1, 0)).
  { intros t p I. vm_compute in I. destruct I as [I|[]]; inversion I; subst. right; right; left; reflexivity. }
  split.
  - constructor; try contradiction.
    + intros t a [E|[E|[E|[]]]]; inversion E; subst.
      * exists (Some (1, 0)). split; [mem|exact B].
      * exists (Some (1, 0)). split; [mem|exact B].
      * exists (VI32 1). eapply rep_num; [reflexivity|reflexivity|mem].
    + intros t a t' a' [E|[E|[E|[]]]] [E'|[E'|[E'|[]]]]; inversion E; inversion E'; subst; (left; split; reflexivity) || (right; sets).
  - intros t p I. vm_compute in I. destruct I as [I|[I|[]]]; inversion I; subst; [left|right; left]; reflexivity.
Qed.
(** map<int64, bool>, as in [narrow_proof]. *)
Lemma narrow_typed_proof : exists D other H a W, supported D = true /\ typed D other W H /\ struct_at D other W (SNamed 0) a /\
  exists N, forall fuel, N <= fuel -> fst (uMarshal D other fuel (SNamed 0) H a g_empty) = Panics Confused.
Proof.
  destruct narrow_proof as (D & other & H & a & x & S & HP & _ & R & _ & N).
  destruct (struct_typed D other _ _ _ _ _ R) as (W & T & A & _). exists D, other, H, a, W. auto.
Qed.
