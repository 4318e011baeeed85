(** Counterexamples on flat memory: messages with shared parts, cyclic messages,
    and the read outside an object in map.go:80. *)
From Coq Require Import String.
From Verif Require Import Base Wire GoType Leaf Codec Walker Resolve Api Typing Sample WalkFuel RefuteConc Unsafe SpecUnsafe UnsafeMem UnsafeRep UnsafeEqs UnsafeSample.
Local Open Scope nat_scope.

(** message Pair { Node a = 1; Node b = 2; }, both fields pointing to the same Node. *)
Definition pairD : decls := [[ sfield "bytes,1,opt" (TMsg 1); sfield "bytes,2,opt" (TMsg 1) ]; [ sfield "varint,1,opt" (TScalar KInt32) ]].
Definition pairH (n : N) : heap := [ OMem (ptr_cells (Some (1, 0)) ++ ptr_cells (Some (1, 0))); OMem (le_cells 4 n) ].
Definition leaf (z : Z) : val := VPtr (Some (VStruct [VI32 z])).
Lemma pair_rep n z : k_cells (VI32 z) = Some (le_cells 4 n) -> wt pairD (VI32 z) (TScalar KInt32) = true ->
  exists S, rep_struct pairD no_other false (pairH n) (SNamed 0) (0, 0) (VStruct [leaf z; leaf z]) S.
Proof.
  intros K W. assert (L : exists S, rep pairD no_other false (pairH n) (TMsg 1) (0, 0) (leaf z) S /\ rep pairD no_other false (pairH n) (TMsg 1) (0, 8) (leaf z) S).
  { eexists. split; (eapply (rep_msg _ _ _ _ _ _ (1, 0)); [cbn; lia|reflexivity|]);
      (change (placed pairD no_other (SNamed 1) (1, 0)) with [(TScalar KInt32, (1, 0))];
       eapply box_cons; [eapply rep_num; [exact W|exact K|reflexivity]|apply box_nil|discriminate|discriminate]). }
  destruct L as (S & R1 & R2). eexists. exists [leaf z; leaf z]. split; [reflexivity|].
  change (placed pairD no_other (SNamed 0) (0, 0)) with [(TMsg 1, (0, 0)); (TMsg 1, (0, 8))].
  eapply box_cons; [exact R1| |discriminate|discriminate]. eapply box_cons; [exact R2|apply box_nil|discriminate|discriminate].
Qed.

Lemma shared_proof : exists D other H a x y z b S S', supported D = true /\
  rep_struct D other false H (SNamed 0) a x S /\
  fst (Unmarshal D b (IPtr (SNamed 0) (Some x)) g_empty) = Returns (IPtr (SNamed 0) (Some y), None) /\
  (forall grow pick, exists u', fst (uUnmarshal grow pick D other b (SNamed 0) {| hp := H; pl := [] |} a g_empty) = Returns (u', None) /\
     rep_struct D other false (hp u') (SNamed 0) a z S') /\ y <> z.
Proof.
  destruct (pair_rep 1 1 eq_refl eq_refl) as [S R]. destruct (pair_rep 5 5 eq_refl eq_refl) as [S' R'].
  exists pairD, no_other, (pairH 1), (0, 0), (VStruct [leaf 1; leaf 1]), (VStruct [leaf 5; leaf 1]), (VStruct [leaf 5; leaf 5]), [10; 2; 8; 5]%N, S, S'.
  split; [reflexivity|]. split; [exact R|]. split; [vm_compute; reflexivity|]. split; [|discriminate].
  intros grow pick. exists {| hp := pairH 5; pl := [] |}. split; [vm_compute; reflexivity|exact R'].
Qed.

(** A Node that is its own successor. *)
Definition loopH : heap := [ OMem (le_cells 4 1 ++ zeros 4 ++ ptr_cells (Some (0, 0))) ].
Lemma usizes_S {R I} (look : R -> cbody R I) iget D other fuel k i H a : usizes look iget D other (S fuel) k i H a =
  sum_api (map (fun f => usz look iget D other fuel (f_codec f) H (field_addr D other k a f) (f_meta f)) (i_fields (iget i))).
Proof. reflexivity. Qed.
Lemma cycle_proof : exists D other H a, supported D = true /\ ld_ptr H (shift a (foffset D other (SNamed 0) 1)) = Some (Some a) /\
  forall fuel, fst (uSize D other fuel (SNamed 0) H a g_empty) = Diverges /\ fst (uMarshal D other fuel (SNamed 0) H a g_empty) = Diverges.
Proof.
  exists nodeD, no_other, loopH, (0, 0). split; [reflexivity|]. split; [vm_compute; reflexivity|].
  unfold uSize, uMarshal, with_info.
  destruct (run (cachedStructInfoOf nodeD (walk_fuel nodeD) (SNamed 0)) g_empty) as [[i| |] s] eqn:E; try (vm_compute in E; discriminate E).
  assert (L : forall fuel, usizes (hlook s) (higet s) nodeD no_other fuel (SNamed 0) i loopH (0, 0) = Diverges).
  { vm_compute in E. inversion E; subst. clear E.
    induction fuel as [fuel IH] using lt_wf_ind. destruct fuel as [|[|fuel]]; [reflexivity|reflexivity|].
    rewrite usizes_S. cbn -[usz]. rewrite !usz_S. cbn -[usizes]. rewrite IH by lia. reflexivity. }
  intros fuel. cbn [fst]. rewrite L. split; reflexivity.
Qed.

(** map<int64, bool>: Marshal calls the size function of int64 on a bool. *)
Definition narrowD : decls := [[ smap "bytes,1,rep" "varint,1,opt" "varint,2,opt" (TMap KInt64 (TScalar KBool)) ]].
Definition narrowH : heap := [ OMem (ptr_cells (Some (1, 0))); OMap [(2, 3)]; OMem (le_cells 8 5); OMem [MB 1] ].
Lemma narrow_proof : exists D other H a x S, supported D = true /\ wts D x (SNamed 0) = true /\
  rep_struct D other true H (SNamed 0) a x S /\
  (exists n, fst (Size D (IPtr (SNamed 0) (Some x)) g_empty) = Returns n) /\
  exists N, forall fuel, N <= fuel -> fst (uMarshal D other fuel (SNamed 0) H a g_empty) = Panics Confused.
Proof.
  exists narrowD, no_other, narrowH, (0, 0), (VStruct [VMap (Some [(VI64 5, VBool true)])]).
  eexists. split; [reflexivity|]. split; [reflexivity|]. split; [|split; [eexists; vm_compute; reflexivity|]].
  - exists [VMap (Some [(VI64 5, VBool true)])]. split; [reflexivity|].
    change (placed narrowD no_other (SNamed 0) (0, 0)) with [(TMap KInt64 (TScalar KBool), (0, 0))].
    eapply box_cons; [eapply (rep_map _ _ _ _ _ _ _ 1 [(2, 3)]); [mem|reflexivity|reflexivity|..]|apply box_nil|..].
    + cbn [flat flat_map slots fst snd app]. eapply box_cons; [eapply rep_num; [reflexivity|reflexivity|mem]| |..].
      * eapply box_cons; [eapply rep_num; [reflexivity|reflexivity|mem]|apply box_nil|sep|sep].
      * sep.
      * sep.
    + sep.
    + sep.
    + sep.
  - exists 3. intros [|[|[|fuel]]] Hf; try lia. vm_compute. reflexivity.
Qed.
