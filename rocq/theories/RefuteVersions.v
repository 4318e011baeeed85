(** Declarations that show changes of types the library does not take. *)
From Coq Require Import String.
From Verif Require Import Base Wire GoType Leaf Codec Tag Walker Api Typing WalkInv WalkSeq SpecWire SpecTag SpecMsg SpecVersions Sample RefuteMsg MsgApi.
Local Open Scope N_scope.

Definition oneD (tag : string) (k : skind) : decls := [[sfield tag (TScalar k)]].
Definition one (s : sty) : schema := [[Field 1 (FImplicit s)]].
Lemma one_documented s s' n a a' : documented s s' = true ->
  In (Field n (FImplicit a)) (msg (one s) 0) -> In (Field n (FImplicit a')) (msg (one s') 0) -> documented a a' = true.
Proof. intros H [E|[]] [E'|[]]. inversion E; inversion E'; subst. exact H. Qed.
Lemma bool_change : exists D sch D' sch' xs b x e, covers D sch = true /\ covers D' sch' = true /\
  (forall n s s', In (Field n (FImplicit s)) (msg sch 0) -> In (Field n (FImplicit s')) (msg sch' 0) -> documented s s' = true) /\
  legal D sch xs /\ fst (Marshal D (ptr 0 xs) g_empty) = Returns (Some b, None) /\
  fst (Unmarshal D' b (ptr 0 (zeros (msg sch' 0))) g_empty) = Returns (x, Some e).
Proof.
  exists (oneD "varint,1,opt" KInt32), (one Y_int32), (oneD "varint,1,opt" KBool), (one Y_bool), [VI32 128]. do 3 eexists.
  split; [vm_compute; reflexivity|]. split; [vm_compute; reflexivity|].
  split; [intros n s s'; apply one_documented; reflexivity|]. split; [split; [|split]; vm_compute; reflexivity|].
  split; [vm_compute; reflexivity|]. vm_compute. reflexivity.
Qed.
Lemma sint_change : exists D sch D' sch' xs b ys zs, covers D sch = true /\ covers D' sch' = true /\
  (forall n s s', In (Field n (FImplicit s)) (msg sch 0) -> In (Field n (FImplicit s')) (msg sch' 0) -> documented s s' = true) /\
  legal D sch xs /\ fst (Marshal D (ptr 0 xs) g_empty) = Returns (Some b, None) /\
  merge sch' (S (List.length b)) (msg sch' 0) (zeros (msg sch' 0)) b = MOk zs /\
  fst (Unmarshal D' b (ptr 0 (zeros (msg sch' 0))) g_empty) = Returns (ptr 0 ys, None) /\ map norm ys <> map norm zs.
Proof.
  exists (oneD "zigzag64,1,opt" KInt64), (one Y_sint64), (oneD "zigzag32,1,opt" KInt32), (one Y_sint32), [VI64 2147483648]. do 3 eexists.
  split; [vm_compute; reflexivity|]. split; [vm_compute; reflexivity|].
  split; [intros n s s'; apply one_documented; reflexivity|]. split; [split; [|split]; vm_compute; reflexivity|].
  split; [vm_compute; reflexivity|]. split; [vm_compute; reflexivity|]. split; [vm_compute; reflexivity|]. vm_compute. discriminate.
Qed.
