(** Messages with lists of one Go type and two protobuf types. *)
From Coq Require Import String.
From Verif Require Import Base Wire GoType Leaf Codec Tag Walker Api Resolve Typing SpecWire SpecTag SpecMsg SpecProto SpecOut SpecIn SpecZig
  WalkSeq MsgApi ProtoGen ProtoFacts ProtoFit ProtoThms OutFacts OutThms InThms ProgramFacts GenText GenDesc SpecText SpecGo SpecDesc SpecProgram ZigThms ZigRound.
Local Open Scope N_scope.

(** message Outer { repeated sint32 a = 1; Inner b = 2; } message Inner { repeated int32 c = 1; } *)
Definition zigF : descriptors :=
  [{| m_entry := false; m_oneofs := [];
      m_fields := [rep_field 1 Sint32Kind 0;
        {| d_number := 2; d_kind := MessageKind; d_card := CardOptional; d_presence := true; d_weak := false; d_message := 1; d_oneof := None |}] |};
   {| m_entry := false; m_oneofs := []; m_fields := [rep_field 1 Int32Kind 0] |}].
Definition zigS : schema := schema_of zigF.
Definition zig_inner : list val := [VSlice true [VI32 1; VI32 (-1)] []].
Definition zig_outer : list val := [VSlice true [VI32 3] []; VPtr (Some (VStruct zig_inner))].
Lemma zig_writable : writable zigS 0 zig_outer.
Proof.
  intros sch' A. unfold alike in A. change zigS with [[Field 1 (FRepeated (FAlways Y_sint32)); Field 2 (FMessage 1)]; [Field 1 (FRepeated (FAlways Y_int32))]] in A.
  repeat match goal with H : Forall2 _ (_ :: _) _ |- _ => inversion H; clear H; subst | H : Forall2 _ [] _ |- _ => inversion H; clear H; subst end.
  repeat match goal with H : alike_field _ _ _ |- _ => destruct H as [<-|(? & ? & E & -> & _)]; [|inversion E; clear E; subst] end; vm_compute; split; reflexivity.
Qed.

(** ** Generated messages *)
Lemma generated_calls_alike_proof F : valid F = true -> usable F = true -> separate (schema_of F) = true ->
  forall rs, Forall (fun r => iface_ok (generate F) (request_arg r) = true) rs ->
  exists sch', alike (schema_of F) sch' /\ Forall2 (right_answer (generate F) sch') rs (answers (generate F) rs g_empty).
Proof.
  intros HV HU HP. apply calls_alike_proof; [apply generated_implements; assumption|apply schema_valid; assumption|apply schema_generable|exact HP].
Qed.
Lemma generated_own_reading_proof F : valid F = true -> usable F = true -> in_scope (schema_of F) = true ->
  forall rs1 rs2 m xs, Forall (fun r => iface_ok (generate F) (request_arg r) = true) (rs1 ++ rs2)%list -> wts (generate F) (VStruct xs) (SNamed m) = true -> writable (schema_of F) m xs ->
  exists b ys, fst (Marshal (generate F) (ptr m xs) (state_after (generate F) rs1 g_empty)) = Returns (Some b, None) /\
    fst (Unmarshal (generate F) b (ptr m (zeros (msg (schema_of F) m))) (state_after (generate F) rs2 (snd (Marshal (generate F) (ptr m xs) (state_after (generate F) rs1 g_empty))))) = Returns (ptr m ys, None) /\
    map norm ys = map norm (kept_msg (schema_of F) xs (msg (schema_of F) m)) /\ wts (generate F) (VStruct ys) (SNamed m) = true.
Proof.
  intros HV HU HC. apply own_reading_proof; [apply generated_implements; assumption|apply schema_valid; assumption|apply generable_all_made, schema_generable|exact HC].
Qed.
Lemma program_calls_proof X scope files D : good_scope X scope -> valid (descs X) = true -> usable (descs X) = true -> separate (schema_of (descs X)) = true ->
  (forall f, In f files -> incl (nx_messages f) X /\ named_file f = true) ->
  compiles X scope (map (fun f => (f, GenerateText X f)) files) D ->
  forall rs, Forall (fun r => iface_ok D (request_arg r) = true) rs ->
  exists sch', alike (schema_of (descs X)) sch' /\ Forall2 (right_answer D sch') rs (answers D rs g_empty).
Proof.
  intros SC HV HU HP GF C. rewrite (compiles_generate X scope files D SC HV GF C). apply generated_calls_alike_proof; assumption.
Qed.
