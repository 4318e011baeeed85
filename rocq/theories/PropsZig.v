(** Property theorems: calls on messages whose lists of one Go type are not all
    of one protobuf type. *)
From Coq Require Import String.
From Verif Require Import Base Wire GoType Leaf Codec Tag Walker Api Resolve Typing SpecWire SpecTag SpecMsg SpecProto SpecOut SpecIn SpecZig
  WalkSeq MsgApi ProtoGen GenText GenDesc SpecText SpecGo SpecDesc SpecProgram ProgramFacts GoSample AnyProgram ZigRound ZigSample OutFacts ZigThms.
Local Open Scope N_scope.

(** C70. *)
Theorem calls_alike : forall D sch, implements D sch = true -> schema_ok sch = true -> all_made sch = true -> separate sch = true ->
  forall rs, Forall (fun r => iface_ok D (request_arg r) = true) rs ->
  exists sch', alike sch sch' /\ Forall2 (right_answer D sch') rs (answers D rs g_empty).
Proof. exact (fun D sch HI HS HM => calls_alike_proof D sch HI HS (all_made_generable sch HM)). Qed.
Print Assumptions calls_alike.
Theorem generated_calls_alike : forall F, valid F = true -> usable F = true -> separate (schema_of F) = true ->
  forall rs, Forall (fun r => iface_ok (generate F) (request_arg r) = true) rs ->
  exists sch', alike (schema_of F) sch' /\ Forall2 (right_answer (generate F) sch') rs (answers (generate F) rs g_empty).
Proof. exact generated_calls_alike_proof. Qed.
Print Assumptions generated_calls_alike.
Theorem program_calls_alike : forall X scope files D, good_scope X scope -> valid (descs X) = true -> usable (descs X) = true -> separate (schema_of (descs X)) = true ->
  (forall f, In f files -> incl (nx_messages f) X /\ named_file f = true) ->
  compiles X scope (map (fun f => (f, GenerateText X f)) files) D ->
  forall rs, Forall (fun r => iface_ok D (request_arg r) = true) rs ->
  exists sch', alike (schema_of (descs X)) sch' /\ Forall2 (right_answer D sch') rs (answers D rs g_empty).
Proof. exact program_calls_proof. Qed.
Print Assumptions program_calls_alike.
Example program_calls_alike_ex : good_scope [fixedmsg] fixed_scope /\ valid (descs [fixedmsg]) = true /\ usable (descs [fixedmsg]) = true /\
  separate (schema_of (descs [fixedmsg])) = true /\
  compiles [fixedmsg] fixed_scope (map (fun f => (f, GenerateText [fixedmsg] f)) [fixed_file]) (generate (descs [fixedmsg])) /\
  right_answer (generate (descs [fixedmsg])) (schema_of (descs [fixedmsg])) (AskMarshal (ptr 0 [VI32 5; VOther 0])) (IsMarshal (Returns (Some [13;5], None))).
Proof. split; [exact fixed_good|]. do 3 (split; [vm_compute; reflexivity|]). split; [exact fixed_program|]. intros _ _. vm_compute. reflexivity. Qed.
(** The order of calls decides which of the alike schemas it is. *)
Example calls_alike_ex : valid zigF = true /\ usable zigF = true /\ agreeing zigS = false /\ separate zigS = true /\
  wts (generate zigF) (VStruct zig_outer) (SNamed 0) = true /\ wts (generate zigF) (VStruct zig_inner) (SNamed 1) = true /\
  answers (generate zigF) [AskMarshal (ptr 1 zig_inner); AskMarshal (ptr 0 zig_outer)] g_empty =
    [IsMarshal (Returns (Some [8;1; 8;255;255;255;255;255;255;255;255;255;1], None));
     IsMarshal (Returns (Some [8;6; 18;13; 8;1; 8;255;255;255;255;255;255;255;255;255;1], None))] /\
  answers (generate zigF) [AskMarshal (ptr 0 zig_outer); AskMarshal (ptr 1 zig_inner)] g_empty =
    [IsMarshal (Returns (Some [8;6; 18;4; 8;2; 8;1], None)); IsMarshal (Returns (Some [8;2; 8;1], None))].
Proof. vm_compute. repeat split. Qed.
(** A program reads what it has written. *)
Theorem own_reading : forall D sch, implements D sch = true -> schema_ok sch = true -> all_made sch = true -> in_scope sch = true ->
  forall rs1 rs2 m xs, Forall (fun r => iface_ok D (request_arg r) = true) (rs1 ++ rs2)%list -> wts D (VStruct xs) (SNamed m) = true -> writable sch m xs ->
  exists b ys, fst (Marshal D (ptr m xs) (state_after D rs1 g_empty)) = Returns (Some b, None) /\
    fst (Unmarshal D b (ptr m (zeros (msg sch m))) (state_after D rs2 (snd (Marshal D (ptr m xs) (state_after D rs1 g_empty))))) = Returns (ptr m ys, None) /\
    map norm ys = map norm (kept_msg sch xs (msg sch m)) /\ wts D (VStruct ys) (SNamed m) = true.
Proof. exact own_reading_proof. Qed.
Print Assumptions own_reading.
Theorem generated_own_reading : forall F, valid F = true -> usable F = true -> in_scope (schema_of F) = true ->
  forall rs1 rs2 m xs, Forall (fun r => iface_ok (generate F) (request_arg r) = true) (rs1 ++ rs2)%list -> wts (generate F) (VStruct xs) (SNamed m) = true -> writable (schema_of F) m xs ->
  exists b ys, fst (Marshal (generate F) (ptr m xs) (state_after (generate F) rs1 g_empty)) = Returns (Some b, None) /\
    fst (Unmarshal (generate F) b (ptr m (zeros (msg (schema_of F) m))) (state_after (generate F) rs2 (snd (Marshal (generate F) (ptr m xs) (state_after (generate F) rs1 g_empty))))) = Returns (ptr m ys, None) /\
    map norm ys = map norm (kept_msg (schema_of F) xs (msg (schema_of F) m)) /\ wts (generate F) (VStruct ys) (SNamed m) = true.
Proof. exact generated_own_reading_proof. Qed.
Print Assumptions generated_own_reading.
Example own_reading_ex : in_scope zigS = true /\ coherent zigS = false /\ writable zigS 0 zig_outer /\
  (let rs := [AskSize (ptr 1 zig_inner)] in
   fst (Unmarshal (generate zigF) [8;6; 18;4; 8;2; 8;1] (ptr 0 (zeros (msg zigS 0))) (state_after (generate zigF) rs (snd (Marshal (generate zigF) (ptr 0 zig_outer) g_empty)))) =
     Returns (ptr 0 [VSlice true [VI32 3] (repeat (VI32 0) 9); VPtr (Some (VStruct [VSlice true [VI32 1; VI32 (-1)] (repeat (VI32 0) 8)]))], None) /\
   fst (Marshal (generate zigF) (ptr 0 zig_outer) g_empty) = Returns (Some [8;6; 18;4; 8;2; 8;1], None)) /\
  (* another program *)
  fst (Unmarshal (generate zigF) [8;6; 18;4; 8;2; 8;1] (ptr 0 (zeros (msg zigS 0))) (state_after (generate zigF) [AskSize (ptr 1 zig_inner)] g_empty)) =
    Returns (ptr 0 [VSlice true [VI32 3] (repeat (VI32 0) 9); VPtr (Some (VStruct [VSlice true [VI32 2; VI32 1] (repeat (VI32 0) 8)]))], None).
Proof. split; [vm_compute; reflexivity|]. split; [vm_compute; reflexivity|]. split; [exact zig_writable|]. vm_compute. repeat split. Qed.
