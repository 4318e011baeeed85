(** Property theorems about programs made from generated files whose goroutines
    call the library at the same time. *)
From Coq Require Import String.
From Verif Require Import Base Wire GoType Leaf Codec Tag Walker Api Resolve Typing SpecWire SpecMsg WalkSeq MsgApi ProtoGen SpecProto
  RefuteMsg RefuteConc GenText GenDesc SpecText SpecGo SpecDesc SpecProgram GoSample ProgramFacts SpecOut SpecIn Conc SpecConc SpecThreads ThreadThms.
Local Open Scope N_scope.

(** C75. Each answer is the one the descriptors call for if going from the
    message to its parts ends; whatever other goroutines do, with whatever types. *)
Theorem threads_answers : forall X scope files D, good_scope X scope -> valid (descs X) = true -> usable (descs X) = true -> agreeing (schema_of (descs X)) = true ->
  (forall f, In f files -> incl (nx_messages f) X /\ named_file f = true) ->
  compiles X scope (map (fun f => (f, GenerateText X f)) files) D -> forall s0, quiet D s0 -> forall css ts s,
  Forall (Forall (fun c => match arg_type c with Some k => user_key D k = true | None => True end)) css ->
  csteps (map (p_calls D) css, s0) (ts, s) ->
  Forall2 (fun cs t => (exists o k, t = Do o k) \/ exists ans, t = Ret ans /\
    Forall2 (fun c a => ends (schema_of (descs X)) c -> called_for D (schema_of (descs X)) c a) cs ans) css ts.
Proof. exact threads_end_proof. Qed.
Print Assumptions threads_answers.
(** Messages that contain themselves too, if the parts that do were used before. *)
Theorem threads_answers_used : forall X scope files D, good_scope X scope -> valid (descs X) = true -> usable (descs X) = true -> agreeing (schema_of (descs X)) = true ->
  (forall f, In f files -> incl (nx_messages f) X /\ named_file f = true) ->
  compiles X scope (map (fun f => (f, GenerateText X f)) files) D -> forall s0, quiet D s0 -> forall css ts s,
  Forall (Forall (fun c => match arg_type c with Some k => user_key D k = true | None => True end)) css ->
  csteps (map (p_calls D) css, s0) (ts, s) ->
  Forall2 (fun cs t => (exists o k, t = Do o k) \/ exists ans, t = Ret ans /\
    Forall2 (fun c a =>
      match arg_type c with Some k => ready_key D (fun k => exists i, In (k, i) (g_infoCache s0)) k | None => True end ->
      called_for D (schema_of (descs X)) c a) cs ans) css ts.
Proof. exact threads_proof. Qed.
Print Assumptions threads_answers_used.
(** And once all goroutines are done every call on every message. *)
Theorem later_answers : forall X scope files D, good_scope X scope -> valid (descs X) = true -> usable (descs X) = true -> agreeing (schema_of (descs X)) = true ->
  (forall f, In f files -> incl (nx_messages f) X /\ named_file f = true) ->
  compiles X scope (map (fun f => (f, GenerateText X f)) files) D -> forall s, quiet D s -> forall c,
  match arg_type c with Some k => user_key D k = true | None => True end ->
  called_for D (schema_of (descs X)) c (fst (seq_call D c s)).
Proof. exact later_proof. Qed.
Print Assumptions later_answers.
(** Message 2 ends, message 0 has a field of its own type. *)
Example threads_answers_ex :
  let D := generate (descs world) in let sch := schema_of (descs world) in
  good_scope world world_scope /\ valid (descs world) = true /\ usable (descs world) = true /\ agreeing sch = true /\
  compiles world world_scope (map (fun f => (f, GenerateText world f)) [person_file; address_file]) D /\
  Acc (part_of sch) 2%nat /\ part_of sch 0%nat 0%nat /\ quiet D g_empty /\
  wts D (VStruct here) (SNamed 2) = true /\ forallb fresh here = true /\
  output_msg sch here (msg sch 2) = (12, Some [9;0;0;0;0;0;0;240;63; 16;172;2]) /\
  merge_any sch 3 (msg sch 2) here [16;5] = MOk [VOpt true (VF64 4607182418800017408); VI32 5; VOther 0] /\
  let css := [[CMarshal (ptr 2 here)]; [CUnmarshal [16;5] (ptr 2 here); CSize (ptr 0 (zeros (msg sch 0)))]] in
  map (fun t => match t with Ret a => a | _ => [] end) (fst (sched (flat_map (fun _ => [0;1;1]%nat) (seq 0 60)) (map (p_calls D) css, g_empty))) =
  [[AMarshal (Returns (Some [9;0;0;0;0;0;0;240;63; 16;172;2], None))];
   [AUnmarshal (Returns (ptr 2 [VOpt true (VF64 4607182418800017408); VI32 5; VOther 0], None)); ASize (Returns 2%Z)]].
Proof.
  cbv zeta. split; [exact world_good|]. do 3 (split; [vm_compute; reflexivity|]). split; [exact world_program|].
  split; [exact world_ends|]. split; [exact world_self|]. split; [constructor; constructor|]. repeat (split; [vm_compute; reflexivity|]). vm_compute. reflexivity.
Qed.
