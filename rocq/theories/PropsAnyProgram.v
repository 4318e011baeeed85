(** Property theorems about programs made from generated files, right or not. *)
From Coq Require Import String.
From Verif Require Import Base Wire GoType Leaf Codec Tag Walker Api Resolve Typing SpecWire SpecMsg WalkSeq MsgApi ProtoGen SpecProto
  GenText GenDesc SpecText SpecGo SpecDesc SpecProgram GoSample ProgramFacts SpecOut SpecIn AnyProgram.
Local Open Scope N_scope.

(** C69. *)
Theorem program_output : forall X scope files D, good_scope X scope -> valid (descs X) = true -> usable (descs X) = true -> agreeing (schema_of (descs X)) = true ->
  (forall f, In f files -> incl (nx_messages f) X /\ named_file f = true) ->
  compiles X scope (map (fun f => (f, GenerateText X f)) files) D -> forall s m xs, reachable D s -> wts D (VStruct xs) (SNamed m) = true ->
  let o := output_msg (schema_of (descs X)) xs (msg (schema_of (descs X)) m) in (fst o < 2^63) ->
  fst (Size D (ptr m xs) s) = Returns (Z.of_N (fst o)) /\
  fst (Marshal D (ptr m xs) s) = match snd o with Some b => Returns (Some b, None) | None => Panics Confused end.
Proof. exact program_output_proof. Qed.
Print Assumptions program_output.
Theorem program_input : forall X scope files D, good_scope X scope -> valid (descs X) = true -> usable (descs X) = true -> agreeing (schema_of (descs X)) = true ->
  (forall f, In f files -> incl (nx_messages f) X /\ named_file f = true) ->
  compiles X scope (map (fun f => (f, GenerateText X f)) files) D ->
  forall s m ys zs b, reachable D s -> wts D (VStruct ys) (SNamed m) = true -> forallb fresh ys = true ->
  map norm ys = map norm zs -> bytes_okb b = true -> (zlen b < 2^63)%Z ->
  match merge_any (schema_of (descs X)) (S (length b)) (msg (schema_of (descs X)) m) zs b with
  | MOk zs => exists ys', fst (Unmarshal D b (ptr m ys) s) = Returns (ptr m ys', None) /\ map norm ys' = map norm zs /\
                forallb fresh ys' = true /\ wts D (VStruct ys') (SNamed m) = true
  | MBad => exists x e, fst (Unmarshal D b (ptr m ys) s) = Returns (IPtr (SNamed m) (Some x), Some e)
  | MFuel => False
  end.
Proof. exact program_input_proof. Qed.
Print Assumptions program_input.
(** A file with an sfixed32 field. *)
Example program_any_ex : good_scope [fixedmsg] fixed_scope /\ valid (descs [fixedmsg]) = true /\ usable (descs [fixedmsg]) = true /\
  agreeing (schema_of (descs [fixedmsg])) = true /\
  compiles [fixedmsg] fixed_scope (map (fun f => (f, GenerateText [fixedmsg] f)) [fixed_file]) (generate (descs [fixedmsg])) /\
  let sch := schema_of (descs [fixedmsg]) in
  output_msg sch [VI32 5; VOther 0] (msg sch 0) = (2, Some [13;5]) /\
  merge_any sch 9 (msg sch 0) [VI32 0; VOther 0] [13;133;128;128;0] = MOk [VI32 5; VOther 0].
Proof. split; [exact fixed_good|]. do 3 (split; [vm_compute; reflexivity|]). split; [exact fixed_program|]. vm_compute. split; reflexivity. Qed.
