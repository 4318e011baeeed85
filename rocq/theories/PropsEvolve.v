(** Property theorems about programs generated from two versions of .proto files. *)
From Coq Require Import String.
From Verif Require Import Base Wire GoType Leaf Codec Tag Walker Api Typing SpecWire SpecMsg SpecExact SpecVersions SpecAbsorb WalkSeq MsgApi ProtoGen SpecProto SpecEvolve
  RefuteMsg GenText GenDesc SpecText SpecGo SpecDesc SpecProgram GoSample ProgramFacts EvolveThms EvolveSample.
Local Open Scope N_scope.

(** C86. [evolves] says what may change in the files (SpecEvolve.v); [absorb_msg] is
    the merge of the two messages, as in C84. *)
Theorem program_versions_partial : forall X scope files D X' scope' files' D' same,
  good_scope X scope -> covered (descs X) = true -> (forall f, In f files -> incl (nx_messages f) X /\ named_file f = true) ->
  compiles X scope (map (fun f => (f, GenerateText X f)) files) D ->
  good_scope X' scope' -> covered (descs X') = true -> (forall f, In f files' -> incl (nx_messages f) X' /\ named_file f = true) ->
  compiles X' scope' (map (fun f => (f, GenerateText X' f)) files') D' ->
  evolves same (descs X) (descs X') ->
  let sch := schema_of (descs X) in let sch' := schema_of (descs X') in
  forall s s' m m' xs ys, same m m' = true -> reachable D s -> reachable D' s' ->
  wts D' (VStruct xs) (SNamed m') = true -> forallb fresh xs = true -> forallb tidy xs = true ->
  wts D (VStruct ys) (SNamed m) = true -> encodable_msg sch ys (msg sch m) = true -> (zlen (ser (message sch ys (msg sch m))) < 2^63)%Z ->
  exists b zs, fst (Marshal D (ptr m ys) s) = Returns (Some b, None) /\
    fst (Unmarshal D' b (ptr m' xs) s') = Returns (ptr m' zs, None) /\
    map shown zs = map norm (absorb_msg sch sch' xs ys (msg sch m) (msg sch' m')) /\ wts D' (VStruct zs) (SNamed m') = true.
Proof. exact program_versions_proof. Qed.
Print Assumptions program_versions_partial.
(** Both programs compile, the new files are a version of the old ones by the names of
    their messages, and a message of the old program arrives in the new one. *)
Example program_versions_ex : let same := namesake world1 world2 in
  good_scope world1 world_scope /\ covered (descs world1) = true /\
  compiles world1 world_scope (map (fun f => (f, GenerateText world1 f)) [person1_file; address_file]) (generate (descs world1)) /\
  good_scope world2 world2_scope /\ covered (descs world2) = true /\
  compiles world2 world2_scope (map (fun f => (f, GenerateText world2 f)) [person2_file; address2_file]) (generate (descs world2)) /\
  evolves same (descs world1) (descs world2) /\ same 0%nat 2%nat = true /\
  wts (generate (descs world2)) (VStruct holder) (SNamed 2) = true /\ forallb fresh holder = true /\ forallb tidy holder = true /\
  wts (generate (descs world1)) (VStruct sender) (SNamed 0) = true /\
  let sch := schema_of (descs world1) in let sch' := schema_of (descs world2) in
  encodable_msg sch sender (msg sch 0) = true /\
  absorb_msg sch sch' holder sender (msg sch 0) (msg sch' 2) = merged /\
  match fst (Marshal (generate (descs world1)) (ptr 0 sender) g_empty) with
  | Returns (Some b, None) => match fst (Unmarshal (generate (descs world2)) b (ptr 2 holder) g_empty) with
    | Returns (IPtr _ (Some (VStruct zs)), None) => map shown zs = map norm merged
    | _ => False end
  | _ => False end.
Proof.
  cbv zeta. split; [exact world1_good|]. split; [vm_compute; reflexivity|]. split; [exact world1_program|].
  split; [exact world2_good|]. split; [vm_compute; reflexivity|]. split; [exact world2_program|].
  split; [apply evolvesb_correct; vm_compute; reflexivity|]. do 7 (split; [vm_compute; reflexivity|]). vm_compute. reflexivity.
Qed.
(** The rules for changing files are those for changing schemas. *)
Theorem evolves_accepts : forall same F F', evolves same F F' -> accepted same (schema_of F) (schema_of F').
Proof. exact evolves_accepted. Qed.
Print Assumptions evolves_accepts.
(** Not all changes that the documentation of protobuf calls compatible are: a program
    for which an int64 field has become bool does not read 300. *)
Theorem program_versions_refuted : exists X scope files D X' scope' files' D' xs ys b x e,
  good_scope X scope /\ covered (descs X) = true /\ (forall f, In f files -> incl (nx_messages f) X /\ named_file f = true) /\
  compiles X scope (map (fun f => (f, GenerateText X f)) files) D /\
  good_scope X' scope' /\ covered (descs X') = true /\ (forall f, In f files' -> incl (nx_messages f) X' /\ named_file f = true) /\
  compiles X' scope' (map (fun f => (f, GenerateText X' f)) files') D' /\
  msg (schema_of (descs X)) 0 = [Field 1 (FImplicit Y_int64); Hidden TOther] /\ msg (schema_of (descs X')) 0 = [Field 1 (FImplicit Y_bool); Hidden TOther] /\
  wts D' (VStruct xs) (SNamed 0) = true /\ wts D (VStruct ys) (SNamed 0) = true /\
  fst (Marshal D (ptr 0 ys) g_empty) = Returns (Some b, None) /\ fst (Unmarshal D' b (ptr 0 xs) g_empty) = Returns (x, Some e).
Proof. exact evolve_refuted_proof. Qed.
Print Assumptions program_versions_refuted.
