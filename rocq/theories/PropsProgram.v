(** Property theorems about programs made from generated files: from the text
    of the files to the bytes on the wire. *)
From Coq Require Import String.
From Verif Require Import Base Wire GoType Leaf Codec Tag Walker Api Resolve Typing SpecWire SpecMsg SpecLib WalkSeq MsgApi ProtoGen SpecProto
  RefuteMsg GenText GenDesc SpecText SpecGo SpecDesc SpecProgram GoSample ProgramFacts.
Local Open Scope N_scope.

(** C66. If a program is made of the texts of generated files, what it writes
    and reads is determined by the descriptors. *)
Theorem program_writes_partial : forall X scope files D, good_scope X scope -> covered (descs X) = true ->
  (forall f, In f files -> incl (nx_messages f) X /\ named_file f = true) ->
  compiles X scope (map (fun f => (f, GenerateText X f)) files) D -> forall s m xs, reachable D s ->
  wts D (VStruct xs) (SNamed m) = true -> encodable_msg (schema_of (descs X)) xs (msg (schema_of (descs X)) m) = true ->
  (zlen (ser (message (schema_of (descs X)) xs (msg (schema_of (descs X)) m))) < 2^63)%Z ->
  fst (Size D (ptr m xs) s) = Returns (zlen (ser (message (schema_of (descs X)) xs (msg (schema_of (descs X)) m)))) /\
  fst (Marshal D (ptr m xs) s) = Returns (Some (ser (message (schema_of (descs X)) xs (msg (schema_of (descs X)) m))), None).
Proof. exact program_writes. Qed.
Print Assumptions program_writes_partial.
Theorem program_reads_partial : forall X scope files D, good_scope X scope -> covered (descs X) = true ->
  (forall f, In f files -> incl (nx_messages f) X /\ named_file f = true) ->
  compiles X scope (map (fun f => (f, GenerateText X f)) files) D -> forall s m xs zs b, reachable D s ->
  wts D (VStruct xs) (SNamed m) = true -> forallb fresh xs = true -> map norm xs = map norm zs ->
  bytes_okb b = true -> (zlen b < 2^63)%Z ->
  match merge_lib (schema_of (descs X)) (S (length b)) (msg (schema_of (descs X)) m) zs b with
  | MOk zs' => exists xs', fst (Unmarshal D b (ptr m xs) s) = Returns (ptr m xs', None) /\
      map norm xs' = map norm zs' /\ forallb fresh xs' = true /\ wts D (VStruct xs') (SNamed m) = true
  | MBad => exists x e, fst (Unmarshal D b (ptr m xs) s) = Returns (IPtr (SNamed m) (Some x), Some e)
  | MFuel => False
  end.
Proof. exact program_reads. Qed.
Print Assumptions program_reads_partial.
(** The files make such a program if every message is in one of them and no
    file declares a name twice. *)
Theorem program_compiles : forall X scope files, good_scope X scope -> valid (descs X) = true ->
  (forall f, In f files -> incl (nx_messages f) X /\ named_file f = true) ->
  (forall m, In m X -> nm_entry m = false -> exists f, In f files /\ In m (nx_messages f)) ->
  (forall f, In f files -> NoDup (struct_idents f)) ->
  exists D, compiles X scope (map (fun f => (f, GenerateText X f)) files) D.
Proof. exact program_compiles_proof. Qed.
Print Assumptions program_compiles.
Example program_ex : good_scope world world_scope /\ covered (descs world) = true /\
  (exists D, compiles world world_scope (map (fun f => (f, GenerateText world f)) [person_file; address_file]) D /\
     fst (Marshal D (ptr 2 here) g_empty) = Returns (Some [9;0;0;0;0;0;0;240;63; 16;172;2], None) /\
     match fst (Unmarshal D [10;2;65;108; 16;3; 34;7;10;1;104;18;2;16;7; 48;1; 48;172;2; 66;1;7; 58;3;10;1;66] (ptr 0 (zeros (msg (schema_of (descs world)) 0))) g_empty) with
     | Returns (IPtr _ (Some (VStruct xs)), None) => map norm xs = map norm al
     | _ => False
     end) /\
  encodable_msg (schema_of (descs world)) here (msg (schema_of (descs world)) 2) = true.
Proof. exact program_world. Qed.
(** Some programs write something else. *)
Theorem program_writes_refuted : exists X scope f D xs, good_scope X scope /\ valid (descs X) = true /\ usable (descs X) = true /\
  (forall g, In g [f] -> incl (nx_messages g) X /\ named_file g = true) /\
  compiles X scope (map (fun f => (f, GenerateText X f)) [f]) D /\ miswritten D (schema_of (descs X)) xs.
Proof. exact program_refuted. Qed.
Print Assumptions program_writes_refuted.
