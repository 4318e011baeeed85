(** Property theorems: the text of a generated file, read as Go. *)
From Coq Require Import String Ascii.
From Verif Require Import Base GoType ProtoGen SpecProto GenText GenDesc SpecStructTag SpecText SpecGo SpecDesc GoThms GoSample.
Local Open Scope string_scope.
Local Open Scope list_scope.

(** C61. The structs that Go reads in the text of a generated file are those
    of its messages and oneof members, in order and nothing else, with the
    names, types and tags of their fields; comments do not matter. *)
Theorem generated_structs : forall X scope, good_scope X scope -> valid (descs X) = true ->
  forall f, incl (nx_messages f) X -> named_file f = true ->
  exists parts, go_structs scope (GenerateText X f) = Some (concat parts) /\ Forall2 (declares X) (nx_messages f) parts.
Proof. exact file_read. Qed.
Print Assumptions generated_structs.
(** In particular they are the structs that the theorems about generated code
    are about ([generate]: C25, C26, C39). *)
Theorem generated_numbered : forall X scope f i m, good_scope X scope -> valid (descs X) = true -> incl (nx_messages f) X -> named_file f = true ->
  nth_error X i = Some m -> In m (nx_messages f) -> nm_entry m = false ->
  exists ss fs, go_structs scope (GenerateText X f) = Some ss /\ In (nm_ident m, fs) ss /\ nth_error (generate (descs X)) i = Some (map snd fs).
Proof. exact number_read. Qed.
Print Assumptions generated_numbered.
Example generated_structs_ex : good_scope world world_scope /\ valid (descs world) = true /\ incl (nx_messages person_file) world /\ named_file person_file = true /\
  go_structs world_scope (GenerateText world person_file) = Some
   [("Person", [("Name", seen "bytes,1,opt" "" "" (TScalar KString)); ("Age", seen "zigzag32,2,opt" "" "" (TOption KInt32));
                ("Contact", {| gf_exported := true; gf_tag := None; gf_key := ""; gf_val := ""; gf_type := TOther |});
                ("Places", seen "bytes,4,rep" "bytes,1,opt" "bytes,2,opt" (TMap KString (TMsg 2))); ("Colors", seen "varint,6,rep" "" "" (TSlice (TScalar KInt32)));
                ("Friends", seen "bytes,7,rep" "" "" (TSlice (TMsg 0))); ("Key", seen "bytes,8,opt" "" "" TBytes)]);
    ("Person_Email", [("Email", seen "bytes,3,opt" "" "" (TScalar KString))]); ("Person_Home", [("Home", seen "bytes,5,opt" "" "" (TMsg 2))])].
Proof. split; [exact world_good|]. split; [reflexivity|]. split; [intros m [<-|[<-|[]]]; cbn; auto|]. split; vm_compute; reflexivity. Qed.
(** A message without slices and maps has the field that forbids comparison. *)
Example generated_marker_ex : named_file address_file = true /\
  option_map (map (fun s => (fst s, map fst (snd s)))) (go_structs world_scope (GenerateText world address_file)) = Some [("Address", ["Lat"; "Paint"; "_"])].
Proof. split; vm_compute; reflexivity. Qed.
