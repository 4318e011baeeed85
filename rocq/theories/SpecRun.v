(** The response protoc should get from a run of the plugin. *)
From Coq Require Import String.
From Verif Require Import Base GenFile SpecGenFile Run.
Local Open Scope list_scope.

(** A generated file belongs to a file of the request. *)
Definition made_from (files : list rfile) (f : rfile) (out : string * list gdecl) : Prop :=
  fst out = String.append (r_prefix f) ".pb.go" /\
  forall d, In d (snd out) <-> declares (r_file f) d \/ forwards (map r_file files) (r_file f) d.
