(** Failed calls of Unmarshal in programs made from generated files. *)
From Coq Require Import String.
From Verif Require Import Base Wire GoType Leaf Codec Tag Walker Api Resolve Typing SpecWire SpecMsg SpecLib WalkSeq MsgApi ProtoGen SpecProto
  GenText GenDesc SpecText SpecGo SpecDesc SpecProgram ProgramFacts SpecOut SpecIn SpecLeft LeftThms.
Local Open Scope N_scope.

Lemma program_failed_proof X scope files D : good_scope X scope -> valid (descs X) = true -> usable (descs X) = true -> agreeing (schema_of (descs X)) = true ->
  good_files X files -> compiles X scope (texts X files) D -> let sch := schema_of (descs X) in
  forall s m xs zs b, reachable D s -> wts D (VStruct xs) (SNamed m) = true -> forallb fresh xs = true -> map norm xs = map norm zs ->
  bytes_okb b = true -> (zlen b < 2^63)%Z -> merge_any sch (S (List.length b)) (msg sch m) zs b = MBad ->
  exists ys e, fst (Unmarshal D b (ptr m xs) s) = Returns (ptr m ys, Some e) /\
    map norm ys = map norm (remains_any sch (S (List.length b)) (msg sch m) zs b) /\ wts D (VStruct ys) (SNamed m) = true.
Proof.
  intros SC HV HU HA GF C. rewrite (compiles_generate X scope files D SC HV GF C). apply generated_left_proof; assumption.
Qed.
