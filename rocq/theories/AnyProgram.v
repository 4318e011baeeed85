(** Programs made from generated files, right or not. *)
From Coq Require Import String.
From Verif Require Import Base Wire GoType Leaf Codec Tag Walker Api Resolve Typing SpecWire SpecMsg SpecLib WalkSeq MsgApi ProtoGen SpecProto
  RefuteMsg GenText GenDesc SpecText SpecGo SpecDesc SpecProgram GoSample ProgramFacts SpecOut SpecIn OutThms InThms.
Local Open Scope N_scope.

Lemma program_output_proof X scope files D : good_scope X scope -> valid (descs X) = true -> usable (descs X) = true -> agreeing (schema_of (descs X)) = true ->
  good_files X files -> compiles X scope (texts X files) D -> forall s m xs, reachable D s -> wts D (VStruct xs) (SNamed m) = true ->
  let o := output_msg (schema_of (descs X)) xs (msg (schema_of (descs X)) m) in (fst o < 2^63) ->
  fst (Size D (ptr m xs) s) = Returns (Z.of_N (fst o)) /\
  fst (Marshal D (ptr m xs) s) = match snd o with Some b => Returns (Some b, None) | None => Panics Confused end.
Proof.
  intros SC HV HU HA GF C. rewrite (compiles_generate X scope files D SC HV GF C). apply generated_output_proof; assumption.
Qed.
Lemma program_input_proof X scope files D : good_scope X scope -> valid (descs X) = true -> usable (descs X) = true -> agreeing (schema_of (descs X)) = true ->
  good_files X files -> compiles X scope (texts X files) D -> forall s m ys zs b, reachable D s -> wts D (VStruct ys) (SNamed m) = true -> forallb fresh ys = true ->
  map norm ys = map norm zs -> bytes_okb b = true -> (zlen b < 2^63)%Z ->
  match merge_any (schema_of (descs X)) (S (length b)) (msg (schema_of (descs X)) m) zs b with
  | MOk zs => exists ys', fst (Unmarshal D b (ptr m ys) s) = Returns (ptr m ys', None) /\ map norm ys' = map norm zs /\
                forallb fresh ys' = true /\ wts D (VStruct ys') (SNamed m) = true
  | MBad => exists x e, fst (Unmarshal D b (ptr m ys) s) = Returns (IPtr (SNamed m) (Some x), Some e)
  | MFuel => False
  end.
Proof.
  intros SC HV HU HA GF C. rewrite (compiles_generate X scope files D SC HV GF C). apply generated_reads_proof; assumption.
Qed.
Lemma fixed_program : compiles [fixedmsg] fixed_scope (texts [fixedmsg] [fixed_file]) (generate (descs [fixedmsg])).
Proof.
  apply program_exists; [exact fixed_good|vm_compute; reflexivity| | |].
  - intros f [<-|[]]; split; [intros m I; exact I|vm_compute; reflexivity].
  - intros m [<-|[]] _. exists fixed_file. cbn. tauto.
  - intros f [<-|[]]. cbv. repeat (constructor; [cbn; intuition discriminate|]). constructor.
Qed.
