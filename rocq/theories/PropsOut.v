(** Property theorems: what Size and Marshal give for every message of generated
    types, deviations included. *)
From Coq Require Import String.
From Verif Require Import Base Wire GoType Leaf Codec Tag Walker Api Resolve Typing SpecWire SpecTag SpecMsg SpecProto SpecOut
  WalkSeq MsgApi ProtoGen OutFacts OutThms OutSample.
Local Open Scope N_scope.

(** C67. Size gives the first, and Marshal the second component of [output_msg]. *)
Theorem marshal_output : forall D sch, implements D sch = true -> schema_ok sch = true -> all_made sch = true -> agreeing sch = true ->
  forall s m xs, reachable D s -> wts D (VStruct xs) (SNamed m) = true ->
  let o := output_msg sch xs (msg sch m) in (fst o < 2^63) ->
  fst (Size D (ptr m xs) s) = Returns (Z.of_N (fst o)) /\
  fst (Marshal D (ptr m xs) s) = match snd o with Some b => Returns (Some b, None) | None => Panics Confused end.
Proof. exact output_proof. Qed.
Print Assumptions marshal_output.
Theorem generated_output : forall F, valid F = true -> usable F = true -> agreeing (schema_of F) = true ->
  forall s m xs, reachable (generate F) s -> wts (generate F) (VStruct xs) (SNamed m) = true ->
  let o := output_msg (schema_of F) xs (msg (schema_of F) m) in (fst o < 2^63) ->
  fst (Size (generate F) (ptr m xs) s) = Returns (Z.of_N (fst o)) /\
  fst (Marshal (generate F) (ptr m xs) s) = match snd o with Some b => Returns (Some b, None) | None => Panics Confused end.
Proof. exact generated_output_proof. Qed.
Print Assumptions generated_output.
Example generated_output_ex : valid devF = true /\ usable devF = true /\ agreeing devS = true /\
  wts (generate devF) (VStruct dev) (SNamed 0) = true /\ output_msg devS dev (msg devS 0) = (47, Some dev_bytes) /\
  wts (generate devF) (VStruct bad) (SNamed 0) = true /\ output_msg devS bad (msg devS 0) = (13, None).
Proof. vm_compute. intuition congruence. Qed.
(** Marshal writes [skew_msg] bytes more than Size says. *)
Theorem size_difference : forall D sch, implements D sch = true -> schema_ok sch = true -> all_made sch = true -> agreeing sch = true ->
  forall s m xs b, reachable D s -> wts D (VStruct xs) (SNamed m) = true -> (fst (output_msg sch xs (msg sch m)) < 2^63) ->
  fst (Marshal D (ptr m xs) s) = Returns (Some b, None) ->
  fst (Size D (ptr m xs) s) = Returns (zlen b - skew_msg sch xs (msg sch m))%Z.
Proof. exact difference_proof. Qed.
Print Assumptions size_difference.
Example size_difference_ex : wts (generate devF) (VStruct long) (SNamed 0) = true /\ skew_msg devS long (msg devS 0) = 1%Z /\
  (exists b, fst (Marshal (generate devF) (ptr 0 long) g_empty) = Returns (Some b, None) /\ zlen b = 134%Z) /\
  fst (Size (generate devF) (ptr 0 long) g_empty) = Returns 133%Z.
Proof. split; [vm_compute; reflexivity|]. split; [vm_compute; reflexivity|]. split; [|vm_compute; reflexivity]. eexists. split; [vm_compute; reflexivity|reflexivity]. Qed.
(** Without maps Size is right and Marshal returns, fixed-width fields or not. *)
Theorem size_without_maps : forall D sch, implements D sch = true -> schema_ok sch = true -> all_made sch = true -> agreeing sch = true ->
  forall s m xs, no_maps sch = true -> reachable D s -> wts D (VStruct xs) (SNamed m) = true -> (fst (output_msg sch xs (msg sch m)) < 2^63) ->
  exists b, fst (Marshal D (ptr m xs) s) = Returns (Some b, None) /\ fst (Size D (ptr m xs) s) = Returns (zlen b).
Proof. exact without_maps_proof. Qed.
Print Assumptions size_without_maps.
Example size_without_maps_ex : implements (generate flatF) (schema_of flatF) = true /\ schema_ok (schema_of flatF) = true /\
  all_made (schema_of flatF) = true /\ agreeing (schema_of flatF) = true /\ no_maps (schema_of flatF) = true /\
  output_msg (schema_of flatF) [VI32 (-1); VSlice true [VU64 9] []; VPtr None; VOther 0] (msg (schema_of flatF) 0) = (13, Some [13;255;255;255;255;255;255;255;255;255;1; 17;9]).
Proof. vm_compute. intuition congruence. Qed.
(** Where no deviation applies, the output is the records of the message. *)
Theorem output_right : forall D sch, implements D sch = true -> all_made sch = true ->
  forall m xs, in_scope sch = true -> wts D (VStruct xs) (SNamed m) = true -> encodable_msg sch xs (msg sch m) = true ->
  output_msg sch xs (msg sch m) = just (ser (message sch xs (msg sch m))).
Proof. exact right_proof. Qed.
Print Assumptions output_right.
Example output_right_ex : implements (generate rightF) (schema_of rightF) = true /\ all_made (schema_of rightF) = true /\ in_scope (schema_of rightF) = true /\
  wts (generate rightF) (VStruct right_xs) (SNamed 0) = true /\ encodable_msg (schema_of rightF) right_xs (msg (schema_of rightF) 0) = true /\
  output_msg (schema_of rightF) right_xs (msg (schema_of rightF) 0) = (18, Some [13;7;0;0;0; 18;1;65; 26;8;10;1;66;18;3;1;2;3]).
Proof. vm_compute. intuition congruence. Qed.
