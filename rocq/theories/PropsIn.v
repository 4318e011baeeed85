(** Property theorems: what Unmarshal does with every input for every message of
    generated types, deviations included. *)
From Coq Require Import String.
From Verif Require Import Base Wire GoType Leaf Codec Tag Walker Api Resolve Typing SpecWire SpecTag SpecMsg SpecLib SpecProto SpecOut SpecIn
  WalkSeq MsgApi ProtoGen OutSample InThms.
Local Open Scope N_scope.

(** C68. *)
Theorem unmarshal_input : forall D sch, implements D sch = true -> schema_ok sch = true -> all_made sch = true -> agreeing sch = true ->
  forall s m ys zs b, reachable D s -> wts D (VStruct ys) (SNamed m) = true -> forallb fresh ys = true ->
  map norm ys = map norm zs -> bytes_okb b = true -> (zlen b < 2^63)%Z ->
  match merge_any sch (S (length b)) (msg sch m) zs b with
  | MOk zs => exists ys', fst (Unmarshal D b (ptr m ys) s) = Returns (ptr m ys', None) /\ map norm ys' = map norm zs /\
                forallb fresh ys' = true /\ wts D (VStruct ys') (SNamed m) = true
  | MBad => exists x e, fst (Unmarshal D b (ptr m ys) s) = Returns (IPtr (SNamed m) (Some x), Some e)
  | MFuel => False
  end.
Proof. exact reads_proof. Qed.
Print Assumptions unmarshal_input.
Theorem generated_input : forall F, valid F = true -> usable F = true -> agreeing (schema_of F) = true ->
  forall s m ys zs b, reachable (generate F) s -> wts (generate F) (VStruct ys) (SNamed m) = true -> forallb fresh ys = true ->
  map norm ys = map norm zs -> bytes_okb b = true -> (zlen b < 2^63)%Z ->
  match merge_any (schema_of F) (S (length b)) (msg (schema_of F) m) zs b with
  | MOk zs => exists ys', fst (Unmarshal (generate F) b (ptr m ys) s) = Returns (ptr m ys', None) /\ map norm ys' = map norm zs /\
                forallb fresh ys' = true /\ wts (generate F) (VStruct ys') (SNamed m) = true
  | MBad => exists x e, fst (Unmarshal (generate F) b (ptr m ys) s) = Returns (IPtr (SNamed m) (Some x), Some e)
  | MFuel => False
  end.
Proof. exact generated_reads_proof. Qed.
Print Assumptions generated_input.
(** Three records of fixed-width fields are read as varints of one byte each, and a
    key of type sint32 as an int32; the right encoding of 7 as sfixed32 is an error. *)
Example generated_input_ex : valid devF = true /\ usable devF = true /\ agreeing devS = true /\
  let zs := [VI32 0; VSlice false [] []; VMap None; VOpt false (VI64 0); VPtr None; VMap None; VMap None] in
  wts (generate devF) (VStruct zs) (SNamed 0) = true /\ forallb fresh zs = true /\
  merge_any devS 100 (msg devS 0) zs [13;7; 21;5; 26;4;8;6;16;64; 33;9; 58;7;10;1;104;18;2;1;2] =
    MOk [VI32 7; VSlice true [VU32 5] []; VMap (Some [(VI32 6, VU32 64)]); VOpt true (VI64 9); VPtr None; VMap None; VMap (Some [(VStr [104], VBytes (Some [1;2]))])] /\
  merge_any devS 100 (msg devS 0) zs [13;7;0;0;0] = MBad.
Proof. vm_compute. intuition congruence. Qed.
(** Where no deviation but those of [merge_lib] applies. *)
Theorem input_right : forall sch, in_scope sch = true -> forall m n xs b,
  merge_any sch n (msg sch m) xs b = merge_lib sch n (msg sch m) xs b.
Proof. exact reads_right_proof. Qed.
Print Assumptions input_right.
Example input_right_ex : in_scope (schema_of rightF) = true /\
  merge_any (schema_of rightF) 50 (msg (schema_of rightF) 0) [VU32 0; VSlice false [] []; VMap None] [13;7;0;0;0; 18;1;65; 26;8;10;1;66;18;3;1;2;3] = MOk right_xs.
Proof. vm_compute. split; reflexivity. Qed.
(** Keys may be floats, which protobuf forbids: the NaN is there twice and the
    infinity once, and minus zero replaces zero. *)
Example unmarshal_input_ex :
  let sch := [[Field 1 (FMap Y_double (FAlways Y_int32))]] in
  let D := [[{| gf_exported := true; gf_tag := Some "bytes,1,rep"%string; gf_key := "fixed64,1,opt"%string; gf_val := "varint,2,opt"%string; gf_type := TMap KFloat64 (TScalar KInt32) |}]] in
  let entry k x := [10; 11; 9] ++ k ++ [16; x] in
  let nan := [0; 0; 0; 0; 0; 0; 248; 127] in let inf := [0; 0; 0; 0; 0; 0; 240; 127] in
  let nil := [0; 0; 0; 0; 0; 0; 0; 0] in let minus := [0; 0; 0; 0; 0; 0; 0; 128] in
  let b := entry nan 1 ++ entry inf 2 ++ entry nil 3 ++ entry nan 4 ++ entry inf 5 ++ entry minus 6 in
  let q := 9221120237041090560 in let i := 9218868437227405312 in
  implements D sch = true /\ schema_ok sch = true /\ all_made sch = true /\ agreeing sch = true /\
  merge_any sch (S (length b)) (msg sch 0) [VMap None] b =
    MOk [VMap (Some [(VF64 q, VI32 1); (VF64 i, VI32 5); (VF64 9223372036854775808, VI32 6); (VF64 q, VI32 4)])].
Proof. vm_compute. repeat split. Qed.
