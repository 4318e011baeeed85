(** What a message of any generated type holds after a call of Unmarshal that failed. *)
From Coq Require Import String.
From Verif Require Import Base Wire GoType Leaf Codec Tag Walker Api Resolve Typing SpecWire SpecTag SpecMsg SpecLib SpecFailed SpecProto SpecOut SpecIn SpecLeft
  WalkSeq MsgApi ProtoGen GenText GenDesc SpecText SpecGo SpecDesc SpecProgram OutSample GoSample ProgramFacts AnyProgram LeftThms LeftSample LeftProgram.
From Verif Require Import SpecMsg SpecProto.
Local Open Scope N_scope.

(** C85. *)
Theorem failed_input : forall D sch, implements D sch = true -> schema_ok sch = true -> all_made sch = true -> agreeing sch = true ->
  forall s m xs zs b, reachable D s -> wts D (VStruct xs) (SNamed m) = true -> forallb fresh xs = true -> map norm xs = map norm zs ->
  bytes_okb b = true -> (zlen b < 2^63)%Z -> merge_any sch (S (List.length b)) (msg sch m) zs b = MBad ->
  exists ys e, fst (Unmarshal D b (ptr m xs) s) = Returns (ptr m ys, Some e) /\
    map norm ys = map norm (remains_any sch (S (List.length b)) (msg sch m) zs b) /\ wts D (VStruct ys) (SNamed m) = true.
Proof. exact left_proof. Qed.
Print Assumptions failed_input.
Theorem generated_failed : forall F, valid F = true -> usable F = true -> agreeing (schema_of F) = true ->
  forall s m xs zs b, reachable (generate F) s -> wts (generate F) (VStruct xs) (SNamed m) = true -> forallb fresh xs = true -> map norm xs = map norm zs ->
  bytes_okb b = true -> (zlen b < 2^63)%Z -> merge_any (schema_of F) (S (List.length b)) (msg (schema_of F) m) zs b = MBad ->
  exists ys e, fst (Unmarshal (generate F) b (ptr m xs) s) = Returns (ptr m ys, Some e) /\
    map norm ys = map norm (remains_any (schema_of F) (S (List.length b)) (msg (schema_of F) m) zs b) /\ wts (generate F) (VStruct ys) (SNamed m) = true.
Proof. exact generated_left_proof. Qed.
Print Assumptions generated_failed.
(** The same of programs made from the texts of generated files. *)
Theorem program_failed : forall X scope files D, good_scope X scope -> valid (descs X) = true -> usable (descs X) = true -> agreeing (schema_of (descs X)) = true ->
  (forall f, In f files -> incl (nx_messages f) X /\ named_file f = true) ->
  compiles X scope (map (fun f => (f, GenerateText X f)) files) D -> let sch := schema_of (descs X) in
  forall s m xs zs b, reachable D s -> wts D (VStruct xs) (SNamed m) = true -> forallb fresh xs = true -> map norm xs = map norm zs ->
  bytes_okb b = true -> (zlen b < 2^63)%Z -> merge_any sch (S (List.length b)) (msg sch m) zs b = MBad ->
  exists ys e, fst (Unmarshal D b (ptr m xs) s) = Returns (ptr m ys, Some e) /\
    map norm ys = map norm (remains_any sch (S (List.length b)) (msg sch m) zs b) /\ wts D (VStruct ys) (SNamed m) = true.
Proof. exact program_failed_proof. Qed.
Print Assumptions program_failed.
Example program_failed_ex : good_scope [fixedmsg] fixed_scope /\ valid (descs [fixedmsg]) = true /\ usable (descs [fixedmsg]) = true /\
  agreeing (schema_of (descs [fixedmsg])) = true /\
  compiles [fixedmsg] fixed_scope (map (fun f => (f, GenerateText [fixedmsg] f)) [fixed_file]) (generate (descs [fixedmsg])) /\
  let sch := schema_of (descs [fixedmsg]) in let b := [13; 7; 13; 255; 255; 255; 255] in let xs := [VI32 3; VOther 0] in
  wts (generate (descs [fixedmsg])) (VStruct xs) (SNamed 0) = true /\ forallb fresh xs = true /\
  merge_any sch (S (List.length b)) (msg sch 0) xs b = MBad /\
  remains_any sch (S (List.length b)) (msg sch 0) xs b = [VI32 268435455; VOther 0].
Proof. split; [exact fixed_good|]. do 3 (split; [vm_compute; reflexivity|]). split; [exact fixed_program|]. vm_compute. repeat split. Qed.
(** [remains_any] says nothing new of inputs without faults, and of types that are
    read as protobuf says it is [remains] of C82. *)
Theorem remains_any_good : forall sch fuel fs xs b zs, merge_any sch fuel fs xs b = MOk zs -> remains_any sch fuel fs xs b = zs.
Proof. exact left_good_proof. Qed.
Print Assumptions remains_any_good.
Theorem remains_any_right : forall sch, in_scope sch = true -> forall m n xs b,
  remains_any sch n (msg sch m) xs b = remains sch n (msg sch m) xs b.
Proof. exact left_right_proof. Qed.
Print Assumptions remains_any_right.
Example remains_any_ex : let sch := schema_of rightF in in_scope sch = true /\ in_scope devS = false /\
  let zs := [VU32 3; VSlice false [] []; VMap None] in
  (* a record, then an entry with a fault *)
  let b := [18; 1; 65; 26; 5; 10; 1; 66; 18; 9] in
  merge_any sch (S (List.length b)) (msg sch 0) zs b = MBad /\
  remains_any sch (S (List.length b)) (msg sch 0) zs b = [VU32 3; VSlice true [VStr [65]] []; VMap None] /\
  remains sch (S (List.length b)) (msg sch 0) zs b = [VU32 3; VSlice true [VStr [65]] []; VMap None] /\
  (* without fault *)
  let c := [18; 1; 65; 13; 1; 0; 0; 0] in
  merge_any sch (S (List.length c)) (msg sch 0) zs c = MOk [VU32 1; VSlice true [VStr [65]] []; VMap None] /\
  remains_any sch (S (List.length c)) (msg sch 0) zs c = [VU32 1; VSlice true [VStr [65]] []; VMap None].
Proof. vm_compute. repeat split. Qed.
(** A field may hold a number that is neither the old one nor in the input: the
    input is protobuf's encoding of -1 in an sfixed32 that was 7. *)
Theorem failed_number : exists F xs b ys e,
  valid F = true /\ usable F = true /\ msg (schema_of F) 0 = [Field 1 (FImplicit Y_sfixed32); Hidden TOther] /\
  xs = [VI32 7; VOther 0] /\ merge (schema_of F) (S (List.length b)) (msg (schema_of F) 0) xs b = MOk [VI32 (-1); VOther 0] /\
  fst (Unmarshal (generate F) b (ptr 0 xs) g_empty) = Returns (ptr 0 ys, Some e) /\ ys = [VI32 268435455; VOther 0].
Proof. exact failed_number_proof. Qed.
Print Assumptions failed_number.

(** An sfixed32 and an optional sfixed64 without an end of the varint; an element
    and an entry without one are dropped. *)
Example generated_failed_ex : valid devF = true /\ usable devF = true /\ agreeing devS = true /\
  let zs := [VI32 3; VSlice true [VU32 5] []; VMap (Some [(VI32 6, VU32 64)]); VOpt false (VI64 0); VPtr None; VMap None; VMap None] in
  let run b := match fst (Unmarshal (generate devF) b (ptr 0 zs) g_empty) with
    | Returns (IPtr _ (Some (VStruct ys)), Some _) => Some (map norm ys) | _ => None end in
  let left b := remains_any devS (S (List.length b)) (msg devS 0) zs b in
  let bad b := merge_any devS (S (List.length b)) (msg devS 0) zs b = MBad in
  let b1 := [13; 129; 130; 128; 128; 1] in
  let b2 := [13; 9; 33; 255; 255; 255; 255; 255; 255; 255; 255; 13; 8] in
  let b3 := [21; 200; 200; 200; 200] in
  let b4 := [21; 4; 26; 4; 8; 7; 16; 200] in
  wts (generate devF) (VStruct zs) (SNamed 0) = true /\ forallb fresh zs = true /\ bad b1 /\ bad b2 /\ bad b3 /\ bad b4 /\
  left b1 = [VI32 257; VSlice true [VU32 5] []; VMap (Some [(VI32 6, VU32 64)]); VOpt false (VI64 0); VPtr None; VMap None; VMap None] /\ run b1 = Some (map norm (left b1)) /\
  left b2 = [VI32 9; VSlice true [VU32 5] []; VMap (Some [(VI32 6, VU32 64)]); VOpt true (VI64 72057594037927935); VPtr None; VMap None; VMap None] /\ run b2 = Some (map norm (left b2)) /\
  left b3 = zs /\ run b3 = Some (map norm zs) /\
  left b4 = [VI32 3; VSlice true [VU32 5; VU32 4] []; VMap (Some [(VI32 6, VU32 64)]); VOpt false (VI64 0); VPtr None; VMap None; VMap None] /\ run b4 = Some (map norm (left b4)).
Proof. vm_compute. repeat split. Qed.
