(** What a message holds after a call of Unmarshal that failed. *)
From Coq Require Import String.
From Verif Require Import Base Wire GoType Leaf Codec Tag Walker Api Typing WalkInv WalkSeq SpecWire SpecTag SpecMsg SpecLib SpecFailed Sample MsgApi FailedThms.
Local Open Scope N_scope.

(** C82. [merge_lib] says which inputs are faulty, [remains] what is left then. *)
Theorem failed_unmarshal : forall D sch, covers D sch = true -> forall s m xs zs b, reachable D s ->
  wts D (VStruct xs) (SNamed m) = true -> forallb fresh xs = true -> map norm xs = map norm zs ->
  bytes_okb b = true -> (zlen b < 2^63)%Z -> merge_lib sch (S (List.length b)) (msg sch m) zs b = MBad ->
  exists ys e, fst (Unmarshal D b (ptr m xs) s) = Returns (ptr m ys, Some e) /\
    map norm ys = map norm (remains sch (S (List.length b)) (msg sch m) zs b) /\ wts D (VStruct ys) (SNamed m) = true.
Proof. exact failed_proof. Qed.
Print Assumptions failed_unmarshal.
(** If a good input is followed by a fault, the message holds what the good input says. *)
Theorem failed_after_good : forall D sch, covers D sch = true -> forall s m xs zs b c, reachable D s ->
  wts D (VStruct xs) (SNamed m) = true -> forallb fresh xs = true ->
  bytes_okb (b ++ c) = true -> (zlen (b ++ c) < 2^63)%Z ->
  merge_lib sch (S (List.length b)) (msg sch m) xs b = MOk zs -> faulty (msg sch m) c ->
  exists ys e, fst (Unmarshal D (b ++ c) (ptr m xs) s) = Returns (ptr m ys, Some e) /\ map norm ys = map norm zs.
Proof. exact failed_prefix_proof. Qed.
Print Assumptions failed_after_good.
(** Nothing remains to be said of inputs without faults. *)
Theorem remains_good : forall sch fuel fs xs b zs, merge_lib sch fuel fs xs b = MOk zs -> remains sch fuel fs xs b = zs.
Proof. exact remains_ok. Qed.
Print Assumptions remains_good.

(** Faults within an account, a friend and an entry of a map, and a cut off string
    after two good records. The records after the fault are not read. *)
Example failed_ex :
  let run b := match fst (Unmarshal sampleD b (ptr 0 kid) g_empty) with
    | Returns (IPtr _ (Some (VStruct ys)), Some _) => Some (map norm ys) | _ => None end in
  let left b := map norm (remains sample (S (List.length b)) (msg sample 0) kid b) in
  let bad b := merge_lib sample (S (List.length b)) (msg sample 0) kid b = MBad in
  let b1 := [8; 7; 82; 6; 8; 172; 2; 9; 1; 2; 72; 3] in
  let b2 := [72; 3; 34; 3; 8; 1; 9; 8; 7] in
  let b3 := [72; 3; 42; 4; 10; 1; 121; 17; 8; 7] in
  let b4 := [8; 7; 72; 3] in
  let c := [18; 5; 65] in
  covers sampleD sample = true /\ bad b1 /\ bad b2 /\ bad b3 /\
  run b1 = Some (left b1) /\ left b1 = map norm
    [VI32 7; VOpt false (VStr []); VBytes None; VSlice false [] []; VMap (Some [(VStr [120], VStr [])]); VI64 0; VOther 0; VU32 0;
     VSlice false [] []; VPtr (Some (VStruct [VU64 300; VBool false; VF64 0; VOpt false (VI32 0)])); VSlice false [] []] /\
  run b2 = Some (left b2) /\ left b2 = map norm
    [VI32 (-1); VOpt false (VStr []); VBytes None; VSlice false [] []; VMap (Some [(VStr [120], VStr [])]); VI64 0; VOther 0; VU32 0;
     VSlice true [VI32 3] []; VPtr None; VSlice false [] []] /\
  run b3 = Some (left b3) /\ left b3 = left b2 /\
  faulty (msg sample 0) c /\ (exists zs, merge_lib sample (S (List.length b4)) (msg sample 0) kid b4 = MOk zs /\ run (b4 ++ c) = Some (map norm zs) /\ zs <> kid).
Proof.
  vm_compute. repeat split; try discriminate; [left; reflexivity|]. eexists. split; [reflexivity|]. split; [reflexivity|discriminate].
Qed.
