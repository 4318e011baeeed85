(** Reading what was written into a message that holds something merges the two. *)
From Verif Require Import Base Wire GoType Leaf Codec Tag Walker Api Typing WalkInv WalkSeq SpecWire SpecTag SpecMsg SpecExact SpecJoin Sample RefuteMsg MsgApi JoinThms.
Local Open Scope N_scope.

(** C83. [joined_msg] is protobuf's merge of messages (SpecJoin.v). *)
Theorem join_partial : forall D sch, covers D sch = true -> forall s1 s2 m xs ys, reachable D s1 -> reachable D s2 ->
  wts D (VStruct xs) (SNamed m) = true -> forallb fresh xs = true -> forallb tidy xs = true ->
  wts D (VStruct ys) (SNamed m) = true -> encodable_msg sch ys (msg sch m) = true -> (zlen (ser (message sch ys (msg sch m))) < 2^63)%Z ->
  exists b zs, fst (Marshal D (ptr m ys) s1) = Returns (Some b, None) /\ fst (Unmarshal D b (ptr m xs) s2) = Returns (ptr m zs, None) /\
    map shown zs = map norm (joined_msg sch xs ys (msg sch m)) /\ wts D (VStruct zs) (SNamed m) = true.
Proof. exact join_proof. Qed.
Print Assumptions join_partial.
Example join_ex :
  let old := [VU64 5; VBool true; VF64 0; VOpt true (VI32 1)] in
  let new := [VU64 6; VBool false; VF64 0; VOpt true (VI32 0)] in
  let xs := [VI32 7; VOpt true (VStr [65]); VBytes (Some [1]); VSlice false [] []; VMap (Some [(VStr [97], VStr [98]); (VStr [99], VStr [])]);
    VI64 1; VOther 3; VU32 0; VSlice true [VI32 1] [VI32 9]; VPtr (Some (VStruct old)); VSlice false [] []] in
  let ys := [VI32 0; VOpt false (VStr []); VBytes (Some []); VSlice true [VPtr None] []; VMap (Some [(VStr [100], VStr [101]); (VStr [97], VStr [102])]);
    VI64 2; VOther 4; VU32 0; VSlice true [VI32 2; VI32 3] []; VPtr (Some (VStruct new)); VSlice false [] []] in
  covers sampleD sample = true /\ wts sampleD (VStruct xs) (SNamed 0) = true /\ forallb fresh xs = true /\ forallb tidy xs = true /\
  wts sampleD (VStruct ys) (SNamed 0) = true /\ encodable_msg sample ys (msg sample 0) = true /\
  zlen (ser (message sample ys (msg sample 0))) = 30%Z /\
  joined_msg sample xs ys (msg sample 0) =
   [VI32 7; VOpt true (VStr [65]); VBytes (Some []); VSlice false [] []; VMap (Some [(VStr [97], VStr [102]); (VStr [99], VStr []); (VStr [100], VStr [101])]);
    VI64 2; VOther 3; VU32 0; VSlice true [VI32 1; VI32 2; VI32 3] []; VPtr (Some (VStruct [VU64 6; VBool true; VF64 0; VOpt true (VI32 0)])); VSlice false [] []].
Proof. vm_compute. repeat split. Qed.
(** Two messages written one after the other are read as their merge. *)
Theorem appended_partial : forall D sch, covers D sch = true -> forall s1 s2 s3 m xs ys, reachable D s1 -> reachable D s2 -> reachable D s3 ->
  wts D (VStruct xs) (SNamed m) = true -> wts D (VStruct ys) (SNamed m) = true ->
  encodable_msg sch xs (msg sch m) = true -> encodable_msg sch ys (msg sch m) = true ->
  (zlen (ser (message sch xs (msg sch m))) + zlen (ser (message sch ys (msg sch m))) < 2^63)%Z ->
  exists a b zs, fst (Marshal D (ptr m xs) s1) = Returns (Some a, None) /\ fst (Marshal D (ptr m ys) s2) = Returns (Some b, None) /\
    fst (Unmarshal D (a ++ b) (ptr m (zeros (msg sch m))) s3) = Returns (ptr m zs, None) /\
    map shown zs = map norm (joined_msg sch (kept_msg sch xs (msg sch m)) ys (msg sch m)).
Proof. exact appended_proof. Qed.
Print Assumptions appended_partial.
Example appended_ex : encodable_msg sample person (msg sample 0) = true /\ encodable_msg sample kid (msg sample 0) = true /\
  joined_msg sample (kept_msg sample person (msg sample 0)) kid (msg sample 0) =
   [VI32 (-1); VOpt true (VStr [65; 110; 110]); VBytes (Some []); VSlice true [VPtr (Some (VStruct kid))] [VPtr None];
    VMap (Some [(VStr [97], VStr [98; 98]); (VStr [], VStr [99]); (VStr [120], VStr [])]);
    VI64 (-3); VOther 0; VU32 4294967295; VSlice true [VI32 1; VI32 0] [VI32 9]; VPtr (Some account); VSlice true [VStr []; VStr [122]] []].
Proof. vm_compute. repeat split. Qed.
(** Merging into an empty message gives the message (what the wire keeps of it), merging an empty one changes nothing. *)
Theorem join_empty : forall D sch, covers D sch = true -> forall m xs, wts D (VStruct xs) (SNamed m) = true ->
  (encodable_msg sch xs (msg sch m) = true -> (zlen (ser (message sch xs (msg sch m))) < 2^63)%Z ->
   map norm (joined_msg sch (zeros (msg sch m)) xs (msg sch m)) = map norm (kept_msg sch xs (msg sch m))) /\
  joined_msg sch xs (zeros (msg sch m)) (msg sch m) = xs.
Proof. exact join_empty_proof. Qed.
Print Assumptions join_empty.
(** Otherwise not: the nil map that is written as an empty entry (C07) replaces an entry
    of the target, and a message in the spare capacity of a list (C32) is merged with. *)
Theorem join_refuted :
  (exists D sch m xs ys b zs, covers D sch = true /\ wts D (VStruct xs) (SNamed m) = true /\ wts D (VStruct ys) (SNamed m) = true /\
    forallb fresh xs = true /\ forallb tidy xs = true /\ fst (Marshal D (ptr m ys) g_empty) = Returns (Some b, None) /\
    fst (Unmarshal D b (ptr m xs) g_empty) = Returns (ptr m zs, None) /\ joined_msg sch xs ys (msg sch m) = xs /\ map norm zs <> map norm xs) /\
  (exists D sch m xs ys b zs, covers D sch = true /\ wts D (VStruct xs) (SNamed m) = true /\ wts D (VStruct ys) (SNamed m) = true /\
    forallb tidy xs = true /\ encodable_msg sch ys (msg sch m) = true /\ fst (Marshal D (ptr m ys) g_empty) = Returns (Some b, None) /\
    fst (Unmarshal D b (ptr m xs) g_empty) = Returns (ptr m zs, None) /\ map norm zs <> map norm (joined_msg sch xs ys (msg sch m))).
Proof. exact (conj nil_map_replaces hidden_joins). Qed.
Print Assumptions join_refuted.
