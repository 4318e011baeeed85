(** Records of different fields may come in any order. *)
From Coq Require Import String.
From Verif Require Import Base Wire GoType Leaf Codec Tag Walker Api Typing WalkInv WalkSeq SpecWire SpecTag SpecMsg SpecExact SpecRecords SpecVersions Sample RefuteMsg RefuteRecords MsgApi RecordFacts.
Local Open Scope N_scope.

(** C81. [arranged] says that two inputs consist of the same records, at every depth,
    and that those of one field are in the same order. *)
Theorem any_order_partial : forall D sch, covers D sch = true -> forall s s' m xs b b', reachable D s -> reachable D s' ->
  wts D (VStruct xs) (SNamed m) = true -> forallb fresh xs = true -> forallb tidy xs = true ->
  arranged sch (msg sch m) b b' -> bytes_okb b = true -> (zlen b < 2^63)%Z -> plain sch (S (List.length b)) (msg sch m) b = true ->
  (exists ys ys', fst (Unmarshal D b (ptr m xs) s) = Returns (ptr m ys, None) /\
    fst (Unmarshal D b' (ptr m xs) s') = Returns (ptr m ys', None) /\ map shown ys = map shown ys') \/
  (exists x e x' e', fst (Unmarshal D b (ptr m xs) s) = Returns (x, Some e) /\
    fst (Unmarshal D b' (ptr m xs) s') = Returns (x', Some e')).
Proof. exact order_proof. Qed.
Print Assumptions any_order_partial.
(** What Marshal writes may be rearranged and is read all the same, also with another version of the schema (C80). *)
Theorem rearranged_partial : forall D sch D' sch', covers D sch = true -> covers D' sch' = true -> understood sch sch' ->
  forall s s' m xs, reachable D s -> reachable D' s' -> (m < List.length D')%nat -> wts D (VStruct xs) (SNamed m) = true ->
  encodable_msg sch xs (msg sch m) = true -> (zlen (ser (message sch xs (msg sch m))) < 2^63)%Z ->
  exists b, fst (Marshal D (ptr m xs) s) = Returns (Some b, None) /\ forall b', arranged sch' (msg sch' m) b b' ->
    exists ys, fst (Unmarshal D' b' (ptr m (zeros (msg sch' m))) s') = Returns (ptr m ys, None) /\
      map shown ys = map norm (translate_msg sch sch' xs (msg sch m) (msg sch' m)).
Proof. exact rearranged_proof. Qed.
Print Assumptions rearranged_partial.
(** Without [plain], which excludes the bool of C28, the order matters. *)
Theorem any_order_refuted : exists D sch m xs l l', covers D sch = true /\ wts D (VStruct xs) (SNamed m) = true /\
  forallb fresh xs = true /\ forallb tidy xs = true /\ records_only l /\ records_only l' /\ same_order l l' /\ bytes_okb (concat l) = true /\
  (exists ys, fst (Unmarshal D (concat l) (ptr m xs) g_empty) = Returns (ptr m ys, None)) /\
  (exists ys e, fst (Unmarshal D (concat l') (ptr m xs) g_empty) = Returns (ptr m ys, Some e)).
Proof. exact order_matters_proof. Qed.
Print Assumptions any_order_refuted.

(** A person with a friend; the records of the friend, then those of the person are
    rearranged. Tags and lengths are not all minimal, field 30 is not in the schema. *)
Example any_order_ex :
  let id := [136; 0; 150; 1] in
  let other := [240; 1; 1] in
  let head := [34; 133; 0] in
  let friend := [8; 5; 18; 1; 65] in
  let friend' := [18; 1; 65; 8; 5] in
  let score := [72; 3] in
  let b := id ++ head ++ friend ++ score ++ [72; 4] ++ other in
  let b' := other ++ score ++ head ++ friend' ++ [72; 4] ++ id in
  let read b := match fst (Unmarshal sampleD b (ptr 0 (zeros (msg sample 0))) g_empty) with
    | Returns (IPtr _ (Some (VStruct ys)), None) => Some (map shown ys) | _ => None end in
  covers sampleD sample = true /\ arranged sample (msg sample 0) b b' /\ b <> b' /\
  plain sample (S (List.length b)) (msg sample 0) b = true /\
  read b = read b' /\ read b <> None /\ read b <> Some (map shown (zeros (msg sample 0))).
Proof.
  split; [reflexivity|]. split.
  - apply ar_trans with ([136; 0; 150; 1] ++ [34; 133; 0] ++ [18; 1; 65; 8; 5] ++ [72; 3; 72; 4; 240; 1; 1]).
    + apply (ar_message sample (msg sample 0) 4 (FRepeated (FMessage 0)) 0 [[136; 0; 150; 1]] [34; 133; 0] [8; 5; 18; 1; 65]).
      * repeat constructor; discriminate.
      * cbn. auto 10.
      * auto.
      * repeat eexists; reflexivity.
      * apply (ar_order sample (msg sample 0) [[8; 5]; [18; 1; 65]] [[18; 1; 65]; [8; 5]]); [repeat constructor; discriminate|repeat constructor; discriminate|].
        intros n. unfold of_field. cbn [filter].
        repeat match goal with |- context[record_of ?c] => let v := eval vm_compute in (record_of c) in change (record_of c) with v end. cbv iota.
        destruct (N.eqb_spec 1 n) as [<-|?]; [reflexivity|]. destruct (N.eqb_spec 2 n) as [<-|?]; reflexivity.
    + apply (ar_order sample (msg sample 0) [[136; 0; 150; 1]; [34; 133; 0; 18; 1; 65; 8; 5]; [72; 3]; [72; 4]; [240; 1; 1]]
        [[240; 1; 1]; [72; 3]; [34; 133; 0; 18; 1; 65; 8; 5]; [72; 4]; [136; 0; 150; 1]]); [repeat constructor; discriminate|repeat constructor; discriminate|].
      intros n. unfold of_field. cbn [filter].
      repeat match goal with |- context[record_of ?c] => let v := eval vm_compute in (record_of c) in change (record_of c) with v end. cbv iota.
      destruct (N.eqb_spec 1 n) as [<-|?]; [reflexivity|]. destruct (N.eqb_spec 4 n) as [<-|?]; [reflexivity|].
      destruct (N.eqb_spec 9 n) as [<-|?]; [reflexivity|]. destruct (N.eqb_spec 30 n) as [<-|?]; reflexivity.
  - split; [discriminate|]. split; [vm_compute; reflexivity|]. split; [vm_compute; reflexivity|]. split; vm_compute; discriminate.
Qed.
(** The records of a message Marshal wrote, backwards. *)
Example rearranged_ex :
  let back := [[82; 16; 8; 172; 2; 16; 1; 25; 0; 0; 0; 0; 0; 0; 0; 128; 32; 0]; [61; 255; 255; 255; 255]; [48; 5]; [42; 6; 10; 1; 97; 18; 1; 98]; [8; 150; 1]] in
  let xs := [VI32 150; VOpt false (VStr []); VBytes None; VSlice false [] []; VMap (Some [(VStr [97], VStr [98])]);
    VI64 (-3); VOther 0; VU32 4294967295; VSlice false [] []; VPtr (Some account); VSlice false [] []] in
  wts sampleD (VStruct xs) (SNamed 0) = true /\ encodable_msg sample xs (msg sample 0) = true /\
  fst (Marshal sampleD (ptr 0 xs) g_empty) = Returns (Some (concat (rev back)), None) /\
  fst (Unmarshal sampleD (concat back) (ptr 0 (zeros (msg sample 0))) g_empty) = Returns (ptr 0 xs, None).
Proof. vm_compute. repeat split. Qed.
