(** Programs with different versions of a schema understand each other. *)
From Coq Require Import String.
From Verif Require Import Base Wire GoType Leaf Codec Tag Walker Api Typing WalkInv WalkSeq SpecWire SpecTag SpecMsg SpecExact SpecVersions Sample RefuteMsg RefuteVersions MsgApi VersionThms.
Local Open Scope N_scope.

(** C80. [understood] says that fields with the same number have compatible types,
    [translate_msg] what the reader has then. *)
Theorem versions_partial : forall D sch D' sch', covers D sch = true -> covers D' sch' = true -> understood sch sch' ->
  forall s s' m xs, reachable D s -> reachable D' s' -> (m < List.length D')%nat -> wts D (VStruct xs) (SNamed m) = true ->
  encodable_msg sch xs (msg sch m) = true -> (zlen (ser (message sch xs (msg sch m))) < 2^63)%Z ->
  exists b ys, fst (Marshal D (ptr m xs) s) = Returns (Some b, None) /\
    fst (Unmarshal D' b (ptr m (zeros (msg sch' m))) s') = Returns (ptr m ys, None) /\
    map shown ys = map norm (translate_msg sch sch' xs (msg sch m) (msg sch' m)) /\ wts D' (VStruct ys) (SNamed m) = true.
Proof. exact versions_proof. Qed.
Print Assumptions versions_partial.
(** Field by field: what both know arrives, what the writer does not know is zero. *)
Theorem version_fields_partial : forall D sch D' sch', covers D sch = true -> covers D' sch' = true -> understood sch sch' ->
  forall s s' m xs b ys, reachable D s -> reachable D' s' -> (m < List.length D')%nat -> wts D (VStruct xs) (SNamed m) = true ->
  encodable_msg sch xs (msg sch m) = true -> (zlen (ser (message sch xs (msg sch m))) < 2^63)%Z ->
  fst (Marshal D (ptr m xs) s) = Returns (Some b, None) ->
  fst (Unmarshal D' b (ptr m (zeros (msg sch' m))) s') = Returns (ptr m ys, None) ->
  forall j n f', nth_error (msg sch' m) j = Some (Field n f') ->
    (forall i f x, nth_error (msg sch m) i = Some (Field n f) -> nth_error xs i = Some x ->
      option_map shown (nth_error ys j) = Some (norm (translate sch sch' x f f'))) /\
    (~ In n (numbers (msg sch m)) -> option_map shown (nth_error ys j) = Some (norm (zero (go_type f')))).
Proof. exact unknown_proof. Qed.
Print Assumptions version_fields_partial.
(** A program that reads and writes again passes on the fields it knows and no others. *)
Theorem relay_partial : forall D sch D' sch', covers D sch = true -> covers D' sch' = true -> understood sch sch' -> understood sch' sch ->
  forall s s' s2' s2 m xs b ys, reachable D s -> reachable D' s' -> reachable D' s2' -> reachable D s2 -> (m < List.length D')%nat ->
  wts D (VStruct xs) (SNamed m) = true ->
  encodable_msg sch xs (msg sch m) = true -> (zlen (ser (message sch xs (msg sch m))) < 2^63)%Z ->
  fst (Marshal D (ptr m xs) s) = Returns (Some b, None) ->
  fst (Unmarshal D' b (ptr m (zeros (msg sch' m))) s') = Returns (ptr m ys, None) ->
  encodable_msg sch' ys (msg sch' m) = true -> (zlen (ser (message sch' ys (msg sch' m))) < 2^63)%Z ->
  exists b' zs, fst (Marshal D' (ptr m ys) s2') = Returns (Some b', None) /\
    fst (Unmarshal D b' (ptr m (zeros (msg sch m))) s2) = Returns (ptr m zs, None) /\
    forall j n f, nth_error (msg sch m) j = Some (Field n f) ->
    (forall i f' y, nth_error (msg sch' m) i = Some (Field n f') -> nth_error ys i = Some y ->
      option_map shown (nth_error zs j) = Some (norm (translate sch' sch y f' f))) /\
    (~ In n (numbers (msg sch' m)) -> option_map shown (nth_error zs j) = Some (norm (zero (go_type f)))).
Proof. exact relay_proof. Qed.
Print Assumptions relay_partial.
(** A number arrives as the same number whenever the new type has it. *)
Theorem number_kept : forall D s s' v, change s s' = true -> wt D v (TScalar (go_kind s)) = true ->
  wt D (become s' v) (TScalar (go_kind s')) = true /\
  ((exists w, wt D w (TScalar (go_kind s')) = true /\ number w = number v) -> number (become s' v) = number v) /\
  (go_kind s = go_kind s' -> become s' v = v).
Proof. exact become_proof. Qed.
Print Assumptions number_kept.
(** With one version only, this is the round trip of C07. *)
Theorem same_version : forall D sch, covers D sch = true -> forall m xs, wts D (VStruct xs) (SNamed m) = true ->
  encodable_msg sch xs (msg sch m) = true -> (zlen (ser (message sch xs (msg sch m))) < 2^63)%Z ->
  map norm (translate_msg sch sch xs (msg sch m) (msg sch m)) = map norm (kept_msg sch xs (msg sch m)).
Proof. exact same_version_proof. Qed.
Print Assumptions same_version.
(** An int32 cannot become a bool, nor a large sint64 a sint32. *)
Theorem versions_refuted : (exists D sch D' sch' xs b x e, covers D sch = true /\ covers D' sch' = true /\
  (forall n s s', In (Field n (FImplicit s)) (msg sch 0) -> In (Field n (FImplicit s')) (msg sch' 0) -> documented s s' = true) /\
  legal D sch xs /\ fst (Marshal D (ptr 0 xs) g_empty) = Returns (Some b, None) /\
  fst (Unmarshal D' b (ptr 0 (zeros (msg sch' 0))) g_empty) = Returns (x, Some e)) /\
  (exists D sch D' sch' xs b ys zs, covers D sch = true /\ covers D' sch' = true /\
  (forall n s s', In (Field n (FImplicit s)) (msg sch 0) -> In (Field n (FImplicit s')) (msg sch' 0) -> documented s s' = true) /\
  legal D sch xs /\ fst (Marshal D (ptr 0 xs) g_empty) = Returns (Some b, None) /\
  merge sch' (S (List.length b)) (msg sch' 0) (zeros (msg sch' 0)) b = MOk zs /\
  fst (Unmarshal D' b (ptr 0 (zeros (msg sch' 0))) g_empty) = Returns (ptr 0 ys, None) /\ map norm ys <> map norm zs).
Proof. exact (conj bool_change sint_change). Qed.
Print Assumptions versions_refuted.

(** Another version of [sample]: fields in another order, of other types, one new
    and some gone. *)
Example versions_ex :
  let D' : decls :=
    [[ sfield "bytes,2,rep" (TSlice (TScalar KString));
       sfield "varint,1,opt" (TScalar KInt64);
       sfield "varint,20,opt" (TOption KBool);
       sfield "bytes,4,rep" (TSlice (TMsg 0));
       sfield "varint,9,opt" (TScalar KUint64);
       sfield "bytes,10,rep" (TSlice (TMsg 1));
       smap "bytes,5,rep" "bytes,1,opt" "bytes,2,opt" (TMap KString TBytes) ];
     [ sfield "varint,4,opt" (TScalar KInt64);
       sfield "varint,1,opt" (TOption KUint32);
       sfield "varint,2,opt" (TScalar KInt32) ]] in
  let sch' :=
    [[ Field 2 (FRepeated (FAlways Y_string)); Field 1 (FImplicit Y_int64); Field 20 (FOptional Y_bool); Field 4 (FRepeated (FMessage 0));
       Field 9 (FImplicit Y_uint64); Field 10 (FRepeated (FMessage 1)); Field 5 (FMap Y_string FBytes) ];
     [ Field 4 (FImplicit Y_int64); Field 1 (FOptional Y_uint32); Field 2 (FImplicit Y_int32) ]] in
  covers sampleD sample = true /\ covers D' sch' = true /\
  forallb (fun m => forallb (fun g => forallb (fun g' => match g, g' with Field n f, Field n' f' => negb (n =? n') || compatible f f' | _, _ => true end)
    (msg sch' m)) (msg sample m)) [0%nat; 1%nat] = true /\
  wts sampleD (VStruct person) (SNamed 0) = true /\ encodable_msg sample person (msg sample 0) = true /\
  match fst (Marshal sampleD (ptr 0 person) g_empty) with
  | Returns (Some b, None) => match fst (Unmarshal D' b (ptr 0 (zeros (msg sch' 0))) g_empty) with
    | Returns (IPtr _ (Some (VStruct ys)), None) =>
      map shown ys = map norm (translate_msg sample sch' person (msg sample 0) (msg sch' 0)) /\
      map shown ys = [VSlice true [VStr [65; 110; 110]] []; VI64 150; VOpt false (VBool false);
        VSlice true [VPtr (Some (VStruct [VSlice false [] []; VI64 (-1); VOpt false (VBool false); VSlice false [] []; VU64 0; VSlice false [] [];
          VMap (Some [(VStr [120], VBytes (Some []))])]))] [];
        VU64 0; VSlice true [VPtr (Some (VStruct [VI64 0; VOpt true (VU32 300); VI32 1]))] [];
        VMap (Some [(VStr [97], VBytes (Some [98; 98])); (VStr [], VBytes (Some [99]))])]
    | _ => False end
  | _ => False end.
Proof. vm_compute. repeat split. Qed.
(** What a program with the field of -1 read as uint32 passes on. *)
Example relay_ex :
  let D := [[sfield "varint,1,opt" (TScalar KInt64); sfield "bytes,2,opt" (TScalar KString)]] in
  let sch := [[Field 1 (FImplicit Y_int64); Field 2 (FImplicit Y_string)]] in
  let D' := [[sfield "varint,1,opt" (TScalar KUint32)]] in
  let sch' := [[Field 1 (FImplicit Y_uint32)]] in
  covers D sch = true /\ covers D' sch' = true /\ number (become Y_uint32 (VI64 7)) = 7%Z /\
  match fst (Marshal D (ptr 0 [VI64 (-1); VStr [65]]) g_empty) with
  | Returns (Some b, None) => match fst (Unmarshal D' b (ptr 0 (zeros (msg sch' 0))) g_empty) with
    | Returns (v, None) => v = ptr 0 [VU32 4294967295] /\ match fst (Marshal D' v g_empty) with
      | Returns (Some b', None) => fst (Unmarshal D b' (ptr 0 (zeros (msg sch 0))) g_empty) = Returns (ptr 0 [VI64 4294967295; VStr []], None)
      | _ => False end
    | _ => False end
  | _ => False end.
Proof. vm_compute. repeat split. Qed.
