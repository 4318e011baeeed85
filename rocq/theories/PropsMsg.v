(** Property theorems about messages, for declarations [D] that are the Go
    types of a schema [sch] in scope ([covers D sch], SpecMsg.v), in every
    reachable state of the caches. [ptr m xs] is a pointer to a message of type
    [m] with field values [xs]. Hypotheses on messages: [wts], they have the
    type; [encodable_msg], none of three deviations of the library is met (each
    refuted below); the encoding has less than 2^63 bytes. *)
From Coq Require Import String.
From Verif Require Import Base Wire GoType Leaf Codec Tag Walker Api Resolve Typing SpecWire SpecTag SpecMsg SpecLib
  WalkSeq MsgApi MsgMore MsgStep MsgLib MsgThms MsgInt MsgOnly MsgDec Sample RefuteMsg.
Local Open Scope N_scope.

(** C07. [kept]: hidden fields become zero, nil elements of repeated fields are
    dropped; [norm] identifies nil and empty slices and maps, and ignores spare
    capacity and the memory behind None. *)
Theorem roundtrip_partial : forall D sch, covers D sch = true -> forall s1 s2 m xs, reachable D s1 -> reachable D s2 ->
  wts D (VStruct xs) (SNamed m) = true -> encodable_msg sch xs (msg sch m) = true -> (zlen (ser (message sch xs (msg sch m))) < 2^63)%Z ->
  exists b ys, fst (Marshal D (ptr m xs) s1) = Returns (Some b, None) /\
    fst (Unmarshal D b (ptr m (zeros (msg sch m))) s2) = Returns (ptr m ys, None) /\
    map norm ys = map norm (kept_msg sch xs (msg sch m)) /\ wts D (VStruct ys) (SNamed m) = true.
Proof. exact roundtrip. Qed.
Print Assumptions roundtrip_partial.
Example roundtrip_ex : covers sampleD sample = true /\ wts sampleD (VStruct person) (SNamed 0) = true /\
  encodable_msg sample person (msg sample 0) = true /\ zlen (ser (message sample person (msg sample 0))) = 82%Z.
Proof. vm_compute. repeat split. Qed.
Theorem roundtrip_refuted : (exists D xs, altered D emptymap xs) /\ (exists D xs, unreadable D boolmaps xs) /\
  (exists D xs, unreadable D sfixed xs) /\ (exists D xs, unreadable D repfixed xs) /\
  (exists D xs, altered D zigmap xs) /\ (exists D xs, altered D ptrzero xs).
Proof. exact (conj emptymap_altered (conj boolmap_unreadable (conj sfixed_unreadable (conj repfixed_unreadable (conj zigmap_altered ptrzero_altered))))). Qed.
Print Assumptions roundtrip_refuted.

(** C08 *)
Theorem optional_presence_partial : forall D sch, covers D sch = true -> forall s1 s2 m xs j n sc some v, reachable D s1 -> reachable D s2 ->
  wts D (VStruct xs) (SNamed m) = true -> encodable_msg sch xs (msg sch m) = true -> (zlen (ser (message sch xs (msg sch m))) < 2^63)%Z ->
  nth_error (msg sch m) j = Some (Field n (FOptional sc)) -> nth_error xs j = Some (VOpt some v) ->
  exists R1 R2 ys v', let b := ser (R1 ++ (if some then [(n, pay sc v)] else []) ++ R2) in
    fst (Marshal D (ptr m xs) s1) = Returns (Some b, None) /\ Forall (fun r : record => fst r <> n) (R1 ++ R2) /\
    fst (Unmarshal D b (ptr m (zeros (msg sch m))) s2) = Returns (ptr m ys, None) /\
    nth_error ys j = Some (VOpt some v') /\ (some = true -> v' = v).
Proof. exact optional_proof. Qed.
Print Assumptions optional_presence_partial.
Example optional_presence_ex : let x v := VStruct [VU64 0; VBool false; VF64 0; v] in let xs v := match x v with VStruct l => l | _ => [] end in
  nth_error (msg sample 1) 3 = Some (Field 4 (FOptional Y_int32)) /\
  fst (Marshal sampleD (IPtr (SNamed 1) (Some (x (VOpt true (VI32 0))))) g_empty) = Returns (Some [32; 0], None) /\
  fst (Marshal sampleD (IPtr (SNamed 1) (Some (x (VOpt false (VI32 9))))) g_empty) = Returns (Some [], None).
Proof. vm_compute. repeat split. Qed.
Theorem optional_presence_refuted : exists D xs, unreadable D sfixed xs.
Proof. exact sfixed_unreadable. Qed.
Print Assumptions optional_presence_refuted.

(** C09 *)
Theorem zero_suppression : forall D sch, covers D sch = true -> forall s1 s2 m xs j n sc v, reachable D s1 -> reachable D s2 ->
  wts D (VStruct xs) (SNamed m) = true -> encodable_msg sch xs (msg sch m) = true -> (zlen (ser (message sch xs (msg sch m))) < 2^63)%Z ->
  nth_error (msg sch m) j = Some (Field n (FImplicit sc)) -> nth_error xs j = Some v ->
  exists R1 R2 ys, let b := ser (R1 ++ (if is_zero v then [] else [(n, pay sc v)]) ++ R2) in
    fst (Marshal D (ptr m xs) s1) = Returns (Some b, None) /\ Forall (fun r : record => fst r <> n) (R1 ++ R2) /\
    fst (Unmarshal D b (ptr m (zeros (msg sch m))) s2) = Returns (ptr m ys, None) /\ nth_error ys j = Some v.
Proof. exact implicit_proof. Qed.
Print Assumptions zero_suppression.
(** Negative zero is written (the sign bit), and so is a NaN with a payload. *)
Example zero_suppression_ex : is_zero (VF64 9223372036854775808) = false /\
  fst (Marshal sampleD (ptr 1 [VU64 0; VBool false; VF64 9223372036854775808; VOpt false (VI32 0)]) g_empty) = Returns (Some [25; 0; 0; 0; 0; 0; 0; 0; 128], None) /\
  fst (Unmarshal sampleD [25; 1; 0; 0; 0; 0; 0; 240; 127] (ptr 1 (zeros (msg sample 1))) g_empty) =
    Returns (ptr 1 [VU64 0; VBool false; VF64 9218868437227405313; VOpt false (VI32 0)], None).
Proof. vm_compute. repeat split. Qed.

(** C10 *)
Theorem wire_format_partial : forall D sch, covers D sch = true -> forall s m xs, reachable D s ->
  wts D (VStruct xs) (SNamed m) = true -> encodable_msg sch xs (msg sch m) = true -> (zlen (ser (message sch xs (msg sch m))) < 2^63)%Z ->
  fst (Size D (ptr m xs) s) = Returns (zlen (ser (message sch xs (msg sch m)))) /\
  fst (Marshal D (ptr m xs) s) = Returns (Some (ser (message sch xs (msg sch m))), None).
Proof. exact marshal_spec. Qed.
Print Assumptions wire_format_partial.
Example wire_format_ex : message sample person (msg sample 0) =
  [(1, PVar 150); (2, PLen [65; 110; 110]); (3, PLen []); (4, PLen [8; 255; 255; 255; 255; 255; 255; 255; 255; 255; 1; 42; 5; 10; 1; 120; 18; 0]);
   (5, PLen [10; 1; 97; 18; 2; 98; 98]); (5, PLen [10; 0; 18; 1; 99]); (6, PVar 5); (7, PFix32 4294967295);
   (9, PVar 1); (9, PVar 0); (10, PLen [8; 172; 2; 16; 1; 25; 0; 0; 0; 0; 0; 0; 0; 128; 32; 0]); (16, PLen []); (16, PLen [122])].
Proof. vm_compute. reflexivity. Qed.
Theorem wire_format_refuted : (exists D xs, miswritten D emptymap xs) /\ (exists D xs, miswritten D boolmaps xs) /\
  (exists D xs, miswritten D sfixed xs) /\ (exists D xs, miswritten D repfixed xs) /\ (exists D xs, miswritten D ptrzero xs).
Proof. exact (conj emptymap_miswritten (conj boolmap_miswritten (conj sfixed_miswritten (conj repfixed_miswritten ptrzero_miswritten)))). Qed.
Print Assumptions wire_format_refuted.

(** The condition [encodable_msg] is exact: every other message is not written
    as its records. *)
Theorem wire_format_exact : forall D sch, covers D sch = true -> forall s m xs z, reachable D s ->
  wts D (VStruct xs) (SNamed m) = true -> (zlen (ser (message sch xs (msg sch m))) < 2^63)%Z ->
  fst (Size D (ptr m xs) s) = Returns z -> (z < 2^63)%Z ->
  (fst (Marshal D (ptr m xs) s) = Returns (Some (ser (message sch xs (msg sch m))), None) <-> encodable_msg sch xs (msg sch m) = true).
Proof. exact wire_exact. Qed.
Print Assumptions wire_format_exact.
(** A map from bool to string: strings of no byte are right, strings of one byte are wrong. *)
Example wire_format_exact_ex : let xs b := [VMap (Some [(VBool true, VStr b)])] in
  covers boolmapsD boolmaps = true /\ wts boolmapsD (VStruct (xs [65])) (SNamed 0) = true /\
  fst (Size boolmapsD (ptr 0 (xs [65])) g_empty) = Returns 7%Z /\
  encodable_msg boolmaps (xs []) (msg boolmaps 0) = true /\ encodable_msg boolmaps (xs [65]) (msg boolmaps 0) = false /\
  fst (Marshal boolmapsD (ptr 0 (xs [])) g_empty) = Returns (Some [10; 4; 8; 1; 18; 0], None) /\
  fst (Marshal boolmapsD (ptr 0 (xs [65])) g_empty) = Returns (Some [10; 4; 8; 1; 18; 1; 65], None).
Proof. vm_compute. repeat split. Qed.

(** C11. [fresh]: no messages between length and capacity of slices (refuted
    otherwise, C32); [plain]: no bool of more than one byte, no sint32 of 2^32
    or more. The input is otherwise arbitrary. *)
Theorem unmarshal_is_merge_partial : forall D sch, covers D sch = true -> forall s m xs zs b, reachable D s ->
  wts D (VStruct xs) (SNamed m) = true -> forallb fresh xs = true -> map norm xs = map norm zs ->
  bytes_okb b = true -> (zlen b < 2^63)%Z -> plain sch (S (length b)) (msg sch m) b = true ->
  match merge sch (S (length b)) (msg sch m) zs b with
  | MOk zs' => exists xs', fst (Unmarshal D b (ptr m xs) s) = Returns (ptr m xs', None) /\
      map norm xs' = map norm zs' /\ forallb fresh xs' = true /\ wts D (VStruct xs') (SNamed m) = true
  | MBad => exists x e, fst (Unmarshal D b (ptr m xs) s) = Returns (IPtr (SNamed m) (Some x), Some e)
  | MFuel => False
  end.
Proof. exact unmarshal_spec. Qed.
Print Assumptions unmarshal_is_merge_partial.
Example unmarshal_is_merge_ex :
  let b := [34; 2; 8; 7; 82; 2; 16; 1; 66; 1; 0; 82; 3; 8; 129; 0; 72; 3; 42; 7; 18; 1; 66; 10; 2; 120; 121] in
  plain sample (S (length b)) (msg sample 0) b = true /\
  match merge sample (S (length b)) (msg sample 0) kid b, fst (Unmarshal sampleD b (ptr 0 kid) g_empty) with
  | MOk zs, Returns (IPtr _ (Some (VStruct xs)), None) => map norm xs = map norm zs /\
    nth_error zs 9 = Some (VPtr (Some (VStruct [VU64 1; VBool true; VF64 0; VOpt false (VI32 0)]))) /\
    nth_error zs 4 = Some (VMap (Some [(VStr [120], VStr []); (VStr [120; 121], VStr [66])]))
  | _, _ => False
  end.
Proof. vm_compute. repeat split. Qed.
(** For every input: what Unmarshal does with it is [merge_lib] of SpecLib.v,
    which is [merge] on plain inputs. *)
Theorem unmarshal_reads : forall D sch, covers D sch = true -> forall s m xs zs b, reachable D s ->
  wts D (VStruct xs) (SNamed m) = true -> forallb fresh xs = true -> map norm xs = map norm zs ->
  bytes_okb b = true -> (zlen b < 2^63)%Z ->
  match merge_lib sch (S (length b)) (msg sch m) zs b with
  | MOk zs' => exists xs', fst (Unmarshal D b (ptr m xs) s) = Returns (ptr m xs', None) /\
      map norm xs' = map norm zs' /\ forallb fresh xs' = true /\ wts D (VStruct xs') (SNamed m) = true
  | MBad => exists x e, fst (Unmarshal D b (ptr m xs) s) = Returns (IPtr (SNamed m) (Some x), Some e)
  | MFuel => False
  end.
Proof. exact unmarshal_lib. Qed.
Print Assumptions unmarshal_reads.
Theorem reads_plain : forall sch m fs xs b, plain sch m fs b = true -> merge_lib sch m fs xs b = merge sch m fs xs b.
Proof. exact lib_plain. Qed.
Print Assumptions reads_plain.
(** Bools of two bytes: 128, 16, where 16 is taken as the tag of field 2, and
    128, 1, where 1 is no tag. The zigzag code 2^32 + 1 of -(2^31) - 1, of
    which 2^31 - 1 is kept. *)
Example unmarshal_reads_ex : let b := [8; 128; 16; 29; 8; 1] in let c := [8; 128; 1] in let d := [8; 129; 128; 128; 128; 16] in
  covers boolintD boolint = true /\ plain boolint (S (length b)) (msg boolint 0) b = false /\
  merge_lib boolint (S (length b)) (msg boolint 0) [VBool false; VI32 0] b = MOk [VBool true; VI32 29] /\
  fst (Unmarshal boolintD b (ptr 0 [VBool false; VI32 0]) g_empty) = Returns (ptr 0 [VBool true; VI32 29], None) /\
  merge_lib boolint (S (length c)) (msg boolint 0) [VBool false; VI32 0] c = MBad /\
  merge boolint (S (length c)) (msg boolint 0) [VBool false; VI32 0] c = MOk [VBool true; VI32 0] /\
  merge_lib sints (S (length d)) (msg sints 0) [VI32 0] d = MOk [VI32 2147483647] /\
  merge sints (S (length d)) (msg sints 0) [VI32 0] d = MOk [VI32 (-1)] /\
  fst (Unmarshal sintsD d (ptr 0 [VI32 0]) g_empty) = Returns (ptr 0 [VI32 2147483647], None).
Proof. vm_compute. repeat split. Qed.
Theorem unmarshal_is_merge_refuted : (exists D xs b, covers D bools = true /\ misread D bools xs b) /\
  (exists D xs b, covers D sints = true /\ misread D sints xs b) /\
  (exists D xs b, misread D sfixed xs b) /\ (exists D xs b, misread D repfixed xs b) /\ (exists D xs b, misread D zigmap xs b).
Proof. exact (conj bool_misread (conj sint_misread (conj sfixed_misread (conj repfixed_misread zigmap_misread)))). Qed.
Print Assumptions unmarshal_is_merge_refuted.

(** C13, for the output of Marshal: [boundary rs p], [p] is the encoding of the
    first few records of [rs]. *)
Theorem truncation_exact_partial : forall D sch, covers D sch = true -> forall s1 s2 m xs, reachable D s1 -> reachable D s2 ->
  wts D (VStruct xs) (SNamed m) = true -> encodable_msg sch xs (msg sch m) = true -> (zlen (ser (message sch xs (msg sch m))) < 2^63)%Z ->
  exists b, fst (Marshal D (ptr m xs) s1) = Returns (Some b, None) /\ forall p q, b = p ++ q ->
  (boundary (message sch xs (msg sch m)) p /\ exists ys, fst (Unmarshal D p (ptr m (zeros (msg sch m))) s2) = Returns (ptr m ys, None)) \/
  (~ boundary (message sch xs (msg sch m)) p /\
   exists x e, fst (Unmarshal D p (ptr m (zeros (msg sch m))) s2) = Returns (IPtr (SNamed m) (Some x), Some e) /\ err_cause e = ErrUnexpectedEOF).
Proof. exact truncation_exact_proof. Qed.
Print Assumptions truncation_exact_partial.
Example truncation_exact_ex :
  map (fun n => match fst (Unmarshal sampleD (firstn n [8; 172; 2; 16; 1; 32; 0]) (ptr 1 (zeros (msg sample 1))) g_empty) with Returns (_, e) => e | _ => Some ErrNotAPointer end)
    [0; 1; 2; 3; 4; 5; 6; 7]%nat =
  [None; Some (UnmarshalFieldError 1 0 ErrUnexpectedEOF); Some (UnmarshalFieldError 1 0 ErrUnexpectedEOF); None;
   Some (UnmarshalFieldError 2 0 ErrUnexpectedEOF); None; Some (UnmarshalFieldError 4 0 ErrUnexpectedEOF); None].
Proof. vm_compute. reflexivity. Qed.
Theorem truncation_exact_refuted : exists D sch xs p q x e, covers D sch = true /\ legal D sch xs /\
  fst (Marshal D (ptr 0 xs) g_empty) = Returns (Some (p ++ q), None) /\ q <> [] /\
  fst (Unmarshal D p (ptr 0 (zeros (msg sch 0))) g_empty) = Returns (x, Some e) /\ err_cause e <> ErrUnexpectedEOF.
Proof. exact cut_refuted_proof. Qed.
Print Assumptions truncation_exact_refuted.

(** C17 and the second half of C31. The input splits into [b1], fully merged,
    and [b2]: empty, or starting with the record at fault. A field not among
    the numbers [mentioned] by the records is bit for bit what it was; after an
    error a field differs from the result of [b1] alone only if the record at
    fault is for it, and then not in the elements of a slice. *)
Theorem error_keeps_prefix : forall D sch, covers D sch = true -> forall s m ys b, reachable D s ->
  wts D (VStruct ys) (SNamed m) = true -> forallb fresh ys = true ->
  bytes_okb b = true -> (zlen b < 2^63)%Z -> plain sch (S (length b)) (msg sch m) b = true ->
  exists b1 b2 ys1, b = b1 ++ b2 /\ (forall s1, reachable D s1 -> fst (Unmarshal D b1 (ptr m ys) s1) = Returns (ptr m ys1, None)) /\
    (forall j, unmentioned (msg sch m) (mentioned (S (length b)) b) j -> nth_error ys1 j = nth_error ys j) /\
    ((b2 = [] /\ fst (Unmarshal D b (ptr m ys) s) = Returns (ptr m ys1, None)) \/
     (b2 <> [] /\ exists ys' e, fst (Unmarshal D b (ptr m ys) s) = Returns (ptr m ys', Some e) /\
        (forall j, unmentioned (msg sch m) (mentioned (S (length b)) b) j -> nth_error ys' j = nth_error ys j) /\
        (forall j, nth_error ys' j = nth_error ys1 j \/
          exists tag kk r n f y y', read_varint b2 = VOk tag kk r /\ nth_error (msg sch m) j = Some (Field n f) /\ n = tag / 8 /\
            nth_error ys1 j = Some y /\ nth_error ys' j = Some y' /\ keeps_slice y y'))).
Proof. exact run_api. Qed.
Print Assumptions error_keeps_prefix.
Example error_keeps_prefix_ex : let b := [72; 5; 8; 9; 72; 6; 34; 2; 8; 128; 8; 3] in
  plain sample (S (length b)) (msg sample 0) b = true /\ mentioned (S (length b)) b = [9; 1; 9; 4; 1] /\
  match fst (Unmarshal sampleD b (ptr 0 person) g_empty) with
  | Returns (IPtr _ (Some x), Some e) => e = UnmarshalFieldError 4 2 (UnmarshalFieldError 1 0 ErrUnexpectedEOF) /\
      get_field x 0 = Some (VI32 9) /\ get_field x 9 = Some (VPtr (Some account)) /\
      match get_field x 8, get_field x 3 with
      | Some (VSlice _ items _), Some (VSlice _ friends _) => items = [VI32 1; VI32 0; VI32 5; VI32 6] /\ length friends = 1%nat
      | _, _ => False end
  | _ => False
  end.
Proof. vm_compute. repeat split. Qed.

(** C17, for every input: a field changes only if a record as the library
    takes it names it. On plain inputs these are the records of the input; with
    a bool of two bytes there can be others. *)
Theorem records_change_fields : forall D sch, covers D sch = true -> forall s m b ys x' e, reachable D s ->
  wts D (VStruct ys) (SNamed m) = true -> bytes_okb b = true -> (zlen b < 2^63)%Z ->
  fst (Unmarshal D b (ptr m ys) s) = Returns (IPtr (SNamed m) (Some x'), e) ->
  forall j, unmentioned (msg sch m) (mentioned_lib (S (length b)) (msg sch m) b) j -> get_field x' j = nth_error ys j.
Proof. exact untouched_lib. Qed.
Print Assumptions records_change_fields.
Theorem records_as_written : forall sch m fs b, plain sch m fs b = true -> incl (mentioned_lib m fs b) (mentioned m b).
Proof. exact mentioned_plain. Qed.
Print Assumptions records_as_written.
Example records_change_fields_ex : let b := [8; 129; 16; 29; 8; 1; 8; 1] in
  mentioned (S (length b)) b = [1; 3] /\ mentioned_lib (S (length b)) (msg boolint 0) b = [1; 2; 1; 1] /\
  mentioned_lib 20 (msg sample 0) [72; 5; 8; 9; 72; 6; 34; 2; 8; 128; 8; 3] = [9; 1; 9; 4; 1].
Proof. vm_compute. repeat split. Qed.
Theorem untouched_fields_refuted : exists D sch xs b zs ys, covers D sch = true /\ legal D sch xs /\
  merge sch (S (length b)) (msg sch 0) xs b = MOk zs /\ nth_error (msg sch 0) 1 = Some (Field 2 (FImplicit Y_int32)) /\
  ~ In 2 (mentioned (S (length b)) b) /\
  fst (Unmarshal D b (ptr 0 xs) g_empty) = Returns (ptr 0 ys, None) /\ nth_error ys 1 <> nth_error xs 1.
Proof. exact bool_touches_proof. Qed.
Print Assumptions untouched_fields_refuted.

(** C20 *)
Theorem map_roundtrip_partial : forall D sch, covers D sch = true -> forall s1 s2 m xs j n k e l, reachable D s1 -> reachable D s2 ->
  wts D (VStruct xs) (SNamed m) = true -> encodable_msg sch xs (msg sch m) = true -> (zlen (ser (message sch xs (msg sch m))) < 2^63)%Z ->
  nth_error (msg sch m) j = Some (Field n (FMap k e)) -> nth_error xs j = Some (VMap (Some l)) ->
  exists R1 R2 ys l', let b := ser (R1 ++ map (fun kv => (n, PLen (ser ((1, pay k (fst kv)) :: records sch (snd kv) 2 e)))) l ++ R2) in
    fst (Marshal D (ptr m xs) s1) = Returns (Some b, None) /\ Forall (fun r : record => fst r <> n) (R1 ++ R2) /\
    fst (Unmarshal D b (ptr m (zeros (msg sch m))) s2) = Returns (ptr m ys, None) /\ nth_error ys j = Some (VMap (Some l')) /\
    map (fun kv => (fst kv, norm (snd kv))) l' = map (fun kv => (fst kv, norm (kept sch (snd kv) e))) l.
Proof. exact map_proof. Qed.
Print Assumptions map_roundtrip_partial.
Example map_roundtrip_ex : nth_error (msg sample 0) 4 = Some (Field 5 (FMap Y_string (FAlways Y_string))) /\
  match fst (Unmarshal sampleD (ser (message sample person (msg sample 0))) (ptr 0 (zeros (msg sample 0))) g_empty) with
  | Returns (IPtr _ (Some x), None) => get_field x 4 = Some (VMap (Some [(VStr [97], VStr [98; 98]); (VStr [], VStr [99])]))
  | _ => False end.
Proof. vm_compute. repeat split. Qed.
Theorem map_roundtrip_refuted : (exists D xs, unreadable D boolmaps xs) /\ (exists D xs, altered D emptymap xs) /\ (exists D xs, altered D zigmap xs).
Proof. exact (conj boolmap_unreadable (conj emptymap_altered zigmap_altered)). Qed.
Print Assumptions map_roundtrip_refuted.

(** C27 *)
Theorem remarshal_partial : forall D sch, covers D sch = true -> forall s1 s2 s3 m xs, reachable D s1 -> reachable D s2 -> reachable D s3 ->
  wts D (VStruct xs) (SNamed m) = true -> encodable_msg sch xs (msg sch m) = true -> (zlen (ser (message sch xs (msg sch m))) < 2^63)%Z ->
  exists b ys, fst (Marshal D (ptr m xs) s1) = Returns (Some b, None) /\
    fst (Unmarshal D b (ptr m (zeros (msg sch m))) s2) = Returns (ptr m ys, None) /\
    fst (Marshal D (ptr m ys) s3) = Returns (Some b, None).
Proof. exact remarshal_proof. Qed.
Print Assumptions remarshal_partial.
Example remarshal_ex : match fst (Marshal sampleD (ptr 0 person) g_empty) with
  | Returns (Some b, None) => match fst (Unmarshal sampleD b (ptr 0 (zeros (msg sample 0))) g_empty) with
    | Returns (v, None) => v <> ptr 0 person /\ fst (Marshal sampleD v g_empty) = Returns (Some b, None)
    | _ => False end
  | _ => False end.
Proof. vm_compute. split; [discriminate|reflexivity]. Qed.
Theorem remarshal_refuted : exists D sch xs b x b', covers D sch = true /\ legal D sch xs /\
  fst (Marshal D (ptr 0 xs) g_empty) = Returns (Some b, None) /\
  fst (Unmarshal D b (ptr 0 (zeros (msg sch 0))) g_empty) = Returns (x, None) /\
  fst (Marshal D x g_empty) = Returns (Some b', None) /\ b <> b'.
Proof. exact unstable_proof. Qed.
Print Assumptions remarshal_refuted.

(** C28. Holds when the number takes one byte; see int_value. *)
Theorem bool_varint_partial : forall D sch, covers D sch = true -> forall s m ys j n b k r u, reachable D s ->
  wts D (VStruct ys) (SNamed m) = true -> forallb fresh ys = true -> bytes_okb b = true -> (zlen b < 2^63)%Z ->
  nth_error (msg sch m) j = Some (Field n (FImplicit Y_bool)) -> read_varint b = VOk (8 * n) k r -> read_varint r = VOk u 1%nat [] ->
  exists ys' v, fst (Unmarshal D b (ptr m ys) s) = Returns (ptr m ys', None) /\ nth_error ys' j = Some v /\ int_value Y_bool u v.
Proof. exact bool_proof. Qed.
Print Assumptions bool_varint_partial.
Theorem bool_varint_refuted : (exists D xs b, covers D bools = true /\ misread D bools xs b) /\
  exists D xs b ys, covers D bools = true /\ legal D bools xs /\ merge bools (S (length b)) (msg bools 0) xs b = MBad /\
    fst (Unmarshal D b (ptr 0 xs) g_empty) = Returns (ptr 0 ys, None).
Proof. exact (conj bool_misread bool_desync_proof). Qed.
Print Assumptions bool_varint_refuted.

(** C29. A field of integer or bool type, as written ([pay]) and as read: any
    number [u] below 2^64, in any encoding of tag and number. *)
Theorem integer_written : forall D s v, match s with Y_int32 | Y_int64 | Y_uint32 | Y_uint64 | Y_bool => True | _ => False end ->
  wt D v (TScalar (go_kind s)) = true -> exists u, pay s v = PVar u /\ u < 2^64 /\ int_value s u v.
Proof. exact int_pay_proof. Qed.
Print Assumptions integer_written.
Theorem negative_int32 : forall z, (-2^31 <= z < 0)%Z ->
  pay Y_int32 (VI32 z) = PVar (Z.to_N (2^64 + z)) /\ length (ser_payload (pay Y_int32 (VI32 z))) = 10%nat.
Proof. exact negative_proof. Qed.
Print Assumptions negative_int32.
Theorem integer_read : forall D sch, covers D sch = true -> forall s m ys j n sc b k r u k', reachable D s ->
  wts D (VStruct ys) (SNamed m) = true -> forallb fresh ys = true -> bytes_okb b = true -> (zlen b < 2^63)%Z ->
  nth_error (msg sch m) j = Some (Field n (FImplicit sc)) -> read_varint b = VOk (8 * n) k r -> read_varint r = VOk u k' [] ->
  match sc with Y_int32 | Y_int64 | Y_uint32 | Y_uint64 => True | Y_bool => k' = 1%nat | _ => False end ->
  exists ys' v, fst (Unmarshal D b (ptr m ys) s) = Returns (ptr m ys', None) /\ nth_error ys' j = Some v /\ int_value sc u v.
Proof. exact int_proof. Qed.
Print Assumptions integer_read.
(** What one field writes, another field with the same number reads. *)
Theorem integer_compatible_partial : forall D sch, covers D sch = true -> forall s m ys j n sc u, reachable D s ->
  wts D (VStruct ys) (SNamed m) = true -> forallb fresh ys = true ->
  nth_error (msg sch m) j = Some (Field n (FImplicit sc)) -> u < 2^64 ->
  match sc with Y_int32 | Y_int64 | Y_uint32 | Y_uint64 => True | Y_bool => u < 128 | _ => False end ->
  exists ys' v, fst (Unmarshal D (ser [(n, PVar u)]) (ptr m ys) s) = Returns (ptr m ys', None) /\ nth_error ys' j = Some v /\ int_value sc u v.
Proof. exact int_wire_proof. Qed.
Print Assumptions integer_compatible_partial.
Example integer_read_ex : read_varint [136; 0; 254; 255; 255; 255; 159; 128; 0] = VOk 8 2 [254; 255; 255; 255; 159; 128; 0] /\
  read_varint [254; 255; 255; 255; 159; 128; 0] = VOk 8589934590 7 [] /\
  fst (Unmarshal sampleD [136; 0; 254; 255; 255; 255; 159; 128; 0] (ptr 0 kid) g_empty) = Returns (ptr 0 (VI32 (-2) :: tl kid), None).
Proof. vm_compute. repeat split. Qed.
(** An int32 read by a bool field: 128 is rejected. *)
Theorem integer_compatible_refuted : exists D xs b x e, covers D bools = true /\ legal D bools xs /\ b = ser [(1, pay Y_int32 (VI32 128))] /\
  fst (Unmarshal D b (ptr 0 xs) g_empty) = Returns (x, Some e).
Proof. exact bool_of_int_proof. Qed.
Print Assumptions integer_compatible_refuted.

(** C31, first half; the other half is error_keeps_prefix. *)
Theorem repeated_append_partial : forall D sch, covers D sch = true -> forall s m ys j n e nn items spare news, reachable D s ->
  wts D (VStruct ys) (SNamed m) = true -> forallb fresh ys = true ->
  nth_error (msg sch m) j = Some (Field n (FRepeated e)) -> nth_error ys j = Some (VSlice nn items spare) ->
  forallb (fun x => wt D x (go_type e)) news = true -> forallb (fun x => encodable sch x e) news = true ->
  (zlen (ser (flat_map (fun x => records sch x n e) news)) < 2^63)%Z ->
  exists ys' nn' more spare', fst (Unmarshal D (ser (flat_map (fun x => records sch x n e) news)) (ptr m ys) s) = Returns (ptr m ys', None) /\
    nth_error ys' j = Some (VSlice nn' (items ++ more) spare') /\
    map norm more = map norm (flat_map (fun x => if is_nil x then [] else [kept sch x e]) news) /\
    (forall i, i <> j -> nth_error ys' i = nth_error ys i).
Proof. exact append_proof. Qed.
Print Assumptions repeated_append_partial.
Example repeated_append_ex : ser (flat_map (fun x => records sample x 9 (FAlways Y_int32)) [VI32 5; VI32 0; VI32 7]) = [72; 5; 72; 0; 72; 7] /\
  match fst (Unmarshal sampleD [72; 5; 72; 0; 72; 7] (ptr 0 person) g_empty) with
  | Returns (IPtr _ (Some x), None) => get_field x 8 = Some (VSlice true [VI32 1; VI32 0; VI32 5; VI32 0; VI32 7] [VI32 0])
  | _ => False end.
Proof. vm_compute. repeat split. Qed.
Theorem repeated_append_refuted : exists D xs b, misread D repfixed xs b.
Proof. exact repfixed_misread. Qed.
Print Assumptions repeated_append_refuted.
(** Packed encoding, which the protobuf specification requires parsers to
    accept for repeated scalars, is rejected. *)
Theorem packed_refuted : exists D xs, covers D packed = true /\ legal D packed xs /\
  fst (Unmarshal D [10; 2; 1; 2] (ptr 0 xs) g_empty) = Returns (ptr 0 xs, Some (UnmarshalFieldError 1 2 (ErrExpectedWireType 0))).
Proof. exact packed_proof. Qed.
Print Assumptions packed_refuted.

(** C32 *)
Theorem capacity_invisible_partial : forall D sch, covers D sch = true -> forall s1 s2 m ys zs b, reachable D s1 -> reachable D s2 ->
  wts D (VStruct ys) (SNamed m) = true -> wts D (VStruct zs) (SNamed m) = true -> forallb fresh ys = true -> forallb fresh zs = true ->
  map norm ys = map norm zs -> bytes_okb b = true -> (zlen b < 2^63)%Z ->
  (exists ys' zs', fst (Unmarshal D b (ptr m ys) s1) = Returns (ptr m ys', None) /\
                   fst (Unmarshal D b (ptr m zs) s2) = Returns (ptr m zs', None) /\ map norm ys' = map norm zs') \/
  (exists x z e1 e2, fst (Unmarshal D b (ptr m ys) s1) = Returns (IPtr (SNamed m) (Some x), Some e1) /\
                     fst (Unmarshal D b (ptr m zs) s2) = Returns (IPtr (SNamed m) (Some z), Some e2)).
Proof. exact capacity_proof. Qed.
Print Assumptions capacity_invisible_partial.
Example capacity_invisible_ex : let ys := replace person 8 (VSlice true [VI32 1; VI32 0] []) in
  ys <> person /\ map norm ys = map norm person /\ forallb fresh person = true.
Proof. split; [discriminate|]. vm_compute. repeat split. Qed.
Theorem capacity_invisible_refuted : (exists D sch xs1 xs2 b ys1 ys2, covers D sch = true /\ legal D sch xs1 /\ legal D sch xs2 /\
    map norm xs1 = map norm xs2 /\
    fst (Unmarshal D b (ptr 0 xs1) g_empty) = Returns (ptr 0 ys1, None) /\
    fst (Unmarshal D b (ptr 0 xs2) g_empty) = Returns (ptr 0 ys2, None) /\ map norm ys1 <> map norm ys2) /\
  (exists D sch xs1 e ys, covers D sch = true /\
    fst (Unmarshal D [10; 3; 8; 7; 128] (ptr 0 (zeros (msg sch 0))) g_empty) = Returns (ptr 0 xs1, Some e) /\
    map norm xs1 = map norm (zeros (msg sch 0)) /\
    fst (Unmarshal D [10; 0] (ptr 0 xs1) g_empty) = Returns (ptr 0 ys, None) /\
    map norm ys = [VSlice true [VPtr (Some (VStruct [VI32 7]))] []]).
Proof. exact (conj spare_proof stale_proof). Qed.
Print Assumptions capacity_invisible_refuted.

(** C36 *)
Theorem encoding_injective_partial : forall D sch, covers D sch = true -> forall s1 s2 m xs ys b, reachable D s1 -> reachable D s2 ->
  wts D (VStruct xs) (SNamed m) = true -> wts D (VStruct ys) (SNamed m) = true ->
  encodable_msg sch xs (msg sch m) = true -> encodable_msg sch ys (msg sch m) = true ->
  fst (Marshal D (ptr m xs) s1) = Returns (Some b, None) -> fst (Marshal D (ptr m ys) s2) = Returns (Some b, None) ->
  (zlen (ser (message sch xs (msg sch m))) < 2^63)%Z -> (zlen (ser (message sch ys (msg sch m))) < 2^63)%Z ->
  map norm (kept_msg sch xs (msg sch m)) = map norm (kept_msg sch ys (msg sch m)).
Proof. exact injective_proof. Qed.
Print Assumptions encoding_injective_partial.
Theorem encoding_injective_refuted : exists D sch xs ys b, covers D sch = true /\ legal D sch xs /\ legal D sch ys /\
  fst (Marshal D (ptr 0 xs) g_empty) = Returns (Some b, None) /\ fst (Marshal D (ptr 0 ys) g_empty) = Returns (Some b, None) /\
  map norm (kept_msg sch xs (msg sch 0)) <> map norm (kept_msg sch ys (msg sch 0)).
Proof. exact collide_proof. Qed.
Print Assumptions encoding_injective_refuted.
Example encoding_injective_ex : let ys := replace person 8 (VSlice true [VI32 1; VI32 0] []) in
  ys <> person /\ fst (Marshal sampleD (ptr 0 ys) g_empty) = fst (Marshal sampleD (ptr 0 person) g_empty).
Proof. split; [discriminate|vm_compute; reflexivity]. Qed.

(** C37. [encodable_msg] requires the value not to be zero. *)
Theorem pointer_presence_partial : forall D sch, covers D sch = true -> forall s1 s2 m xs j n sc o, reachable D s1 -> reachable D s2 ->
  wts D (VStruct xs) (SNamed m) = true -> encodable_msg sch xs (msg sch m) = true -> (zlen (ser (message sch xs (msg sch m))) < 2^63)%Z ->
  nth_error (msg sch m) j = Some (Field n (FPointer sc)) -> nth_error xs j = Some (VPtr o) ->
  exists R1 R2 ys, let b := ser (R1 ++ match o with Some v => [(n, pay sc v)] | None => [] end ++ R2) in
    fst (Marshal D (ptr m xs) s1) = Returns (Some b, None) /\ Forall (fun r : record => fst r <> n) (R1 ++ R2) /\
    fst (Unmarshal D b (ptr m (zeros (msg sch m))) s2) = Returns (ptr m ys, None) /\ nth_error ys j = Some (VPtr o).
Proof. exact pointer_proof. Qed.
Print Assumptions pointer_presence_partial.
Example pointer_presence_ex : covers ptrzeroD ptrzero = true /\ encodable_msg ptrzero [VPtr (Some (VI32 7))] (msg ptrzero 0) = true /\
  fst (Marshal ptrzeroD (ptr 0 [VPtr (Some (VI32 7))]) g_empty) = Returns (Some [8; 7], None) /\
  fst (Unmarshal ptrzeroD [8; 7] (ptr 0 [VPtr None]) g_empty) = Returns (ptr 0 [VPtr (Some (VI32 7))], None).
Proof. vm_compute. repeat split. Qed.
Theorem pointer_presence_refuted : exists D xs, altered D ptrzero xs.
Proof. exact ptrzero_altered. Qed.
Print Assumptions pointer_presence_refuted.
