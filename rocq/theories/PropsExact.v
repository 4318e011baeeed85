(** What comes back is equal in the sense of reflect.DeepEqual, bit for bit
    ([shown] drops only the spare capacity of slices). *)
From Verif Require Import Base Wire GoType Leaf Codec Tag Walker Api Typing WalkInv WalkSeq SpecWire SpecTag SpecMsg SpecLib SpecExact Sample RepoTests TidyFacts ExactThms FuzzFacts MsgApi.
Local Open Scope N_scope.

(** C51 *)
Theorem unmarshal_tidy : forall D, supported D = true -> forall s k b x x', reachable D s -> user_key D k = true -> wts D x k = true ->
  bytes_okb b = true -> (zlen b < 2^63)%Z -> tidy x = true ->
  fst (Unmarshal D b (IPtr k (Some x)) s) = Returns (IPtr k (Some x'), None) -> tidy x' = true.
Proof. exact unmarshal_tidy_proof. Qed.
Print Assumptions unmarshal_tidy.
Example unmarshal_tidy_ex : supported sampleD = true /\ tidy (VStruct (zeros (msg sample 0))) = true /\ tidy (VStruct kid) = true /\
  tidy (VOpt false (VI32 7)) = false /\ tidy (VSlice true [] []) = false /\ tidy (VMap (Some [])) = false /\
  match fst (Unmarshal sampleD [34; 2; 8; 7; 18; 0] (ptr 0 kid) g_empty) with
  | Returns (IPtr _ (Some x), None) => tidy x = true
  | _ => False
  end.
Proof. vm_compute. repeat split. Qed.
Theorem unmarshal_exact_partial : forall D sch, covers D sch = true -> forall s m xs zs b, reachable D s ->
  wts D (VStruct xs) (SNamed m) = true -> forallb fresh xs = true -> forallb tidy xs = true -> map norm xs = map norm zs ->
  bytes_okb b = true -> (zlen b < 2^63)%Z -> plain sch (S (length b)) (msg sch m) b = true ->
  match merge sch (S (length b)) (msg sch m) zs b with
  | MOk zs' => exists xs', fst (Unmarshal D b (ptr m xs) s) = Returns (ptr m xs', None) /\
      map shown xs' = map norm zs' /\ forallb tidy xs' = true /\ forallb fresh xs' = true /\ wts D (VStruct xs') (SNamed m) = true
  | MBad => exists x e, fst (Unmarshal D b (ptr m xs) s) = Returns (IPtr (SNamed m) (Some x), Some e)
  | MFuel => False
  end.
Proof. exact unmarshal_exact_proof. Qed.
Print Assumptions unmarshal_exact_partial.
Example unmarshal_exact_ex :
  let b := [72; 5; 72; 3; 42; 4; 10; 0; 18; 0] in
  match merge sample (S (length b)) (msg sample 0) (zeros (msg sample 0)) b, fst (Unmarshal sampleD b (ptr 0 (zeros (msg sample 0))) g_empty) with
  | MOk zs, Returns (IPtr _ (Some (VStruct xs)), None) => map shown xs = map norm zs /\
    nth_error (map shown xs) 8 = Some (VSlice true [VI32 5; VI32 3] []) /\ nth_error xs 3 = Some (VSlice false [] []) /\
    nth_error xs 1 = Some (VOpt false (VStr [])) /\ nth_error xs 4 = Some (VMap (Some [(VStr [], VStr [])]))
  | _, _ => False
  end.
Proof. vm_compute. repeat split. Qed.
(** The same for every input, as the library takes it (SpecLib.v). *)
Theorem unmarshal_exact_reads : forall D sch, covers D sch = true -> forall s m xs zs b, reachable D s ->
  wts D (VStruct xs) (SNamed m) = true -> forallb fresh xs = true -> forallb tidy xs = true -> map norm xs = map norm zs ->
  bytes_okb b = true -> (zlen b < 2^63)%Z ->
  match merge_lib sch (S (length b)) (msg sch m) zs b with
  | MOk zs' => exists xs', fst (Unmarshal D b (ptr m xs) s) = Returns (ptr m xs', None) /\
      map shown xs' = map norm zs' /\ forallb tidy xs' = true /\ forallb fresh xs' = true /\ wts D (VStruct xs') (SNamed m) = true
  | MBad => exists x e, fst (Unmarshal D b (ptr m xs) s) = Returns (IPtr (SNamed m) (Some x), Some e)
  | MFuel => False
  end.
Proof. exact unmarshal_exact_lib. Qed.
Print Assumptions unmarshal_exact_reads.
Theorem roundtrip_exact_partial : forall D sch, covers D sch = true -> forall s1 s2 m xs, reachable D s1 -> reachable D s2 ->
  wts D (VStruct xs) (SNamed m) = true -> encodable_msg sch xs (msg sch m) = true -> (zlen (ser (message sch xs (msg sch m))) < 2^63)%Z ->
  exists b ys, fst (Marshal D (ptr m xs) s1) = Returns (Some b, None) /\
    fst (Unmarshal D b (ptr m (zeros (msg sch m))) s2) = Returns (ptr m ys, None) /\
    map shown ys = map norm (kept_msg sch xs (msg sch m)) /\ wts D (VStruct ys) (SNamed m) = true.
Proof. exact roundtrip_exact_proof. Qed.
Print Assumptions roundtrip_exact_partial.
Theorem roundtrip_equal_partial : forall D sch, covers D sch = true -> forall s1 s2 m xs, reachable D s1 -> reachable D s2 ->
  wts D (VStruct xs) (SNamed m) = true -> encodable_msg sch xs (msg sch m) = true -> (zlen (ser (message sch xs (msg sch m))) < 2^63)%Z ->
  forallb tidy xs = true -> intact_msg sch xs (msg sch m) ->
  exists b ys, fst (Marshal D (ptr m xs) s1) = Returns (Some b, None) /\
    fst (Unmarshal D b (ptr m (zeros (msg sch m))) s2) = Returns (ptr m ys, None) /\ map shown ys = map shown xs.
Proof. exact roundtrip_equal_proof. Qed.
Print Assumptions roundtrip_equal_partial.
Example roundtrip_exact_ex : let xs := [VI32 150; VOpt true (VStr []); VBytes (Some []); VSlice true [VPtr (Some (VStruct kid))] [VPtr None];
     VMap (Some [(VStr [97], VStr [98; 98])]); VI64 (-3); VOther 0; VU32 0; VSlice true [VI32 0] [VI32 9]; VPtr (Some account); VSlice false [] []] in
  wts sampleD (VStruct xs) (SNamed 0) = true /\ encodable_msg sample xs (msg sample 0) = true /\ forallb tidy xs = true /\ intact_msg sample xs (msg sample 0) /\
  match Marshal sampleD (ptr 0 xs) g_empty with
  | (Returns (Some b, None), s) =>
    match fst (Unmarshal sampleD b (ptr 0 (zeros (msg sample 0))) s) with
    | Returns (IPtr _ (Some (VStruct ys)), None) => map shown ys = map shown xs
    | _ => False
    end
  | _ => False
  end.
Proof. vm_compute. repeat split. Qed.
Theorem roundtrip_equal_refuted : exists D sch xs ys, covers D sch = true /\ wts D (VStruct xs) (SNamed 0) = true /\
  encodable_msg sch xs (msg sch 0) = true /\ intact_msg sch xs (msg sch 0) /\
  fst (Marshal D (ptr 0 xs) g_empty) = Returns (Some [], None) /\
  fst (Unmarshal D [] (ptr 0 (zeros (msg sch 0))) g_empty) = Returns (ptr 0 ys, None) /\ map shown ys <> map shown xs.
Proof. exact empty_slice_lost. Qed.
Print Assumptions roundtrip_equal_refuted.

(** C52 *)
Theorem roundtrip_singular : forall D sch, covers D sch = true -> all_singular sch = true -> forall s1 s2 m xs, reachable D s1 -> reachable D s2 ->
  wts D (VStruct xs) (SNamed m) = true -> forallb tidy xs = true -> (zlen (ser (message sch xs (msg sch m))) < 2^63)%Z ->
  exists b, fst (Marshal D (ptr m xs) s1) = Returns (Some b, None) /\
    fst (Unmarshal D b (ptr m (zeros (msg sch m))) s2) = Returns (ptr m xs, None).
Proof. exact roundtrip_singular_proof. Qed.
Print Assumptions roundtrip_singular.
Example roundtrip_singular_ex : covers proto2D proto2 = true /\ all_singular proto2 = true /\ all_singular sample = false /\
  forallb (fun t => wts proto2D (snd t) (SNamed 0) && tidy (snd t)) values2 = true.
Proof. vm_compute. repeat split. Qed.
Theorem fuzz_marshal1 : forall s1 s2 i j s, reachable proto2D s1 -> reachable proto2D s2 ->
  (-2^31 <= i < 2^31)%Z -> (-2^63 <= j < 2^63)%Z -> bytes_okb s = true -> (zlen s < 2^62)%Z ->
  exists b, fst (Marshal proto2D (ptr 0 (fuzz1_input i j s)) s1) = Returns (Some b, None) /\
    fst (Unmarshal proto2D b (ptr 0 (zeros (msg proto2 0))) s2) = Returns (ptr 0 (fuzz1_input i j s), None).
Proof. exact fuzz1_proof. Qed.
Print Assumptions fuzz_marshal1.
Example fuzz_marshal1_ex : fst (Marshal proto2D (ptr 0 (fuzz1_input (-1) 300 [104; 105])) g_empty) =
  Returns (Some [114; 18; 8; 255; 255; 255; 255; 255; 255; 255; 255; 255; 1; 16; 172; 2; 26; 2; 104; 105], None) /\
  nth_error (fuzz1_input 5 6 [7]) 13 = Some (VPtr (Some (VStruct [VOpt true (VI32 5); VOpt true (VI64 6); VOpt true (VStr [7])]))).
Proof. split; vm_compute; reflexivity. Qed.
Theorem fuzz_marshal_nested : forall g1 g2 s s1 s2 s3 s4, reachable nestedD g1 -> reachable nestedD g2 ->
  forallb bytes_okb [s; s1; s2; s3; s4] = true -> (zlen s + zlen s1 + zlen s2 + zlen s3 + zlen s4 < 2^61)%Z ->
  exists b, fst (Marshal nestedD (ptr 0 (nested_input s s1 s2 s3 s4)) g1) = Returns (Some b, None) /\
    fst (Unmarshal nestedD b (ptr 0 (zeros (msg nested 0))) g2) = Returns (ptr 0 (nested_input s s1 s2 s3 s4), None).
Proof. exact fuzz_nested_proof. Qed.
Print Assumptions fuzz_marshal_nested.
Example fuzz_marshal_nested_ex : fst (Marshal nestedD (ptr 0 (nested_input [97] [] [98; 99] [] [])) g_empty) =
  Returns (Some [10; 1; 97; 18; 10; 18; 8; 10; 2; 98; 99; 18; 2; 18; 0], None).
Proof. vm_compute. reflexivity. Qed.
