(** Property theorems about Size, Marshal and Unmarshal that hold for all
    supported declarations, in every reachable state of the caches.
    [reachable D s]: [s] is the state of the caches after some sequence of calls.
    [user_key D k]: [k] is a struct type a program can name.
    [wts D x k]: [x] is a value of the struct type [k]. *)
From Coq Require Import String.
From Verif Require Import Base Wire GoType Leaf Codec Tag Walker Api Resolve Typing SpecWire SpecMsg
  GenFacts WalkSeq EncFacts WalkFuel ApiFacts ApiTags Sample RefuteApi.
Local Open Scope N_scope.

(** C06. [homogeneous D]: key and value of every map have the same codec. *)
Theorem size_exact_partial : forall D, supported D = true -> forall s1 s2 k x,
  reachable D s1 -> reachable D s2 -> user_key D k = true -> wts D x k = true -> homogeneous D = true ->
  exists b, fst (Marshal D (IPtr k (Some x)) s1) = Returns (Some b, None) /\ fst (Size D (IPtr k (Some x)) s2) = Returns (zlen b).
Proof. exact size_exact_proof. Qed.
Print Assumptions size_exact_partial.
Example size_exact_ex : supported sampleD = true /\ homogeneous sampleD = true /\ wts sampleD (VStruct person) (SNamed 0) = true /\
  fst (Size sampleD (IPtr (SNamed 0) (Some (VStruct person))) g_empty) = Returns 82%Z.
Proof. vm_compute. repeat split. Qed.
Theorem size_exact_refuted : exists D x b n, supported D = true /\ wts D x (SNamed 0) = true /\
  fst (Marshal D (IPtr (SNamed 0) (Some x)) g_empty) = Returns (Some b, None) /\
  fst (Size D (IPtr (SNamed 0) (Some x)) g_empty) = Returns n /\ n <> zlen b.
Proof. exact size_refuted_proof. Qed.
Print Assumptions size_exact_refuted.

(** C12. Any input below 2^63 bytes, any target. *)
Theorem unmarshal_total_partial : forall D, supported D = true -> forall s k b x,
  reachable D s -> user_key D k = true -> wts D x k = true -> bytes_okb b = true -> (zlen b < 2^63)%Z ->
  exists x' e, fst (Unmarshal D b (IPtr k (Some x)) s) = Returns (IPtr k (Some x'), e) /\ wts D x' k = true.
Proof. exact unmarshal_total_proof. Qed.
Print Assumptions unmarshal_total_partial.
Example unmarshal_total_ex :
  (exists x', fst (Unmarshal sampleD [34; 2; 8; 255; 8; 3] (IPtr (SNamed 0) (Some (VStruct person))) g_empty) =
    Returns (IPtr (SNamed 0) (Some x'), Some (UnmarshalFieldError 4 2 (UnmarshalFieldError 1 0 ErrUnexpectedEOF)))) /\
  (exists x', fst (Unmarshal sampleD [34; 3; 8; 255; 1; 8; 3] (IPtr (SNamed 0) (Some (VStruct person))) g_empty) =
    Returns (IPtr (SNamed 0) (Some x'), None)).
Proof. split; eexists; vm_compute; reflexivity. Qed.
(** The type is accepted (Size returns), and yet reading it mixes up memory. *)
Theorem unmarshal_total_refuted : exists D x b, wts D x (SNamed 0) = true /\ bytes_okb b = true /\
  fst (Size D (IPtr (SNamed 0) None) g_empty) = Returns 0%Z /\
  fst (Unmarshal D b (IPtr (SNamed 0) (Some x)) g_empty) = Panics Confused.
Proof. exact unmarshal_refuted_proof. Qed.
Print Assumptions unmarshal_total_refuted.

(** C13, for any input on which Unmarshal succeeds: cut anywhere, the first
    part is accepted and the second continues it, or an unexpected EOF is
    reported. (truncation_exact says which, for the output of Marshal.) *)
Theorem truncation : forall D, supported D = true -> forall s1 s2 s3 k p q x x',
  reachable D s1 -> reachable D s2 -> reachable D s3 ->
  user_key D k = true -> wts D x k = true -> bytes_okb (p ++ q) = true -> (zlen (p ++ q) < 2^63)%Z ->
  fst (Unmarshal D (p ++ q) (IPtr k (Some x)) s1) = Returns (IPtr k (Some x'), None) ->
  (exists x1, fst (Unmarshal D p (IPtr k (Some x)) s2) = Returns (IPtr k (Some x1), None) /\
              fst (Unmarshal D q (IPtr k (Some x1)) s3) = Returns (IPtr k (Some x'), None)) \/
  (exists x1 e, fst (Unmarshal D p (IPtr k (Some x)) s2) = Returns (IPtr k (Some x1), Some e) /\ err_cause e = ErrUnexpectedEOF).
Proof. exact truncation_proof. Qed.
Print Assumptions truncation.
Example truncation_ex : let t := IPtr (SNamed 0) (Some (VStruct person)) in let ok b := match fst (Unmarshal sampleD b t g_empty) with Returns (_, e) => Some e | _ => None end in
  ok [34; 3; 8; 255; 1; 8; 3] = Some None /\ ok [34; 3; 8; 255; 1] = Some None /\
  ok [34; 3; 8; 255] = Some (Some (UnmarshalFieldError 4 2 ErrUnexpectedEOF)).
Proof. vm_compute. repeat split. Qed.

(** C14. The whole result is the same: message, error or success. *)
Theorem concat_is_merge : forall D, supported D = true -> forall s1 s2 s3 k a b x x1,
  reachable D s1 -> reachable D s2 -> reachable D s3 ->
  user_key D k = true -> wts D x k = true -> bytes_okb (a ++ b) = true -> (zlen (a ++ b) < 2^63)%Z ->
  fst (Unmarshal D a (IPtr k (Some x)) s1) = Returns (IPtr k (Some x1), None) ->
  fst (Unmarshal D (a ++ b) (IPtr k (Some x)) s2) = fst (Unmarshal D b (IPtr k (Some x1)) s3).
Proof. exact concat_merge_proof. Qed.
Print Assumptions concat_is_merge.
Example concat_is_merge_ex : let t := IPtr (SNamed 0) (Some (VStruct kid)) in
  match fst (Unmarshal sampleD [8; 5; 72; 1] t g_empty) with
  | Returns (t1, None) => fst (Unmarshal sampleD ([8; 5; 72; 1] ++ [72; 2; 9]) t g_empty) = fst (Unmarshal sampleD [72; 2; 9] t1 g_empty)
  | _ => False
  end.
Proof. vm_compute. reflexivity. Qed.

(** C15. [r] is one well-formed record whose number the message does not
    declare; it is inserted after any accepted [a]. *)
Theorem unknown_skipped : forall D sch, supported D = true -> implements D sch = true -> schema_ok sch = true ->
  forall s1 s2 s3 m a r b x x1 tag k r1 p, reachable D s1 -> reachable D s2 -> reachable D s3 ->
  (m < length D)%nat -> wts D x (SNamed m) = true -> bytes_okb (a ++ r ++ b) = true -> (zlen (a ++ r ++ b) < 2^63)%Z ->
  fst (Unmarshal D a (IPtr (SNamed m) (Some x)) s1) = Returns (IPtr (SNamed m) (Some x1), None) ->
  read_varint r = VOk tag k r1 -> read_payload (tag mod 8) r1 = Some (p, []) -> ~ In (tag / 8) (numbers (msg sch m)) ->
  fst (Unmarshal D (a ++ r ++ b) (IPtr (SNamed m) (Some x)) s2) = fst (Unmarshal D (a ++ b) (IPtr (SNamed m) (Some x)) s3).
Proof. exact unknown_proof. Qed.
Print Assumptions unknown_skipped.
Example unknown_skipped_ex : implements sampleD sample = true /\ schema_ok sample = true /\
  read_varint [66; 2; 7; 7] = VOk 66 1 [2; 7; 7] /\ read_payload (66 mod 8) [2; 7; 7] = Some (PLen [7; 7], []) /\
  ~ In (66 / 8) (numbers (msg sample 0)) /\
  fst (Unmarshal sampleD ([8; 5] ++ [66; 2; 7; 7] ++ [72; 2]) (IPtr (SNamed 0) (Some (VStruct kid))) g_empty) =
  fst (Unmarshal sampleD ([8; 5] ++ [72; 2]) (IPtr (SNamed 0) (Some (VStruct kid))) g_empty).
Proof. repeat (split; [vm_compute; reflexivity|]). split; [|vm_compute; reflexivity]. cbn. intuition discriminate. Qed.

(** C16. After any accepted [a], a record [b] with a declared number but another wire type. *)
Theorem wire_type_mismatch : forall D sch, supported D = true -> implements D sch = true -> schema_ok sch = true ->
  forall s1 s2 m a b x x1 tag k r j f, reachable D s1 -> reachable D s2 ->
  (m < length D)%nat -> wts D x (SNamed m) = true -> bytes_okb (a ++ b) = true -> (zlen (a ++ b) < 2^63)%Z ->
  fst (Unmarshal D a (IPtr (SNamed m) (Some x)) s1) = Returns (IPtr (SNamed m) (Some x1), None) ->
  read_varint b = VOk tag k r -> nth_error (msg sch m) j = Some (Field (tag / 8) f) -> tag mod 8 <> wire_fty f ->
  fst (Unmarshal D (a ++ b) (IPtr (SNamed m) (Some x)) s2) =
  Returns (IPtr (SNamed m) (Some x1), Some (UnmarshalFieldError (Z.of_N (tag / 8)) (Z.of_N (tag mod 8)) (ErrExpectedWireType (wire_fty f)))).
Proof. exact mismatch_proof. Qed.
Print Assumptions wire_type_mismatch.
Example wire_type_mismatch_ex : read_varint [10; 1; 65] = VOk 10 1 [1; 65] /\
  nth_error (msg sample 0) 0 = Some (Field (10 / 8) (FImplicit Y_int32)) /\ 10 mod 8 <> wire_fty (FImplicit Y_int32) /\
  exists x, fst (Unmarshal sampleD ([48; 2] ++ [10; 1; 65]) (IPtr (SNamed 0) (Some (VStruct kid))) g_empty) =
    Returns (IPtr (SNamed 0) (Some x), Some (UnmarshalFieldError 1 2 (ErrExpectedWireType 0))) /\ get_field x 5 = Some (VI64 1).
Proof. repeat (split; [vm_compute; first [reflexivity|discriminate]|]). eexists. split; vm_compute; reflexivity. Qed.

(** C17. For every input and outcome. [occurs b tag]: the varint [tag] starts
    somewhere in [b]. *)
Theorem untouched_fields : forall D sch, supported D = true -> implements D sch = true -> schema_ok sch = true ->
  forall s m b x x' e, reachable D s -> (m < length D)%nat -> wts D x (SNamed m) = true -> bytes_okb b = true -> (zlen b < 2^63)%Z ->
  fst (Unmarshal D b (IPtr (SNamed m) (Some x)) s) = Returns (IPtr (SNamed m) (Some x'), e) ->
  wts D x' (SNamed m) = true /\
  forall j, match nth_error (msg sch m) j with Some (Field n _) => forall tag, occurs b tag -> tag / 8 <> n | _ => True end ->
            get_field x' j = get_field x j.
Proof. exact untouched_proof. Qed.
Print Assumptions untouched_fields.
Example untouched_fields_ex : nth_error (msg sample 0) 6 = Some (Hidden TOther) /\
  exists x', fst (Unmarshal sampleD [8; 5; 48; 255] (IPtr (SNamed 0) (Some (VStruct person))) g_empty) =
    Returns (IPtr (SNamed 0) (Some x'), Some (UnmarshalFieldError 6 0 ErrUnexpectedEOF)) /\
    get_field x' 0 = Some (VI32 5) /\ get_field x' 6 = Some (VOther 7) /\ get_field x' 10 = get_field (VStruct person) 10.
Proof. split; [reflexivity|]. eexists. split; [vm_compute; reflexivity|]. vm_compute. repeat split. Qed.

(** C18 *)
Theorem error_structure : forall D, supported D = true -> forall s k b x x' e,
  reachable D s -> user_key D k = true -> wts D x k = true -> bytes_okb b = true -> (zlen b < 2^63)%Z ->
  fst (Unmarshal D b (IPtr k (Some x)) s) = Returns (IPtr k (Some x'), Some e) ->
  match err_cause e with ErrUnexpectedEOF | ErrVarintOverflow | ErrWireTypeUnknown | ErrExpectedWireType _ => True | _ => False end /\
  (e = ErrUnexpectedEOF \/ e = ErrVarintOverflow \/
   exists tag e', occurs b tag /\ e = UnmarshalFieldError (Z.of_N (tag / 8)) (Z.of_N (tag mod 8)) e').
Proof. exact error_structure_proof. Qed.
Print Assumptions error_structure.
Example error_structure_ex : let t := IPtr (SNamed 0) (Some (VStruct kid)) in let err b := match fst (Unmarshal sampleD b t g_empty) with Returns (_, e) => e | _ => None end in
  err [128] = Some ErrUnexpectedEOF /\ err [255; 255; 255; 255; 255; 255; 255; 255; 255; 2] = Some ErrVarintOverflow /\
  err [75; 0] = Some (UnmarshalFieldError 9 3 (ErrExpectedWireType 0)) /\ err [67; 0] = Some (UnmarshalFieldError 8 3 ErrWireTypeUnknown) /\
  err [82; 2; 16; 128] = Some (UnmarshalFieldError 10 2 (UnmarshalFieldError 2 0 ErrUnexpectedEOF)).
Proof. vm_compute. repeat split. Qed.

(** C19 *)
Theorem api_arguments_partial : forall D s b,
  Marshal D INonPtr s = (Returns (None, Some ErrNotAPointer), s) /\
  (forall k, supported D = true -> reachable D s -> user_key D k = true ->
     fst (Marshal D (IPtr k None) s) = Returns (Some [], None) /\ fst (Size D (IPtr k None) s) = Returns 0%Z) /\
  (b <> [] -> forall v, match v with INil | IPtr _ (Some _) => False | _ => True end ->
     Unmarshal D b v s = (Returns (v, Some InvalidUnmarshalError), s)) /\
  (forall v, Unmarshal D [] v s = (Returns (v, None), s)).
Proof. exact api_arguments_proof. Qed.
Print Assumptions api_arguments_partial.
Example api_arguments_ex : Unmarshal sampleD [8; 1] (IPtr (SNamed 0) None) g_empty = (Returns (IPtr (SNamed 0) None, Some InvalidUnmarshalError), g_empty).
Proof. reflexivity. Qed.
(** An untyped nil is not caught: it panics. *)
Theorem api_arguments_refuted : forall D s b, b <> [] ->
  fst (Unmarshal D b INil s) = Panics NilDeref /\ fst (Marshal D INil s) = Panics NilDeref /\ fst (Size D INonPtr s) = Panics Unsupported.
Proof. exact api_arguments_refuted_proof. Qed.
Print Assumptions api_arguments_refuted.

(** C22. The result of a call, in any two reachable states. *)
Theorem history_independent_partial : forall D, supported D = true -> forall s1 s2 v b,
  reachable D s1 -> reachable D s2 -> iface_ok D v = true ->
  match v with IPtr k (Some x) => wts D x k = true | _ => True end -> bytes_okb b = true -> (zlen b < 2^63)%Z ->
  fst (Size D v s1) = fst (Size D v s2) /\ fst (Marshal D v s1) = fst (Marshal D v s2) /\
  fst (Unmarshal D b v s1) = fst (Unmarshal D b v s2).
Proof. exact history_proof. Qed.
Print Assumptions history_independent_partial.
Example history_independent_ex : let s := snd (Unmarshal sampleD [8; 1] (IPtr (SNamed 1) (Some account)) g_empty) in
  reachable sampleD s /\ s <> g_empty /\
  fst (Marshal sampleD (IPtr (SNamed 0) (Some (VStruct person))) s) = fst (Marshal sampleD (IPtr (SNamed 0) (Some (VStruct person))) g_empty).
Proof. split; [apply reach_unmarshal; [constructor|reflexivity]|]. split; [discriminate|vm_compute; reflexivity]. Qed.
Theorem history_independent_refuted : exists D s1 s2 x b1 b2, reachable D s1 /\ reachable D s2 /\ wts D x (SNamed 1) = true /\
  fst (Marshal D (IPtr (SNamed 1) (Some x)) s1) = Returns (Some b1, None) /\
  fst (Marshal D (IPtr (SNamed 1) (Some x)) s2) = Returns (Some b2, None) /\ b1 <> b2.
Proof. exact history_refuted_proof. Qed.
Print Assumptions history_independent_refuted.
Theorem nested_encoding_refuted : exists D x b1 b2, wts D x (SNamed 1) = true /\
  fst (Marshal D (IPtr (SNamed 1) (Some x)) g_empty) = Returns (Some b1, None) /\
  fst (Marshal D (IPtr (SNamed 0) (Some (VStruct [VPtr None; VPtr (Some x)]))) g_empty) = Returns (Some ([18; N.of_nat (length b2)] ++ b2), None) /\ b1 <> b2.
Proof. exact nested_refuted_proof. Qed.
Print Assumptions nested_encoding_refuted.

(** C31. For every input and outcome, elements present before stay in place. *)
Theorem slices_only_grow : forall D, supported D = true ->
  forall s m b x x' e, reachable D s -> (m < length D)%nat -> wts D x (SNamed m) = true -> bytes_okb b = true -> (zlen b < 2^63)%Z ->
  fst (Unmarshal D b (IPtr (SNamed m) (Some x)) s) = Returns (IPtr (SNamed m) (Some x'), e) ->
  forall j nn items spare, get_field x j = Some (VSlice nn items spare) ->
  exists nn' more spare', get_field x' j = Some (VSlice nn' (items ++ more) spare').
Proof. exact append_only_proof. Qed.
Print Assumptions slices_only_grow.
Example slices_only_grow_ex : exists x',
  fst (Unmarshal sampleD [72; 5; 72; 6; 72; 7; 72; 128] (IPtr (SNamed 0) (Some (VStruct person))) g_empty) =
    Returns (IPtr (SNamed 0) (Some x'), Some (UnmarshalFieldError 9 0 ErrUnexpectedEOF)) /\
  get_field x' 8 = Some (VSlice true [VI32 1; VI32 0; VI32 5; VI32 6; VI32 7] [VI32 0]).
Proof. eexists. split; vm_compute; reflexivity. Qed.

(** C41. Termination for any declarations in any state of the caches (even one
    left behind by a panic); the fields listed, for declarations of a schema. *)
Theorem walk_terminates : forall D s k, match k with SEntry _ _ _ _ => False | _ => True end ->
  fst (run (cachedStructInfoOf D (walk_fuel D) k) s) <> OutOfFuel.
Proof. exact walk_terminates_proof. Qed.
Print Assumptions walk_terminates.
Theorem walk_lists_fields : forall D sch, supported D = true -> implements D sch = true -> schema_ok sch = true ->
  forall s m, reachable D s -> (m < length D)%nat ->
  exists i s', run (cachedStructInfoOf D (walk_fuel D) (SNamed m)) s = (Done i, s') /\
    map (fun f => (f_idx f, wiretag (f_meta f))) (i_fields (higet s' i)) = declared 0 (msg sch m).
Proof. exact walk_lists_proof. Qed.
Print Assumptions walk_lists_fields.
Example walk_ex : map (fun p => (N.of_nat (fst p), snd p)) (declared 0 (msg sample 0)) =
  [(0, 8); (1, 18); (2, 26); (3, 34); (4, 42); (5, 48); (7, 61); (8, 72); (9, 82); (10, 130)].
Proof. reflexivity. Qed.
