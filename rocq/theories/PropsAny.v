(** Property theorems that hold for declarations of any kind: no condition on
    the declarations, on the target or on the order of earlier calls.
    [reachable D s]: [s] is the state of the caches after some sequence of
    calls, some of which may have panicked. [used D k s s']: a call with a
    pointer to [k], made in [s], returned and left [s']. [later D s' s2]: [s2]
    is the state after further calls. *)
From Coq Require Import String.
From Verif Require Import Base Wire GoType Leaf Codec Tag Walker Api Typing SpecWire SpecMsg
  GenFacts WalkSeq ApiFacts ApiTags SpecAny AnyApi Sample RefuteApi RefuteConc.
Local Open Scope N_scope.

(** C43. Once a call with a pointer to [k] has returned, every later call with
    [k] does what it would have done at that first call, and leaves the caches
    alone. *)
Theorem first_call_decides : forall D s k s1 s2, reachable D s -> user_key D k = true -> used D k s s1 -> later D s1 s2 ->
  forall p b, Size D (IPtr k p) s2 = (fst (Size D (IPtr k p) s), s2) /\
              Marshal D (IPtr k p) s2 = (fst (Marshal D (IPtr k p) s), s2) /\
              Unmarshal D b (IPtr k p) s2 = (fst (Unmarshal D b (IPtr k p) s), s2).
Proof. exact first_call_proof. Qed.
Print Assumptions first_call_decides.
(** The two histories of history_independent_refuted: each keeps its answer. *)
Example first_call_ex : let B := IPtr (SNamed 1) (Some historyB) in
  let fresh := snd (Size historyD B g_empty) in
  let afterA := snd (Marshal historyD (IPtr (SNamed 0) None) g_empty) in
  let s1 := snd (Size historyD B afterA) in
  used historyD (SNamed 1) g_empty fresh /\ used historyD (SNamed 1) afterA s1 /\
  (let s2 := snd (Marshal historyD (IPtr (SNamed 0) None) fresh) in
   later historyD fresh s2 /\ s2 <> fresh /\ fst (Marshal historyD B s2) = Returns (Some [8; 1], None)) /\
  fst (Marshal historyD B s1) = Returns (Some [8; 2], None).
Proof.
  cbv zeta. split; [apply (used_size _ _ _ _ (Some historyB) 2%Z); vm_compute; reflexivity|]. split; [apply (used_size _ _ _ _ (Some historyB) 2%Z); vm_compute; reflexivity|].
  split; [|vm_compute; reflexivity]. split; [apply later_marshal; [constructor|reflexivity]|]. split; [vm_compute; discriminate|vm_compute; reflexivity].
Qed.
(** A panic is not such a first call: see poison_refuted. *)
Example first_call_panic_ex : let y := IPtr (SNamed 1) (Some other) in
  fst (Marshal badD y g_empty) = Panics Unsupported /\
  (let s := snd (Marshal badD (IPtr (SNamed 0) (Some bad)) g_empty) in
   exists s1, used badD (SNamed 1) s s1 /\ fst (Marshal badD y s1) = Returns (Some [10; 0; 16; 5], None)).
Proof.
  cbv zeta. split; [vm_compute; reflexivity|]. exists (snd (Marshal badD (IPtr (SNamed 1) (Some other)) (snd (Marshal badD (IPtr (SNamed 0) (Some bad)) g_empty)))).
  split; [apply (used_marshal _ _ _ _ (Some other) (Some [10; 0; 16; 5], None)); vm_compute; reflexivity|vm_compute; reflexivity].
Qed.

(** C12, for any declarations, value and input: no endless loop or recursion,
    and no read outside the input. (A panic of another kind is possible: a
    declaration that is rejected, or one that mixes up types, see
    unmarshal_total_refuted.) *)
Theorem unmarshal_always_answers : forall D s v b, reachable D s -> iface_ok D v = true -> (zlen b < 2^63)%Z ->
  fst (Size D v s) <> Diverges /\ fst (Marshal D v s) <> Diverges /\
  fst (Unmarshal D b v s) <> Diverges /\ fst (Unmarshal D b v s) <> Panics Bounds.
Proof. exact always_answers_proof. Qed.
Print Assumptions unmarshal_always_answers.
Example always_answers_ex :
  fst (Unmarshal ptrfixedD [13; 1; 2; 3] (IPtr (SNamed 0) (Some (VStruct [VPtr None]))) g_empty) =
    Returns (IPtr (SNamed 0) (Some (VStruct [VPtr None])), Some (UnmarshalFieldError 1 5 ErrUnexpectedEOF)) /\
  fst (Unmarshal ptrfixedD [13; 1; 2; 3; 4] (IPtr (SNamed 0) (Some (VStruct [VPtr None]))) g_empty) = Panics Confused /\
  fst (Unmarshal badD [18; 0] (IPtr (SNamed 0) (Some bad)) g_empty) = Panics Unsupported.
Proof. vm_compute. repeat split. Qed.

(** C13 *)
Theorem truncation_all : forall D s s0 s1 s2 s3 k p q x x', reachable D s -> user_key D k = true -> used D k s s0 ->
  later D s0 s1 -> later D s0 s2 -> later D s0 s3 -> (zlen (p ++ q) < 2^63)%Z ->
  fst (Unmarshal D (p ++ q) (IPtr k (Some x)) s1) = Returns (IPtr k (Some x'), None) ->
  (exists x1, fst (Unmarshal D p (IPtr k (Some x)) s2) = Returns (IPtr k (Some x1), None) /\
              fst (Unmarshal D q (IPtr k (Some x1)) s3) = Returns (IPtr k (Some x'), None)) \/
  (exists x1 e, fst (Unmarshal D p (IPtr k (Some x)) s2) = Returns (IPtr k (Some x1), Some e) /\ err_cause e = ErrUnexpectedEOF).
Proof. exact truncation_all_proof. Qed.
Print Assumptions truncation_all.
Example truncation_all_ex : let t := IPtr (SNamed 1) (Some historyB) in
  let s0 := snd (Size historyD t (snd (Marshal historyD (IPtr (SNamed 0) None) g_empty))) in
  used historyD (SNamed 1) (snd (Marshal historyD (IPtr (SNamed 0) None) g_empty)) s0 /\
  let ok b := match fst (Unmarshal historyD b t s0) with Returns (_, e) => Some e | _ => None end in
  ok [8; 4; 8; 133; 1] = Some None /\ ok [8; 4] = Some None /\ ok [8; 4; 8; 133] = Some (Some (UnmarshalFieldError 1 0 ErrUnexpectedEOF)).
Proof. cbv zeta. split; [apply (used_size _ _ _ _ (Some historyB) 2%Z); vm_compute; reflexivity|]. vm_compute. repeat split. Qed.

(** C14. The whole result is the same: message, error or panic. *)
Theorem concat_is_merge_all : forall D s s0 s1 s2 s3 k a b x x1, reachable D s -> user_key D k = true -> used D k s s0 ->
  later D s0 s1 -> later D s0 s2 -> later D s0 s3 -> (zlen (a ++ b) < 2^63)%Z ->
  fst (Unmarshal D a (IPtr k (Some x)) s1) = Returns (IPtr k (Some x1), None) ->
  fst (Unmarshal D (a ++ b) (IPtr k (Some x)) s2) = fst (Unmarshal D b (IPtr k (Some x1)) s3).
Proof. exact concat_all_proof. Qed.
Print Assumptions concat_is_merge_all.
Example concat_is_merge_all_ex : let t := IPtr (SNamed 1) (Some historyB) in
  let s0 := snd (Size historyD t (snd (Marshal historyD (IPtr (SNamed 0) None) g_empty))) in
  used historyD (SNamed 1) (snd (Marshal historyD (IPtr (SNamed 0) None) g_empty)) s0 /\
  fst (Unmarshal historyD [8; 4] t s0) = Returns (IPtr (SNamed 1) (Some (VStruct [VPtr (Some (VI32 2))])), None) /\
  fst (Unmarshal historyD ([8; 4] ++ [16; 7]) t s0) = Returns (IPtr (SNamed 1) (Some (VStruct [VPtr (Some (VI32 2))])), None).
Proof. cbv zeta. split; [apply (used_size _ _ _ _ (Some historyB) 2%Z); vm_compute; reflexivity|]. vm_compute. repeat split. Qed.

(** C15 *)
Theorem unknown_skipped_all : forall D sch, implements D sch = true -> schema_ok sch = true ->
  forall s s0 s1 s2 s3 m a r b x x1 tag k r1 p, (m < length D)%nat ->
  reachable D s -> used D (SNamed m) s s0 -> later D s0 s1 -> later D s0 s2 -> later D s0 s3 -> (zlen (a ++ r ++ b) < 2^63)%Z ->
  fst (Unmarshal D a (IPtr (SNamed m) (Some x)) s1) = Returns (IPtr (SNamed m) (Some x1), None) ->
  read_varint r = VOk tag k r1 -> read_payload (tag mod 8) r1 = Some (p, []) -> ~ In (tag / 8) (numbers (msg sch m)) ->
  fst (Unmarshal D (a ++ r ++ b) (IPtr (SNamed m) (Some x)) s2) = fst (Unmarshal D (a ++ b) (IPtr (SNamed m) (Some x)) s3).
Proof. exact unknown_all_proof. Qed.
Print Assumptions unknown_skipped_all.
Example unknown_skipped_all_ex :
  let sch := [[Field 1 (FPointer Y_sint32); Field 2 (FMessage 1)]; [Field 1 (FPointer Y_int32)]] in
  let t := IPtr (SNamed 0) (Some (VStruct [VPtr None; VPtr None])) in
  let s0 := snd (Size historyD t g_empty) in
  supported historyD = false /\ implements historyD sch = true /\ schema_ok sch = true /\ used historyD (SNamed 0) g_empty s0 /\
  fst (Unmarshal historyD ([8; 4] ++ [26; 2; 7; 7] ++ [18; 2; 8; 6]) t s0) = fst (Unmarshal historyD ([8; 4] ++ [18; 2; 8; 6]) t s0) /\
  fst (Unmarshal historyD ([8; 4] ++ [18; 2; 8; 6]) t s0) =
    Returns (IPtr (SNamed 0) (Some (VStruct [VPtr (Some (VI32 2)); VPtr (Some (VStruct [VPtr (Some (VI32 3))]))])), None).
Proof. cbv zeta. split; [vm_compute; reflexivity|]. split; [vm_compute; reflexivity|]. split; [reflexivity|]. split; [apply (used_size _ _ _ _ (Some (VStruct [VPtr None; VPtr None])) 0%Z); vm_compute; reflexivity|]. vm_compute. repeat split. Qed.

(** C16 *)
Theorem wire_type_mismatch_all : forall D sch, implements D sch = true -> schema_ok sch = true ->
  forall s s0 s1 s2 m a b x x1 tag k r j f, (m < length D)%nat ->
  reachable D s -> used D (SNamed m) s s0 -> later D s0 s1 -> later D s0 s2 -> (zlen (a ++ b) < 2^63)%Z ->
  fst (Unmarshal D a (IPtr (SNamed m) (Some x)) s1) = Returns (IPtr (SNamed m) (Some x1), None) ->
  read_varint b = VOk tag k r -> nth_error (msg sch m) j = Some (Field (tag / 8) f) -> tag mod 8 <> wire_fty f ->
  fst (Unmarshal D (a ++ b) (IPtr (SNamed m) (Some x)) s2) =
  Returns (IPtr (SNamed m) (Some x1), Some (UnmarshalFieldError (Z.of_N (tag / 8)) (Z.of_N (tag mod 8)) (ErrExpectedWireType (wire_fty f)))).
Proof. exact mismatch_all_proof. Qed.
Print Assumptions wire_type_mismatch_all.
Example wire_type_mismatch_all_ex : let t := IPtr (SNamed 1) (Some historyB) in
  let s0 := snd (Size historyD t (snd (Marshal historyD (IPtr (SNamed 0) None) g_empty))) in
  fst (Unmarshal historyD ([8; 4] ++ [13; 0; 0; 0; 0]) t s0) =
    Returns (IPtr (SNamed 1) (Some (VStruct [VPtr (Some (VI32 2))])), Some (UnmarshalFieldError 1 5 (ErrExpectedWireType 0))).
Proof. vm_compute. reflexivity. Qed.

(** C17. For every input and outcome. *)
Theorem untouched_fields_all : forall D sch, implements D sch = true -> schema_ok sch = true ->
  forall s m b x x' e, reachable D s -> (m < length D)%nat -> (zlen b < 2^63)%Z ->
  fst (Unmarshal D b (IPtr (SNamed m) (Some x)) s) = Returns (IPtr (SNamed m) (Some x'), e) ->
  forall j, match nth_error (msg sch m) j with Some (Field n _) => forall tag, occurs b tag -> tag / 8 <> n | _ => True end ->
            get_field x' j = get_field x j.
Proof. exact untouched_all_proof. Qed.
Print Assumptions untouched_fields_all.
Example untouched_fields_all_ex : exists x',
  fst (Unmarshal historyD [8; 4; 8; 128] (IPtr (SNamed 0) (Some (VStruct [VPtr None; VPtr (Some historyB)]))) g_empty) =
    Returns (IPtr (SNamed 0) (Some x'), Some (UnmarshalFieldError 1 0 ErrUnexpectedEOF)) /\
  get_field x' 0 = Some (VPtr (Some (VI32 2))) /\ get_field x' 1 = Some (VPtr (Some historyB)).
Proof. eexists. split; [vm_compute; reflexivity|]. vm_compute. repeat split. Qed.

(** C18 *)
Theorem error_structure_all : forall D s k b x x' e, reachable D s -> user_key D k = true -> (zlen b < 2^63)%Z ->
  fst (Unmarshal D b (IPtr k (Some x)) s) = Returns (IPtr k (Some x'), Some e) ->
  match err_cause e with ErrUnexpectedEOF | ErrVarintOverflow | ErrWireTypeUnknown | ErrExpectedWireType _ => True | _ => False end /\
  (e = ErrUnexpectedEOF \/ e = ErrVarintOverflow \/
   exists tag e', occurs b tag /\ e = UnmarshalFieldError (Z.of_N (tag / 8)) (Z.of_N (tag mod 8)) e').
Proof. exact error_all_proof. Qed.
Print Assumptions error_structure_all.
Example error_structure_all_ex :
  match fst (Unmarshal historyD [18; 2; 8; 128] (IPtr (SNamed 0) (Some (VStruct [VPtr None; VPtr None]))) g_empty) with
  | Returns (_, e) => e = Some (UnmarshalFieldError 2 2 (UnmarshalFieldError 1 0 ErrUnexpectedEOF))
  | _ => False
  end.
Proof. vm_compute. reflexivity. Qed.

(** C31. For every input and outcome, elements present before stay in place. *)
Theorem slices_only_grow_all : forall D s k b x x' e, reachable D s -> user_key D k = true -> (zlen b < 2^63)%Z ->
  fst (Unmarshal D b (IPtr k (Some x)) s) = Returns (IPtr k (Some x'), e) ->
  forall j nn items spare, get_field x j = Some (VSlice nn items spare) ->
  exists nn' more spare', get_field x' j = Some (VSlice nn' (items ++ more) spare').
Proof. exact grow_all_proof. Qed.
Print Assumptions slices_only_grow_all.
Example slices_only_grow_all_ex :
  let D := [[sfield "zigzag32,1,rep" (TSlice (TScalar KInt32)); sfield "varint,2,rep" (TSlice (TScalar KInt32))]] in
  supported D = false /\ exists x',
  fst (Unmarshal D [8; 6; 16; 6; 16; 128] (IPtr (SNamed 0) (Some (VStruct [VSlice true [VI32 7] []; VSlice true [VI32 9] []]))) g_empty) =
    Returns (IPtr (SNamed 0) (Some x'), Some (UnmarshalFieldError 2 0 ErrUnexpectedEOF)) /\
  exists a b c d, get_field x' 0 = Some (VSlice true [VI32 7; VI32 a] b) /\ get_field x' 1 = Some (VSlice true [VI32 9; VI32 c] d).
Proof. cbv zeta. split; [vm_compute; reflexivity|]. eexists. split; [vm_compute; reflexivity|]. do 4 eexists. vm_compute. repeat split. Qed.

(** C41. Whenever a lookup returns, it lists the declared fields. *)
Theorem walk_lists_fields_all : forall D sch, implements D sch = true -> schema_ok sch = true ->
  forall s m i s', reachable D s -> (m < length D)%nat ->
  run (cachedStructInfoOf D (walk_fuel D) (SNamed m)) s = (Done i, s') ->
  map (fun f => (f_idx f, wiretag (f_meta f))) (i_fields (higet s' i)) = declared 0 (msg sch m).
Proof. exact walk_all_proof. Qed.
Print Assumptions walk_lists_fields_all.
Example walk_lists_all_ex : exists i s', run (cachedStructInfoOf historyD (walk_fuel historyD) (SNamed 0)) g_empty = (Done i, s') /\
  map (fun f => (f_idx f, wiretag (f_meta f))) (i_fields (higet s' i)) = [(0%nat, 8); (1%nat, 18)].
Proof. do 2 eexists. split; vm_compute; reflexivity. Qed.
