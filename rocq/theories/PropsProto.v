(** Property theorems about the structs generated from .proto files. *)
From Coq Require Import String.
From Verif Require Import Base Wire GoType Leaf Codec Tag Walker Api Resolve Typing SpecWire SpecTag SpecMsg SpecLib ProtoGen SpecProto
  WalkSeq MsgApi RefuteMsg ProtoFit ProtoThms.
Local Open Scope N_scope.

(** C25. Tags of generated fields parse to the field's wire type, number,
    repetition and encoding. *)
Theorem generated_tags_partial : forall fd, d_number fd < 2^29 -> d_kind fd <> GroupKind -> d_card fd <> CardRequired ->
  parseStructTag (fieldProtobufTagValue fd) =
  ({| t_wire := kind_wire (d_kind fd); t_num := d_number fd; t_rep := card_rep (d_card fd); t_zz := kind_zigzag (d_kind fd) |}, None).
Proof. exact generated_tag_proof. Qed.
Print Assumptions generated_tags_partial.
Example generated_tags_ex : fieldProtobufTagValue (rep_field 536870911 Sint64Kind 0) = "zigzag64,536870911,rep"%string /\
  fieldProtobufTagValue (plain_field 19 Sfixed32Kind) = "fixed32,19,opt"%string.
Proof. split; vm_compute; reflexivity. Qed.
(** Generated messages without groups, required and weak fields are accepted:
    Size and Unmarshal return on all messages and inputs; Marshal does if all
    maps have equally encoded keys and values. [agreeing]: no repeated sint32
    beside a repeated int32. *)
Theorem generated_total_partial : forall F, valid F = true -> usable F = true -> agreeing (schema_of F) = true -> forall s i x,
  reachable (generate F) s -> wts (generate F) x (SNamed i) = true ->
  (exists n, fst (Size (generate F) (IPtr (SNamed i) (Some x)) s) = Returns n) /\
  (forall b, bytes_okb b = true -> (zlen b < 2^63)%Z ->
     exists x' e, fst (Unmarshal (generate F) b (IPtr (SNamed i) (Some x)) s) = Returns (IPtr (SNamed i) (Some x'), e) /\ wts (generate F) x' (SNamed i) = true) /\
  (uniform_maps (schema_of F) = true -> exists b, fst (Marshal (generate F) (IPtr (SNamed i) (Some x)) s) = Returns (Some b, None)).
Proof. exact generated_total_proof. Qed.
Print Assumptions generated_total_partial.
Example generated_total_ex : valid bigF = true /\ usable bigF = true /\ agreeing (schema_of bigF) = true /\ uniform_maps (schema_of bigF) = true /\
  wts (generate bigF) (VStruct (zeros (msg (schema_of bigF) 0))) (SNamed 0) = true.
Proof. vm_compute. repeat split. Qed.
(** All others are rejected by every call. *)
Theorem generated_rejected : forall F i m fd, nth_error F i = Some m -> m_entry m = false -> In fd (ordinary m) -> d_number fd < 2^29 ->
  d_kind fd = GroupKind \/ d_card fd = CardRequired \/ d_weak fd = true ->
  forall s, reachable (generate F) s -> forall p b x, b <> [] ->
  fst (Size (generate F) (IPtr (SNamed i) p) s) = Panics Unsupported /\
  fst (Marshal (generate F) (IPtr (SNamed i) p) s) = Panics Unsupported /\
  fst (Unmarshal (generate F) b (IPtr (SNamed i) (Some x)) s) = Panics Unsupported.
Proof. exact generated_rejected_proof. Qed.
Print Assumptions generated_rejected.
Example generated_rejected_ex : let m := {| m_entry := false; m_oneofs := []; m_fields := [plain_field 1 Int32Kind; card_field CardRequired true BoolKind] |} in
  In (card_field CardRequired true BoolKind) (ordinary m) /\ fieldProtobufTagValue (card_field CardRequired true BoolKind) = "varint,1,req"%string.
Proof. split; [right; left; reflexivity|vm_compute; reflexivity]. Qed.
Theorem generated_tags_refuted : exists F s xs, valid F = true /\ reachable (generate F) s /\ wts (generate F) (VStruct xs) (SNamed 0) = true /\
  fst (Marshal (generate F) (ptr 0 xs) s) = Panics Unsupported.
Proof. exact required_proof. Qed.
Print Assumptions generated_tags_refuted.

(** C26. The schema of the descriptors has the ordinary fields, with their
    numbers and meanings, in order. *)
Theorem schema_fields : forall F, usable F = true -> forall i m, nth_error F i = Some m -> m_entry m = false ->
  map Some (map snd (visible (msg (schema_of F) i))) = map (meaning F) (ordinary m) /\
  map fst (visible (msg (schema_of F) i)) = map d_number (ordinary m).
Proof. exact generated_visible_proof. Qed.
Print Assumptions schema_fields.
Example schema_fields_ex : visible (msg (schema_of bigF) 0) =
  [(1, FImplicit Y_int32); (2, FOptional Y_sint64); (3, FRepeated (FAlways Y_string)); (4, FMap Y_string (FAlways Y_string)); (5, FMessage 0);
   (6, FBytes); (7, FRepeated (FMessage 0)); (8, FImplicit Y_fixed32); (11, FRepeated (FAlways Y_int32))].
Proof. vm_compute. reflexivity. Qed.
(** Messages of covered descriptors are written and read as that schema says. *)
Theorem generated_wire_partial : forall F, covered F = true -> forall s m xs, reachable (generate F) s ->
  wts (generate F) (VStruct xs) (SNamed m) = true -> encodable_msg (schema_of F) xs (msg (schema_of F) m) = true ->
  (zlen (ser (message (schema_of F) xs (msg (schema_of F) m))) < 2^63)%Z ->
  fst (Size (generate F) (ptr m xs) s) = Returns (zlen (ser (message (schema_of F) xs (msg (schema_of F) m)))) /\
  fst (Marshal (generate F) (ptr m xs) s) = Returns (Some (ser (message (schema_of F) xs (msg (schema_of F) m))), None).
Proof. exact generated_wire_proof. Qed.
Print Assumptions generated_wire_partial.
Theorem generated_merge_partial : forall F, covered F = true -> forall s m xs zs b, reachable (generate F) s ->
  wts (generate F) (VStruct xs) (SNamed m) = true -> forallb fresh xs = true -> map norm xs = map norm zs ->
  bytes_okb b = true -> (zlen b < 2^63)%Z -> plain (schema_of F) (S (length b)) (msg (schema_of F) m) b = true ->
  match merge (schema_of F) (S (length b)) (msg (schema_of F) m) zs b with
  | MOk zs' => exists xs', fst (Unmarshal (generate F) b (ptr m xs) s) = Returns (ptr m xs', None) /\
      map norm xs' = map norm zs' /\ forallb fresh xs' = true /\ wts (generate F) (VStruct xs') (SNamed m) = true
  | MBad => exists x e, fst (Unmarshal (generate F) b (ptr m xs) s) = Returns (IPtr (SNamed m) (Some x), Some e)
  | MFuel => False
  end.
Proof. exact generated_merge_proof. Qed.
Print Assumptions generated_merge_partial.
(** For every input, as the library takes it (SpecLib.v). *)
Theorem generated_reads : forall F, covered F = true -> forall s m xs zs b, reachable (generate F) s ->
  wts (generate F) (VStruct xs) (SNamed m) = true -> forallb fresh xs = true -> map norm xs = map norm zs ->
  bytes_okb b = true -> (zlen b < 2^63)%Z ->
  match merge_lib (schema_of F) (S (length b)) (msg (schema_of F) m) zs b with
  | MOk zs' => exists xs', fst (Unmarshal (generate F) b (ptr m xs) s) = Returns (ptr m xs', None) /\
      map norm xs' = map norm zs' /\ forallb fresh xs' = true /\ wts (generate F) (VStruct xs') (SNamed m) = true
  | MBad => exists x e, fst (Unmarshal (generate F) b (ptr m xs) s) = Returns (IPtr (SNamed m) (Some x), Some e)
  | MFuel => False
  end.
Proof. exact generated_lib_proof. Qed.
Print Assumptions generated_reads.
Example generated_wire_ex : covered bigF = true /\
  fst (Marshal (generate bigF) (ptr 0 [VI32 3; VOpt true (VI64 (-1)); VSlice true [VStr [65]] []; VMap (Some [(VStr [107], VStr [118; 118])]);
    VPtr None; VBytes (Some [1]); VSlice false [] []; VU32 7; VOther 4; VSlice true [VI32 5; VI32 0] []]) g_empty) =
  Returns (Some [8; 3; 16; 1; 26; 1; 65; 34; 7; 10; 1; 107; 18; 2; 118; 118; 50; 1; 1; 69; 7; 0; 0; 0; 88; 5; 88; 0], None).
Proof. vm_compute. repeat split. Qed.
(** That is exact: a field of a kind (not group) and a cardinality (not
    required) is covered, or its message is written other than specified. *)
Theorem kinds_exact : forall c pres k, c <> CardRequired -> k <> GroupKind -> (c = CardRepeated -> pres = false) ->
  valid (probe c pres k) = true /\ usable (probe c pres k) = true /\
  (covered (probe c pres k) = true \/ covered (probe c pres k) = false /\ deviates (probe c pres k)).
Proof. exact probe_exact_proof. Qed.
Print Assumptions kinds_exact.
Example kinds_exact_ex :
  filter (fun k => negb (covered (probe CardOptional false k))) scalars = [Sfixed32Kind; Sfixed64Kind] /\
  filter (fun k => negb (covered (probe CardOptional true k))) scalars = [Sfixed32Kind; Sfixed64Kind] /\
  filter (fun k => negb (covered (probe CardRepeated false k))) scalars = [Sfixed32Kind; Fixed32Kind; Sfixed64Kind; Fixed64Kind].
Proof. vm_compute. repeat split. Qed.
(** For maps, where covered excludes zigzag and fixed integers. *)
Theorem map_kinds_exact : forall kk vk, key_kind kk = true -> vk <> GroupKind ->
  valid (probe_map kk vk) = true /\ usable (probe_map kk vk) = true /\
  (covered (probe_map kk vk) = true \/ covered (probe_map kk vk) = false /\ deviates_map (probe_map kk vk)).
Proof. exact probe_map_exact_proof. Qed.
Print Assumptions map_kinds_exact.
Example map_kinds_exact_ex :
  filter (fun k => key_kind k && negb (covered (probe_map k StringKind))) scalars = [Sint32Kind; Sint64Kind; Sfixed32Kind; Fixed32Kind; Sfixed64Kind; Fixed64Kind] /\
  filter (fun k => negb (covered (probe_map StringKind k))) scalars = [Sint32Kind; Sint64Kind; Sfixed32Kind; Fixed32Kind; Sfixed64Kind; Fixed64Kind].
Proof. vm_compute. repeat split. Qed.
(** Two repeated fields sharing a Go type share a codec. *)
Theorem mixed_refuted : exists F, valid F = true /\ usable F = true /\ in_scope (schema_of F) = true /\ exists xs, miswritten (generate F) (schema_of F) xs.
Proof. exact (ex_intro _ mixF mix_proof). Qed.
Print Assumptions mixed_refuted.

(** C39. Messages which differ in members of oneofs only are encoded alike, and
    a record for a member is skipped by Unmarshal: oneofs are lost. *)
Theorem oneof_ignored : forall F, valid F = true -> usable F = true -> agreeing (schema_of F) = true ->
  forall s1 s2 i m fd xs ys b r tag k r1 p, reachable (generate F) s1 -> reachable (generate F) s2 ->
  nth_error F i = Some m -> In fd (m_fields m) -> oneof_member m fd = true ->
  (forall j n f, nth_error (msg (schema_of F) i) j = Some (Field n f) -> nth_error xs j = nth_error ys j) ->
  read_varint r = VOk tag k r1 -> read_payload (tag mod 8) r1 = Some (p, []) -> tag / 8 = d_number fd ->
  wts (generate F) (VStruct xs) (SNamed i) = true -> bytes_okb (r ++ b) = true -> (zlen (r ++ b) < 2^63)%Z ->
  fst (Size (generate F) (ptr i xs) s1) = fst (Size (generate F) (ptr i ys) s1) /\
  fst (Marshal (generate F) (ptr i xs) s1) = fst (Marshal (generate F) (ptr i ys) s1) /\
  fst (Unmarshal (generate F) (r ++ b) (ptr i xs) s1) = fst (Unmarshal (generate F) b (ptr i xs) s2).
Proof. exact oneof_proof. Qed.
Print Assumptions oneof_ignored.
Example oneof_ignored_ex : valid eventF = true /\ usable eventF = true /\ agreeing (schema_of eventF) = true /\
  msg (schema_of eventF) 0 = [Field 1 (FImplicit Y_int32); Hidden TOther; Hidden TOther] /\
  fst (Unmarshal (generate eventF) [18; 2; 104; 105; 8; 7] (ptr 0 [VI32 0; VOther 5; VOther 0]) g_empty) = Returns (ptr 0 [VI32 7; VOther 5; VOther 0], None).
Proof. vm_compute. repeat split. Qed.
(** The same for every field without a tag, of every struct. *)
Theorem untagged_ignored : forall D, supported D = true -> forall s i gs xs ys, reachable D s -> nth_error D i = Some gs ->
  (forall j g, nth_error gs j = Some g -> tagged g = true -> nth_error xs j = nth_error ys j) ->
  fst (Size D (ptr i xs) s) = fst (Size D (ptr i ys) s) /\ fst (Marshal D (ptr i xs) s) = fst (Marshal D (ptr i ys) s).
Proof. exact hidden_proof. Qed.
Print Assumptions untagged_ignored.
Theorem oneof_refuted : exists xs ys b, wts (generate eventF) (VStruct xs) (SNamed 0) = true /\ xs <> ys /\
  fst (Marshal (generate eventF) (ptr 0 xs) g_empty) = Returns (Some b, None) /\
  fst (Marshal (generate eventF) (ptr 0 ys) g_empty) = Returns (Some b, None) /\
  wts (generate eventF) (VStruct ys) (SNamed 0) = true.
Proof. exact event_lost. Qed.
Print Assumptions oneof_refuted.
