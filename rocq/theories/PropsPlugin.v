(** Property theorems about the protoc plugin: struct tags as text, the
    declarations of a file, getters of oneof members. *)
From Coq Require Import String Ascii Permutation.
From Verif Require Import Base GoType Typing ProtoGen SpecProto ProtoThms RefuteMsg StructTag SpecStructTag StructTagFacts
  GenFile SpecGenFile GenFileFacts GenGetter SpecGetter GetterFacts RefutePlugin.
Local Open Scope list_scope.

(** C44. Struct tags written as a Go raw string literal and looked up by
    reflect give every key the value of the first tag with it. *)
Theorem tags_survive : forall ts, good_tags ts = true ->
  exists tag, raw_literal (tagsString ts) = Some tag /\
  forall key, Lookup tag key = match value_of ts key with Some v => Found v | None => Missing end.
Proof. exact tags_survive_proof. Qed.
Print Assumptions tags_survive.
Example tags_survive_ex :
  let ts := [("protobuf", String (ascii_of_N 96) (String (ascii_of_N 34) (String (ascii_of_N 92) (String (ascii_of_N 10) "x"))));
             ("go", ""); ("protobuf", "second")]%string in
  good_tags ts = true /\ value_of ts "go" = Some ""%string /\ value_of ts "proto" = None /\
  exists tag, raw_literal (tagsString ts) = Some tag /\ String.length tag = 46%nat.
Proof. vm_compute. repeat split. eexists. split; reflexivity. Qed.
(** Lookup ends on every text. *)
Theorem lookup_terminates : forall tag key, Lookup tag key <> LookupFuel.
Proof. exact lookup_ends. Qed.
Print Assumptions lookup_terminates.
(** The library sees each generated field with the very tags the plugin meant
    ([genMessageField] is what the theorems of C25, C26 and C39 are about);
    [name] is the name of the oneof if it is a member of one. *)
Theorem generated_field_seen : forall F m before fd g c name tracked, ascii_text name = true ->
  genMessageField F m before fd = (Some g, c) ->
  reflect_field true (tagsString (match real_oneof m fd with Some _ => oneofTags name tracked | None => fieldTags F fd tracked end)) (gf_type g) = Some g.
Proof. exact generated_seen_proof. Qed.
Print Assumptions generated_field_seen.
Theorem wrapper_field_seen : forall fd tracked t, reflect_field true (tagsString (wrapperTags fd tracked)) t =
  Some {| gf_exported := true; gf_tag := Some (fieldProtobufTagValue fd); gf_key := ""; gf_val := ""; gf_type := t |}.
Proof. exact wrapper_seen_proof. Qed.
Print Assumptions wrapper_field_seen.
Example generated_field_ex : exists g c, genMessageField bigF (nth 0 bigF no_message) [] (nth 3 (m_fields (nth 0 bigF no_message)) (plain_field 1 BoolKind)) = (Some g, c) /\
  gf_tag g = Some "bytes,4,rep"%string /\ gf_key g = "bytes,1,opt"%string /\ gf_val g = "bytes,2,opt"%string.
Proof. eexists _, _. split; [vm_compute; reflexivity|]. repeat split. Qed.

(** C45. All messages of a file, however deep, once each, and containing
    messages before contained ones; likewise enums. *)
Theorem every_message_once : forall f, Permutation (allMessages f) (tree f).
Proof. exact all_messages_proof. Qed.
Print Assumptions every_message_once.
Theorem messages_exact : forall f m, In m (allMessages f) <-> inside f m.
Proof. exact (fun f m => iff_sym (inside_all f m)). Qed.
Print Assumptions messages_exact.
Theorem enums_exact : forall f e, In e (allEnums f) <-> enum_of f e.
Proof. exact (fun f e => iff_sym (enum_all f e)). Qed.
Print Assumptions enums_exact.
Theorem parents_first : forall f l1 m l2, allMessages f = l1 ++ m :: l2 ->
  In m (f_messages f) \/ exists p, In p l1 /\ In m (g_nested p).
Proof. exact parents_first_proof. Qed.
Print Assumptions parents_first.
(** The file declares what its enums, messages and oneofs call for, plus what
    its public imports forward, and nothing else; ... *)
Theorem file_declares : forall files, ordered files -> forall i f, nth_error files i = Some f ->
  exists ds, GenerateFile files i = Some ds /\ forall d, In d ds <-> declares f d \/ forwards files f d.
Proof. exact generated_decls_proof. Qed.
Print Assumptions file_declares.
(** ... each as often as the file and its direct public imports have it. *)
Theorem file_names : forall files, ordered files -> forall i f, nth_error files i = Some f ->
  exists ds, GenerateFile files i = Some ds /\ Permutation (map g_ident ds) (concat (map (import_names files f) (f_imports f)) ++ own_names f).
Proof. exact generated_names_proof. Qed.
Print Assumptions file_names.
Example file_ex : let f := {| f_package := "p"; f_descriptor := "File_p"; f_imports := [pub 0]; f_enums := [{| e_name := "E"; e_values := [("E_A", 0); ("E_B", -1)]%Z |}];
    f_messages := [PMsg "A" false [{| o_synthetic := false; o_name := "A_x"; o_members := ["A_Y"] |}] []
                     [PMsg "A_E" true [] [] []; PMsg "A_B" false [] [{| e_name := "A_B_E"; e_values := [] |}] []]; plain_msg "C"] |}%string in
  let files := [file_of "a" [] [plain_msg "M"]; f] in
  ordered files /\ map g_name (allMessages f) = ["A"; "C"; "A_E"; "A_B"]%string /\
  option_map (map g_ident) (GenerateFile files 1) = Some ["M"; "E"; "E_A"; "E_B"; "A_B_E"; "A"; "isA_x"; "A_Y"; "C"; "A_B"]%string.
Proof. split; [apply ordered_dec; vm_compute; reflexivity|]. vm_compute. split; reflexivity. Qed.

(** C46. [file_declares] says what a public import gives access to: the names
    declared by the imported file itself. Not those it imports publicly in
    turn, ... *)
Theorem public_transitive_refuted : exists files, ordered files /\ exists i j f g d ds, public files i j /\
  nth_error files i = Some f /\ nth_error files j = Some g /\ f_package f <> f_package g /\ declares g d /\ upper (g_ident d) = true /\ g_ident d <> f_descriptor g /\
  GenerateFile files i = Some ds /\ ~ In (g_ident d) (map g_ident ds).
Proof. exact not_transitive_proof. Qed.
Print Assumptions public_transitive_refuted.
(** ... and the names can clash. *)
Theorem public_distinct_refuted : exists files, ordered files /\ (forall f, In f files -> NoDup (own_names f)) /\
  exists i ds, GenerateFile files i = Some ds /\ ~ NoDup (map g_ident ds).
Proof. exact clash_proof. Qed.
Print Assumptions public_distinct_refuted.

(** C47. Exactly the members of oneofs have getters; a getter returns the
    member's value if it is set, the default of its kind if the message is nil,
    another member is set, or none. *)
Theorem getter_exists : forall F m i x, getMember F m i x <> None <-> exists o, member_of m i o.
Proof. exact getter_exists_proof. Qed.
Print Assumptions getter_exists.
Theorem getter_returns_partial : forall F m i o y x, member_of m i o -> nth_error (y_fields m) i = Some y -> member_ok F y = true ->
  (forall v, holds x o i (Some v) -> getMember F m i x = Some (Some (Got v))) /\
  ((forall p, ~ holds x o i p) -> getMember F m i x = Some (Some (Got (kind_default y)))) /\
  (holds x o i None -> getMember F m i x = Some (Some NilDereference)).
Proof. exact getter_proof. Qed.
Print Assumptions getter_returns_partial.
(** The default has the type of the member. *)
Theorem getter_default_typed : forall D F y, member_ok F y = true -> wt D (kind_default y) (fst (fst (fieldGoType F (y_desc y)))) = true.
Proof. exact default_typed_proof. Qed.
Print Assumptions getter_default_typed.
Example getter_ex : member_of choice 1 0 /\ member_ok [] (member 2 EnumKind None) = true /\
  getMember [] choice 1 None = Some (Some (Got (VI32 7))) /\
  getMember [] choice 1 (Some (fun _ => Wrapper 0 (Some (VI32 3)))) = Some (Some (Got (VI32 7))) /\
  getMember [] choice 1 (Some (fun _ => Wrapper 1 (Some (VI32 3)))) = Some (Some (Got (VI32 3))).
Proof. split; [apply member_choice; repeat constructor|]. vm_compute. repeat split. Qed.
(** A nil pointer to a wrapper makes the getter panic. *)
Theorem getter_total_refuted : exists m i x, (exists o, member_of m i o) /\ getMember [] m i x = Some (Some NilDereference).
Proof. exact typed_nil_proof. Qed.
Print Assumptions getter_total_refuted.
(** A default declared in the .proto file is not returned. *)
Theorem getter_declared_refuted : exists m i y v, (exists o, member_of m i o) /\ nth_error (y_fields m) i = Some y /\ member_ok [] y = true /\
  getMember [] m i None = Some (Some (Got v)) /\ v <> field_default y.
Proof. exact declared_default_proof. Qed.
Print Assumptions getter_declared_refuted.

(** C48. Every generated struct has a field for which Go's == is not defined;
    the marker is added exactly when no other field is of that sort. *)
Theorem struct_incomparable : forall F m, valid F = true -> m_entry m = false -> incomparable (genMessage F m).
Proof. exact struct_incomparable_proof. Qed.
Print Assumptions struct_incomparable.
Theorem marker_exact : forall F m, valid F = true -> m_entry m = false ->
  genMessage F m = filter gf_exported (genMessage F m) ++
    (if forallb (fun g => comparable_type (gf_type g)) (filter gf_exported (genMessage F m)) then [marker_field] else []).
Proof. exact incomparable_proof. Qed.
Print Assumptions marker_exact.
Example struct_incomparable_ex :
  let m1 := {| m_entry := false; m_oneofs := []; m_fields := [plain_field 1 Int32Kind] |} in
  let m2 := {| m_entry := false; m_oneofs := []; m_fields := [plain_field 1 BytesKind] |} in
  valid [m1; m2] = true /\ length (genMessage [m1; m2] m1) = 2%nat /\ length (genMessage [m1; m2] m2) = 1%nat.
Proof. vm_compute. repeat split. Qed.
