(** Property theorems: what callers are told about wrong arguments and tags. *)
From Coq Require Import String.
From Verif Require Import Base GoType Tag Walker Api StructTag ErrText WalkSeq Typing SpecTag SpecErrText ArgText SpecArgText ArgTextFacts.
Local Open Scope string_scope.

(** C71. Unmarshal answers a wrong argument with an error, which says what is
    wrong and names the type; ... *)
Theorem invalid_argument : forall D b v t w s f, b <> [] -> has_type v (Some t) -> fault_of v = Some f -> reads_as t w ->
  Unmarshal D b v s = (Returns (v, Some InvalidUnmarshalError), s) /\ invalid_text (Some t) = "proto: Unmarshal(" ++ fault_words f ++ w ++ ")".
Proof. exact invalid_reads_proof. Qed.
Print Assumptions invalid_argument.
(** ... nothing else has this error; ... *)
Theorem invalid_only : forall D b v T s v', reachable D s -> (zlen b < 2^63)%Z -> (forall k x, v = IPtr k (Some x) -> user_key D k = true) -> has_type v T ->
  fst (Unmarshal D b v s) = Returns (v', Some InvalidUnmarshalError) -> exists f t, fault_of v = Some f /\ T = Some t /\ b <> [].
Proof. exact invalid_only_proof. Qed.
Print Assumptions invalid_only.
(** ... the text tells faults and types apart. *)
Theorem invalid_text_exact : forall v v' t t' f f' w w', has_type v (Some t) -> has_type v' (Some t') -> fault_of v = Some f -> fault_of v' = Some f' -> reads_as t w -> reads_as t' w' ->
  (invalid_text (Some t) = invalid_text (Some t') <-> f = f' /\ w = w').
Proof. exact text_reads_proof. Qed.
Print Assumptions invalid_text_exact.
(** Marshal answers an argument that is not a pointer with an error of its own,
    Size panics, both with the same text, which speaks of Marshal; ... *)
Theorem not_a_pointer : forall D v t w s, has_type v (Some t) -> elem_of t = None -> reads_as t w ->
  Marshal D v s = (Returns (None, Some ErrNotAPointer), s) /\ Size D v s = (Panics Unsupported, s) /\
  not_pointer_text (Some t) = "proto.Marshal(" ++ w ++ "): not a pointer".
Proof. exact not_pointer_proof. Qed.
Print Assumptions not_a_pointer.
(** ... Marshal has no other use for it. *)
Theorem not_a_pointer_only : forall D v T s r, has_type v T -> fst (Marshal D v s) = Returns (r, Some ErrNotAPointer) -> exists t, T = Some t /\ elem_of t = None /\ r = None.
Proof. exact not_pointer_only_proof. Qed.
Print Assumptions not_a_pointer_only.
(** Unmarshal never says that it has not read everything, whatever the types
    declared and the calls before; ... *)
Theorem short_read_never : forall D b v s v', reachable D s -> (zlen b < 2^63)%Z -> (forall k x, v = IPtr k (Some x) -> user_key D k = true) ->
  fst (Unmarshal D b v s) <> Returns (v', Some ErrShortRead) /\ fst (Unmarshal D b v s) <> Returns (v', Some ErrNotAPointer).
Proof. exact short_never_proof. Qed.
Print Assumptions short_read_never.
(** ... the text would be this. Every type reads in one way. *)
Theorem short_read_text : forall T w n l, arg_reads T w -> short_text T n l = "proto.Unmarshal(" ++ w ++ "): read=" ++ decimal n ++ " < buffer=" ++ decimal l.
Proof. exact short_text_proof. Qed.
Print Assumptions short_read_text.
Theorem reads_once : forall T, exists w, arg_reads T w /\ forall w', arg_reads T w' -> w' = w.
Proof. exact reads_proof. Qed.
Print Assumptions reads_once.
Example reads_ex : reads_as (RPtr (RPtr (RNamedPtr "pb.P" (RStruct "pb.A")))) "**pb.P" /\ short_text None (-3) 12 = "proto.Unmarshal(<nil>): read=-3 < buffer=12".
Proof. split; [exact (reads_pointer _ _ (reads_pointer _ _ (reads_name _ _)))|reflexivity]. Qed.
Example invalid_argument_ex :
  has_type INonPtr (Some (ROther "int")) /\ has_type (IPtrOther false) (Some (RPtr (ROther "int"))) /\ has_type (IPtr (SNamed 0) None) (Some (RPtr (RStruct "pb.A"))) /\
  invalid_text (Some (ROther "int")) = "proto: Unmarshal(non-pointerint)" /\
  invalid_text (Some (RPtr (ROther "int"))) = "proto: Unmarshal(bad pointer*int)" /\
  invalid_text (Some (RPtr (RStruct "pb.A"))) = "proto: Unmarshal(nil *pb.A)" /\
  not_pointer_text (Some (RStruct "pb.A")) = "proto.Marshal(pb.A): not a pointer".
Proof. repeat split; try (econstructor; reflexivity). Qed.
(** The text that InvalidUnmarshalError has for nil is never seen: the call
    panics instead. *)
Theorem nil_argument_refuted : exists b v, b <> [] /\ has_type v None /\ forall D s, Unmarshal D b v s = (Panics NilDeref, s).
Proof. exact nil_refuted_proof. Qed.
Print Assumptions nil_argument_refuted.

(** C72. A tag that is not accepted has a text ... *)
Theorem tag_text_exists : forall tag, tag_text tag = None <-> snd (parseStructTag tag) = None.
Proof. exact tag_text_iff. Qed.
Print Assumptions tag_text_exists.
(** ... which quotes it and names the first item that is wrong. *)
Theorem tag_kind_text : forall k rest, ~ has_comma k -> ~ In k (map fst kinds) -> tail_ok rest = true ->
  tag_text (k ++ rest) = Some ("unsupported wire type in struct tag " ++ Quote (k ++ rest) ++ ": " ++ k).
Proof. exact kind_text_proof. Qed.
Print Assumptions tag_kind_text.
Theorem tag_number_text : forall k w z s rest (large : bool), In (k, (w, z)) kinds -> ~ has_comma s ->
  match int_value s with Some z => ~ (- 2^63 <= z < 2^63)%Z | None => True end -> tail_ok rest = true -> (if large then too_large s else ~ too_large s) ->
  tag_text (k ++ "," ++ s ++ rest) = Some ("unsupported field number in struct tag " ++ Quote (k ++ "," ++ s ++ rest) ++ ": strconv.Atoi: parsing " ++
    Quote s ++ ": " ++ (if large then "value out of range" else "invalid syntax")).
Proof. exact number_text_proof. Qed.
Print Assumptions tag_number_text.
Theorem tag_option_text : forall k w z s n o rest, In (k, (w, z)) kinds -> int_value s = Some n -> (- 2^63 <= n < 2^63)%Z -> ~ has_comma o ->
  o <> "opt" -> o <> "rep" -> tail_ok rest = true ->
  tag_text (k ++ "," ++ s ++ "," ++ o ++ rest) = Some ("unsupported field option in struct tag " ++ Quote (k ++ "," ++ s ++ "," ++ o ++ rest) ++ ": " ++ o).
Proof. exact option_text_proof. Qed.
Print Assumptions tag_option_text.
Example tag_text_ex :
  tag_text "group,1,opt" = Some "unsupported wire type in struct tag ""group,1,opt"": group" /\
  tag_text "varint,1x,opt" = Some "unsupported field number in struct tag ""varint,1x,opt"": strconv.Atoi: parsing ""1x"": invalid syntax" /\
  tag_text "varint,-9223372036854775809" = Some "unsupported field number in struct tag ""varint,-9223372036854775809"": strconv.Atoi: parsing ""-9223372036854775809"": value out of range" /\
  tag_text "varint,18446744073709551616x" = Some "unsupported field number in struct tag ""varint,18446744073709551616x"": strconv.Atoi: parsing ""18446744073709551616x"": value out of range" /\
  tag_text "varint,18446744073709551615x" = Some "unsupported field number in struct tag ""varint,18446744073709551615x"": strconv.Atoi: parsing ""18446744073709551615x"": invalid syntax" /\
  tag_text "varint,1,req" = Some "unsupported field option in struct tag ""varint,1,req"": req" /\ tag_text "varint,1,rep" = None.
Proof. vm_compute. repeat split. Qed.
