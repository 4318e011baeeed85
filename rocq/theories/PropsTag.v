(** Property theorems about struct tags. *)
From Coq Require Import String.
From Verif Require Import Base Wire GoType Tag SpecTag TagFacts TagMore.
Local Open Scope string_scope.

(** C34. The tag texts of the documented form, with numbers up to 2^63. *)
Theorem tag_parsed : forall k w z n (rep : bool) tail, In (k, (w, z)) kinds -> (n < 2^63)%N -> tail_ok tail = true ->
  parseStructTag (k ++ "," ++ numeral n ++ "," ++ (if rep then "rep" else "opt") ++ tail) =
  ({| t_wire := w; t_num := n; t_rep := rep; t_zz := z |}, None).
Proof. exact parse_tag_ok. Qed.
Print Assumptions tag_parsed.
Example tag_parsed_ex : parseStructTag "zigzag64,536870911,rep,name=x,json=y,proto3,req" =
  ({| t_wire := 0; t_num := 536870911; t_rep := true; t_zz := true |}, None).
Proof. vm_compute. reflexivity. Qed.
(** All tag texts: exactly those with a meaning are accepted, with that meaning. *)
Theorem tag_accepted : forall s t, parseStructTag s = (t, None) <-> denotes_tag s (t_wire t) (t_zz t) (t_num t) (t_rep t).
Proof. exact accepted_proof. Qed.
Print Assumptions tag_accepted.
(** Which error is reported. *)
Theorem tag_bad_kind : forall k rest, ~ has_comma k -> ~ In k (map fst kinds) -> tail_ok rest = true ->
  snd (parseStructTag (k ++ rest)) = Some ErrTagWire.
Proof. exact bad_kind_proof. Qed.
Print Assumptions tag_bad_kind.
Theorem tag_bad_number : forall k w z s rest, In (k, (w, z)) kinds -> ~ has_comma s ->
  match int_value s with Some z => ~ (- 2^63 <= z < 2^63)%Z | None => True end -> tail_ok rest = true ->
  snd (parseStructTag (k ++ "," ++ s ++ rest)) = Some ErrTagNumber.
Proof. exact bad_number_proof. Qed.
Print Assumptions tag_bad_number.
Theorem tag_bad_option : forall k w z s n o rest, In (k, (w, z)) kinds -> int_value s = Some n -> (- 2^63 <= n < 2^63)%Z -> ~ has_comma o ->
  o <> "opt" -> o <> "rep" -> tail_ok rest = true -> snd (parseStructTag (k ++ "," ++ s ++ "," ++ o ++ rest)) = Some ErrTagOption.
Proof. exact bad_option_proof. Qed.
Print Assumptions tag_bad_option.
Example tag_bad_ex : snd (parseStructTag "group,1,opt") = Some ErrTagWire /\ snd (parseStructTag "varint,1x,opt") = Some ErrTagNumber /\
  snd (parseStructTag "varint,9223372036854775808,opt") = Some ErrTagNumber /\ snd (parseStructTag "varint,1,req") = Some ErrTagOption.
Proof. vm_compute. repeat split. Qed.

(** C42. Texts that are no numerals of an int are rejected (tag_bad_number), but
    numbers that no field can have are accepted. *)
Theorem tag_number_range_refuted :
  (exists t, parseStructTag "varint,0,opt" = (t, None)) /\ (exists t, parseStructTag "varint" = (t, None)) /\
  (exists t, parseStructTag "varint,-1,opt" = (t, None) /\ t_num t = (2^64 - 1)%N /\ tag_wiretag t = (2^64 - 8)%N) /\
  (exists t, parseStructTag "varint,2305843009213693953,opt" = (t, None) /\ tag_wiretag t = 8%N).
Proof. exact range_refuted. Qed.
Print Assumptions tag_number_range_refuted.
(** The tag of the synthesised entry type of a map parses back. *)
Theorem entry_tag_roundtrip : forall n w, (n < 2^61)%N -> In w [0; 1; 2; 5]%N ->
  parseStructTag (formatWireTag (8 * n + w)) = ({| t_wire := w; t_num := n; t_rep := false; t_zz := false |}, None).
Proof. exact parse_format. Qed.
Print Assumptions entry_tag_roundtrip.
Example entry_tag_ex : formatWireTag 21 = "fixed32,2,opt" /\ formatWireTag 11 = "unknown,1,opt".
Proof. vm_compute. split; reflexivity. Qed.
