(** Where an error of decoding comes from, in terms of the bytes only. *)
From Verif Require Import Base SpecWire.
Local Open Scope N_scope.

(** The payload of a record of a wire type at the front of some bytes. *)
Inductive payload_at (r : list N) : N -> list N -> Prop :=
| PA_varint v n r' : read_varint r = VOk v n r' -> payload_at r 0 (firstn n r)
| PA_fixed64 : (8 <= length r)%nat -> payload_at r 1 (firstn 8 r)
| PA_length l n r' : read_varint r = VOk l n r' -> l <= N.of_nat (length r') -> payload_at r 2 (firstn (n + N.to_nat l) r)
| PA_fixed32 : (4 <= length r)%nat -> payload_at r 5 (firstn 4 r).
(** There is none. *)
Inductive missing (r : list N) : N -> err -> Prop :=
| M_varint_end wt : wt = 0 \/ wt = 2 -> read_varint r = VEof -> missing r wt ErrUnexpectedEOF
| M_varint_long wt k : wt = 0 \/ wt = 2 -> read_varint r = VOverflow k -> missing r wt ErrVarintOverflow
| M_length l n r' : read_varint r = VOk l n r' -> N.of_nat (length r') < l -> missing r 2 ErrUnexpectedEOF
| M_fixed64 : (length r < 8)%nat -> missing r 1 ErrUnexpectedEOF
| M_fixed32 : (length r < 4)%nat -> missing r 5 ErrUnexpectedEOF
| M_unknown wt : wt <> 0 -> wt <> 1 -> wt <> 2 -> wt <> 5 -> missing r wt ErrWireTypeUnknown.
(** A payload from which no value of some type can be read: it does not contain
    a varint, a length with so many bytes after it, or the four or eight bytes
    of a number. *)
Inductive unreadable (pl : list N) : err -> Prop :=
| U_end : read_varint pl = VEof -> unreadable pl ErrUnexpectedEOF
| U_long k : read_varint pl = VOverflow k -> unreadable pl ErrVarintOverflow
| U_length l n r : read_varint pl = VOk l n r -> N.of_nat (length r) < l -> unreadable pl ErrUnexpectedEOF
| U_fixed : (length pl < 8)%nat -> unreadable pl ErrUnexpectedEOF.

(** The error [e] belongs to the bytes [b]: somewhere in them starts a tag that
    is cut short or too long; or a tag whose number and wire type the error
    carries, and what it carries inside belongs to the payload of that record:
    the payload is missing, another wire type was expected, the payload is not
    readable, or the inner error belongs to the bytes after the length. *)
Inductive traced : list N -> err -> Prop :=
| TR_tag_end p q : q <> [] -> read_varint q = VEof -> traced (p ++ q) ErrUnexpectedEOF
| TR_tag_long p q k : read_varint q = VOverflow k -> traced (p ++ q) ErrVarintOverflow
| TR_field p q tag k r e : read_varint q = VOk tag k r -> traced_field r (tag mod 8) e ->
    traced (p ++ q) (UnmarshalFieldError (Z.of_N (tag / 8)) (Z.of_N (tag mod 8)) e)
with traced_field : list N -> N -> err -> Prop :=
| TF_missing r wt e : missing r wt e -> traced_field r wt e
| TF_type r wt w : w <> wt -> traced_field r wt (ErrExpectedWireType w)
| TF_value r wt pl e : payload_at r wt pl -> unreadable pl e -> traced_field r wt e
| TF_inside r wt pl l n inner e : payload_at r wt pl -> read_varint pl = VOk l n inner -> traced inner e -> traced_field r wt e.
