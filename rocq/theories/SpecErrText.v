(** Errors of decoding as a path of fields and a cause. *)
From Coq Require Import String DecimalString.
From Verif Require Import Base.
(** What went wrong. *)
Inductive cause := C_eof | C_overflow | C_unknown | C_expected (w : N).
Definition cause_error (c : cause) : err :=
  match c with C_eof => ErrUnexpectedEOF | C_overflow => ErrVarintOverflow | C_unknown => ErrWireTypeUnknown | C_expected w => ErrExpectedWireType w end.
(** Where: numbers and wire types of the fields, from the outside in. *)
Fixpoint located (path : list (Z * Z)) (c : cause) : err :=
  match path with [] => cause_error c | (n, t) :: path => UnmarshalFieldError n t (located path c) end.
(** The message a reader gets: one phrase for every field, from the outside
    in, and the cause, joined by a colon and a space. *)
Definition decimal (z : Z) : string := NilZero.string_of_int (Z.to_int z).
Definition cause_phrase (c : cause) : string :=
  match c with
  | C_eof => "unexpected EOF"
  | C_overflow => "varint overflowed 64 bits integer"
  | C_unknown => "unknown wire type"
  | C_expected w => "expected wire type " ++ decimal (Z.of_N w)
  end%string.
Definition field_phrase (f : Z * Z) : string := ("field number " ++ decimal (fst f) ++ " with wire type " ++ decimal (snd f))%string.
Definition message (path : list (Z * Z)) (c : cause) : string := String.concat ": " (List.app (map field_phrase path) [cause_phrase c]).
