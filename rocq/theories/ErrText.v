(** Model of the texts of errors (proto/error.go, decode.go:16, struct.go:100)
    and of errors.Is and errors.Unwrap on them. *)
From Coq Require Import String DecimalString.
From Verif Require Import Base.
Local Open Scope string_scope.

(** The verb d of package fmt for an int. *)
Definition fmt_d (z : Z) : string := NilZero.string_of_int (Z.to_int z).
(** Error() of the errors that Unmarshal returns for its input. The other
    errors speak of the Go type of the argument and are not modelled. *)
Fixpoint error_text (e : err) : option string :=
  match e with
  | ErrUnexpectedEOF => Some "unexpected EOF"                                  (* io *)
  | ErrVarintOverflow => Some "varint overflowed 64 bits integer"              (* decode.go:16 *)
  | ErrWireTypeUnknown => Some "unknown wire type"                             (* error.go:9 *)
  | ErrExpectedWireType w => Some ("expected wire type " ++ fmt_d (Z.of_N w))  (* struct.go:100 *)
  | UnmarshalFieldError n t e =>                                               (* error.go:17-19 *)
    option_map (fun s => "field number " ++ fmt_d n ++ " with wire type " ++ fmt_d t ++ ": " ++ s) (error_text e)
  | InvalidUnmarshalError | ErrNotAPointer | ErrShortRead => None
  end.
(** error.go:21; the other errors have no Unwrap method. *)
Definition unwrap (e : err) : option err := match e with UnmarshalFieldError _ _ e => Some e | _ => None end.
(** errors.Is (library) for a target that is a package variable: compares
    along the chain of Unwrap. *)
Fixpoint errors_is (e target : err) : bool :=
  match e, target with
  | UnmarshalFieldError _ _ e, _ => errors_is e target
  | ErrUnexpectedEOF, ErrUnexpectedEOF | ErrVarintOverflow, ErrVarintOverflow | ErrWireTypeUnknown, ErrWireTypeUnknown => true
  | _, _ => false
  end.
