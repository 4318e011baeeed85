(** What callers are told about wrong arguments and struct tags. *)
From Coq Require Import String.
From Verif Require Import Base GoType Api SpecTag ArgText.
Local Open Scope string_scope.

(** The Go type of an argument; none if it is nil without a type. *)
Inductive has_type : iface -> option rtype -> Prop :=
| ty_nil : has_type INil None
| ty_other t : elem_of t = None -> has_type INonPtr (Some t)
| ty_pointer t e n : elem_of t = Some e -> struct_kind e = false -> has_type (IPtrOther n) (Some t)
| ty_struct t e k p : elem_of t = Some e -> struct_kind e = true -> has_type (IPtr k p) (Some t).

(** How a type reads: a pointer type without a name is a star and the type it
    points to, any other type has a text of its own; no type reads as nil in
    angle brackets. *)
Inductive reads_as : rtype -> string -> Prop :=
| reads_pointer e w : reads_as e w -> reads_as (RPtr e) ("*" ++ w)
| reads_name w e : reads_as (RNamedPtr w e) w
| reads_struct w : reads_as (RStruct w) w
| reads_other w : reads_as (ROther w) w.
Inductive arg_reads : option rtype -> string -> Prop :=
| reads_nil : arg_reads None "<nil>"
| reads_type t w : reads_as t w -> arg_reads (Some t) w.

(** What can be wrong with the argument of Unmarshal, and how that is put. *)
Inductive fault := NotAPointer | NotToStruct | NilPointer.
Definition fault_words (f : fault) : string :=
  match f with NotAPointer => "non-pointer" | NotToStruct => "bad pointer" | NilPointer => "nil " end.
Definition fault_of (v : iface) : option fault :=
  match v with
  | INil => None
  | INonPtr => Some NotAPointer
  | IPtrOther _ => Some NotToStruct
  | IPtr _ None => Some NilPointer
  | IPtr _ (Some _) => None
  end.

(** A text that is not the numeral of an int because the number is too large: an
    integer outside of 64 bits, or anything that starts like an integer whose
    digits alone exceed 64 bits. *)
Definition too_large (s : string) : Prop :=
  (exists z, int_value s = Some z /\ ~ (- 2^63 <= z < 2^63)%Z) \/
  (exists sign d rest n, In sign [""; "+"; "-"] /\ s = sign ++ d ++ rest /\ nat_value d = Some n /\ (2^64 <= n)%Z).
