(** What the text of a protobuf struct tag means, independent of the parser:
    "kind,number,opt|rep[,...]". Decimal numerals are those of the standard
    library. *)
From Coq Require Import String Ascii DecimalString.
From Verif Require Import Base.
Local Open Scope string_scope.

(** The decimal numeral of a number. *)
Definition numeral (n : N) : string := NilZero.string_of_uint (N.to_uint n).

(** The six kinds: wire type and zigzag flag. *)
Definition kinds : list (string * (N * bool)) :=
  [("varint", (0%N, false)); ("bytes", (2%N, false)); ("fixed32", (5%N, false)); ("fixed64", (1%N, false));
   ("zigzag32", (0%N, true)); ("zigzag64", (0%N, true))].

Definition has_comma (s : string) : Prop := exists a b, s = a ++ "," ++ b.

(** What may follow the third item. *)
Definition tail_ok (s : string) : bool :=
  match s with EmptyString => true | String c _ => Ascii.eqb c ","%char end.

(** An optional sign and at least one digit. *)
Definition is_digit (c : ascii) : bool := (48 <=? N_of_ascii c)%N && (N_of_ascii c <=? 57)%N.
Fixpoint all_digits (s : string) : bool :=
  match s with EmptyString => true | String c r => is_digit c && all_digits r end.
Definition is_numeral (s : string) : bool := match s with EmptyString => false | _ => all_digits s end.
Definition is_signed_numeral (s : string) : bool :=
  match s with
  | String "-" r | String "+" r => is_numeral r
  | _ => is_numeral s
  end.

(** The integer that a text denotes: an optional sign and a numeral. *)
Definition nat_value (s : string) : option Z := option_map (fun u => Z.of_N (N.of_uint u)) (NilZero.uint_of_string s).
Definition int_value (s : string) : option Z :=
  match s with
  | String "-" r => option_map Z.opp (nat_value r)
  | String "+" r => nat_value r
  | _ => nat_value s
  end.

(** What a tag text means: wire type, zigzag flag, number (an int converted to
    a uint) and whether it is repeated. The last items may be missing. *)
Definition denotes_tag (s : string) (wire : N) (zigzag : bool) (num : N) (rep : bool) : Prop :=
  exists k r, s = k ++ r /\ In (k, (wire, zigzag)) kinds /\
  (r = "" /\ num = 0%N /\ rep = false \/
   exists text z r', r = "," ++ text ++ r' /\ int_value text = Some z /\ (- 2^63 <= z < 2^63)%Z /\ num = Z.to_N (z mod 2^64) /\
   (r' = "" /\ rep = false \/
    exists tail, tail_ok tail = true /\ r' = "," ++ (if rep then "rep" else "opt") ++ tail)).
