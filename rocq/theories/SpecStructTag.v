(** What struct tags in Go source mean, independent of how they are written. *)
From Coq Require Import String Ascii.
From Verif Require Import Base.

Fixpoint all_chars (p : N -> bool) (s : string) : bool :=
  match s with EmptyString => true | String c s => p (N_of_ascii c) && all_chars p s end.
Definition ascii_text (s : string) : bool := all_chars (fun n => (n <? 128)%N) s.
(** Keys by Go's convention: printable, no space, colon, quote or backtick. *)
Definition good_key (k : string) : bool :=
  negb (String.eqb k EmptyString) &&
  all_chars (fun n => (33 <=? n)%N && (n <=? 126)%N && negb (n =? 34)%N && negb (n =? 58)%N && negb (n =? 96)%N) k.
Definition good_tags (ts : list (string * string)) : bool := forallb (fun t => good_key (fst t) && ascii_text (snd t)) ts.
(** The value of a key: that of the first tag with it. *)
Fixpoint value_of (ts : list (string * string)) (key : string) : option string :=
  match ts with
  | [] => None
  | (k, v) :: ts => if String.eqb key k then Some v else value_of ts key
  end.
