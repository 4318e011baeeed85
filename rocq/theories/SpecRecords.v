(** For C81: inputs as sequences of records, and their order. *)
From Verif Require Import Base SpecWire SpecMsg.

(** The number of the field, if the bytes are one record: a tag and a value, in
    any encoding, and nothing else. *)
Definition record_of (c : list N) : option N :=
  match read_varint c with
  | VOk tag _ r => match read_payload (tag mod 8) r with Some (_, []) => Some (tag / 8)%N | _ => None end
  | _ => None
  end.
Definition records_only (l : list (list N)) : Prop := Forall (fun c => record_of c <> None) l.
Definition of_field (n : N) (c : list N) : bool :=
  match record_of c with Some n' => (n' =? n)%N | None => false end.
(** The same records, those of each field in the same order. *)
Definition same_order (l l' : list (list N)) : Prop := forall n, filter (of_field n) l = filter (of_field n) l'.

(** The same at any depth: also within messages and entries of maps in the input.
    [h]: a tag of field [n] for values with a length, and the length. *)
Definition head_of (n : N) (h : list N) (len : nat) : Prop :=
  exists k r k', read_varint h = VOk (8 * n + 2) k r /\ read_varint r = VOk (N.of_nat len) k' [].
Inductive arranged (sch : schema) : list sfld -> list N -> list N -> Prop :=
| ar_order fs l l' : records_only l -> records_only l' -> same_order l l' -> arranged sch fs (concat l) (concat l')
| ar_message fs n f sub l h b b' r : records_only l -> In (Field n f) fs -> (f = FMessage sub \/ f = FRepeated (FMessage sub)) ->
    head_of n h (length b) -> arranged sch (msg sch sub) b b' -> arranged sch fs (concat l ++ h ++ b ++ r) (concat l ++ h ++ b' ++ r)
| ar_entry fs n k e l h b b' r : records_only l -> In (Field n (FMap k e)) fs ->
    head_of n h (length b) -> arranged sch [Field 1 (FAlways k); Field 2 e] b b' -> arranged sch fs (concat l ++ h ++ b ++ r) (concat l ++ h ++ b' ++ r)
| ar_trans fs a b c : arranged sch fs a b -> arranged sch fs b c -> arranged sch fs a c.
