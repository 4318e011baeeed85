(** What Size and Marshal give for every message of the types the generator
    makes, the library's deviations included. [records] of SpecMsg.v is what
    they should give. The deviations:
    - sfixed32 and sfixed64 are written as int32 and int64, under their own tags;
    - so are fixed32 and fixed64 in lists and maps, as uint32 and uint64;
    - a map without entries is written as one empty entry;
    - the length in front of a map entry is that of the key and of the value
      measured as a key, while Size, and the lengths in front of messages around
      it, count the entry as it should be. *)
From Verif Require Import Base GoType SpecWire SpecTag SpecMsg.

(** The fields that the generator makes struct fields for. *)
Definition made_elem (e : fty) : bool := match e with FAlways _ | FBytes | FMessage _ => true | _ => false end.
Definition made (f : fty) : bool :=
  match f with
  | FImplicit _ | FOptional _ | FBytes | FMessage _ => true
  | FRepeated e | FMap _ e => made_elem e
  | _ => false
  end.
Definition all_made (sch : schema) : bool := forallb made (fields_of sch).
Definition no_maps (sch : schema) : bool := forallb (fun f => match f with FMap _ _ => false | _ => true end) (fields_of sch).

(** The type as which a field, and an element of a list or map, is written. *)
Definition own (s : sty) : sty := match s with Y_sfixed32 => Y_int32 | Y_sfixed64 => Y_int64 | _ => s end.
Definition item (s : sty) : sty := match s with Y_fixed32 => Y_uint32 | Y_fixed64 => Y_uint64 | _ => own s end.

(** A size, and the bytes written; no bytes if memory is read at a wrong type. *)
Definition out : Type := N * option (list N).
Definition just (b : list N) : out := (N.of_nat (length b), Some b).
Definition join (a b : out) : out :=
  (fst a + fst b, match snd a, snd b with Some x, Some y => Some (x ++ y) | _, _ => None end)%N.
Definition joined (l : list out) : out := fold_right join (just []) l.

Definition tagged (n w : N) (b : list N) : list N := vint (8 * n + w) ++ b.
Definition header (n len : N) : list N := tagged n 2 (vint len).
Definition field (n : N) (s s' : sty) (v : val) : out := just (tagged n (wire_sty s) (ser_payload (pay s' v))).

(** The length that the value of a map entry, the bytes in memory at it, would
    have as a key. *)
Definition as_signed64 (n : N) : Z := if (n <? 2^63)%N then Z.of_N n else (Z.of_N n - 2^64)%Z.
Definition length_as_key (k : sty) (x : val) : option nat :=
  match item k with
  | Y_float => Some 4%nat
  | Y_double => Some 8%nat
  | Y_sint32 => match bits32 x with Some n => Some (length (vint (zigzag (as_signed n)))) | None => None end
  | Y_sint64 => match bits64 x with Some n => Some (length (vint (zigzag (as_signed64 n)))) | None => None end
  | s => key_length s x
  end.
(** An entry with key [a] and value [x]; one byte is the tag of the value. *)
Definition entry (n : N) (k : sty) (x : val) (a b : out) : out :=
  let body := join a b in
  (fst (join (just (header n (fst body))) body),
   match length_as_key k x with
   | Some l => snd (join (just (header n (fst a + N.of_nat (S l)))) body)
   | None => None
   end).

Section Schema.
Variable sch : schema.
Notation msg := (msg sch).

Fixpoint output (v : val) (n : N) (f : fty) {struct v} : out :=
  match f, v with
  | FImplicit s, _ => if is_zero v then just [] else field n s (own s) v
  | FAlways s, _ => field n s (item s) v
  | FOptional s, VOpt true x => field n s (own s) x
  | FBytes, VBytes (Some b) => just (tagged n 2 (ser_payload (PLen b)))
  | FMessage m, VPtr (Some (VStruct xs)) =>
    let fix all xs fs :=
      match xs, fs with
      | x :: xs, Field n f :: fs => join (output x n f) (all xs fs)
      | _ :: xs, Hidden _ :: fs => all xs fs
      | _, _ => just []
      end in
    let body := all xs (msg m) in join (just (header n (fst body))) body
  | FRepeated e, VSlice _ items _ => joined (map (fun x => output x n e) items)
  | FMap k e, VMap (None | Some []) => just (header n 0)
  | FMap k e, VMap (Some l) =>
    joined (map (fun kv => match kv with (a, x) => entry n k x (output a 1 (FAlways k)) (output x 2 e) end) l)
  | _, _ => just []
  end.
Fixpoint output_msg (xs : list val) (fs : list sfld) : out :=
  match xs, fs with
  | x :: xs, Field n f :: fs => join (output x n f) (output_msg xs fs)
  | _ :: xs, Hidden _ :: fs => output_msg xs fs
  | _, _ => just []
  end.

(** By how much the lengths in front of map entries are too long: Marshal writes
    that many bytes more than Size says. *)
Definition entry_skew (n : N) (k : sty) (x : val) (a b : out) : Z :=
  match length_as_key k x with
  | Some l => Z.of_nat (length (vint (fst a + N.of_nat (S l)))) - Z.of_nat (length (vint (fst a + fst b)))
  | None => 0
  end.
Definition total (l : list Z) : Z := fold_right Z.add 0%Z l.
Fixpoint skew (v : val) (n : N) (f : fty) {struct v} : Z :=
  match f, v with
  | FMessage m, VPtr (Some (VStruct xs)) =>
    let fix all xs fs :=
      match xs, fs with
      | x :: xs, Field n f :: fs => skew x n f + all xs fs
      | _ :: xs, Hidden _ :: fs => all xs fs
      | _, _ => 0
      end%Z in
    all xs (msg m)
  | FRepeated e, VSlice _ items _ => total (map (fun x => skew x n e) items)
  | FMap k e, VMap (Some l) =>
    total (map (fun kv => match kv with (a, x) => entry_skew n k x (output a 1 (FAlways k)) (output x 2 e) + skew x 2 e end%Z) l)
  | _, _ => 0%Z
  end.
Fixpoint skew_msg (xs : list val) (fs : list sfld) : Z :=
  match xs, fs with
  | x :: xs, Field n f :: fs => skew x n f + skew_msg xs fs
  | _ :: xs, Hidden _ :: fs => skew_msg xs fs
  | _, _ => 0
  end%Z.
End Schema.
