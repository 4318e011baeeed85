(** What it means that a message does not share memory with a buffer. *)
From Verif Require Import Base GoType Api Alias.

(** The references of a message: byte slices (also those beyond the length of a
    repeated field), strings, and values without references. *)
Inductive item := IBytes (s : slice) | IStr (s : slice) | IVal (v : val).

Fixpoint items_of (v : mval) : list item :=
  match v with
  | MLeaf v => [IVal v]
  | MStr s => [IStr s]
  | MBytes (Some s) => [IBytes s]
  | MBytes None => []
  | MOpt _ x => items_of x
  | MSlice _ items spare => flat_map items_of items ++ flat_map items_of spare
  | MMap (Some l) => flat_map (fun kv => match kv with (k, x) => items_of k ++ items_of x end) l
  | MMap None => []
  | MPtr (Some x) => items_of x
  | MPtr None => []
  | MStruct fs => flat_map items_of fs
  end.

(** A slice without capacity refers to no memory. *)
Definition slice_ids (s : slice) : list nat := if (cp s =? 0)%nat then [] else [ar s].

(** The arrays of the byte slices (their owner may write them) and of the
    strings (nobody writes them). *)
Definition bytes_ids (l : list item) : list nat :=
  flat_map (fun i => match i with IBytes s => slice_ids s | _ => [] end) l.
Definition str_ids (l : list item) : list nat :=
  flat_map (fun i => match i with IStr s => slice_ids s | _ => [] end) l.

(** A slice inside its array. *)
Definition slice_ok (M : mem) (s : slice) : Prop :=
  (ln s <= cp s)%nat /\ (off s + cp s <= length (array M (ar s)))%nat.

(** Values that hold no reference. *)
Definition plain (v : val) : bool :=
  match v with
  | VBool _ | VI32 _ | VI64 _ | VU32 _ | VU64 _ | VF32 _ | VF64 _ | VOther _ => true
  | _ => false
  end.
Definition item_ok (M : mem) (i : item) : Prop :=
  match i with
  | IBytes s | IStr s => slice_ok M s
  | IVal v => plain v = true
  end.

(** No two byte slices share an array, and none shares one with a string. *)
Definition separate (l : list item) : Prop :=
  NoDup (bytes_ids l) /\ forall a, In a (bytes_ids l) -> ~ In a (str_ids l).

Definition owned (M : mem) (v : mval) : Prop :=
  Forall (item_ok M) (items_of v) /\ separate (items_of v).

(** The buffer is no memory of the message. *)
Definition apart (b : slice) (v : mval) : Prop :=
  ~ In (ar b) (bytes_ids (items_of v)) /\ ~ In (ar b) (str_ids (items_of v)).

(** A slice of allocated memory. *)
Definition allocated (M : mem) (b : slice) : Prop := (ar b < length M)%nat /\ slice_ok M b.

(** Two memories that may only differ in one array. *)
Definition same_except (a : nat) (M M' : mem) : Prop :=
  forall a', a' <> a -> array M' a' = array M a'.

(** What the caller sees of a call on memory. *)
Definition amap {A B} (f : A -> B) (r : api A) : api B :=
  match r with Returns a => Returns (f a) | Panics c => Panics c | Diverges => Diverges end.
Definition seen (k : skey) (r : mval * mem * option err) : iface * option err :=
  match r with (x, M, e) => (IPtr k (Some (denote M x)), e) end.
