(** Orders in which maps are iterated: values that are equal up to the order of
    map entries, and encodings that are equal up to the order of entry records. *)
From Coq Require Import Permutation.
From Verif Require Import Base GoType SpecWire SpecMsg.

(** The same value, map entries visited in another order at any depth. *)
Inductive reorder : val -> val -> Prop :=
| ro_same v : reorder v v
| ro_slice nn a b spare : Forall2 reorder a b -> reorder (VSlice nn a spare) (VSlice nn b spare)
| ro_map a b c : Permutation a b -> Forall2 (fun p q => fst p = fst q /\ reorder (snd p) (snd q)) b c -> reorder (VMap (Some a)) (VMap (Some c))
| ro_ptr a b : reorder a b -> reorder (VPtr (Some a)) (VPtr (Some b))
| ro_struct a b : Forall2 reorder a b -> reorder (VStruct a) (VStruct b).

(** No map with two or more entries. *)
Fixpoint small (v : val) : bool :=
  match v with
  | VSlice _ items _ => forallb small items
  | VMap (Some l) =>
    match l with [] | [_] => forallb (fun kv => match kv with (_, x) => small x end) l | _ => false end
  | VPtr (Some x) => small x
  | VStruct xs => forallb small xs
  | _ => true
  end.

(** The records of a message, with records of the same map field exchanged, at
    any depth. *)
Inductive shuffle (sch : schema) : list sfld -> list record -> list record -> Prop :=
| sh_nil fs : shuffle sch fs [] []
| sh_same fs r a b : shuffle sch fs a b -> shuffle sch fs (r :: a) (r :: b)
| sh_sub fs n f sub a b c d : In (Field n f) fs ->
    (f = FMessage sub \/ f = FRepeated (FMessage sub)) -> shuffle sch (msg sch sub) c d ->
    shuffle sch fs a b -> shuffle sch fs ((n, PLen (ser c)) :: a) ((n, PLen (ser d)) :: b)
| sh_entry fs n k e a b c d : In (Field n (FMap k e)) fs -> shuffle sch [Field 1 (FAlways k); Field 2 e] c d ->
    shuffle sch fs a b -> shuffle sch fs ((n, PLen (ser c)) :: a) ((n, PLen (ser d)) :: b)
| sh_swap fs n k e p q a : In (Field n (FMap k e)) fs -> shuffle sch fs ((n, p) :: (n, q) :: a) ((n, q) :: (n, p) :: a)
| sh_trans fs a b c : shuffle sch fs a b -> shuffle sch fs b c -> shuffle sch fs a c.
