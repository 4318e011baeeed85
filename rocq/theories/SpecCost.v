(** How much memory a message occupies, and what a byte of input may cost.
    Nothing here refers to codecs. *)
From Verif Require Import Base GoType Walker.
Local Open Scope Z_scope.

Definition total (l : list Z) : Z := fold_right Z.add 0 l.

(** Bytes a value occupies on a 64-bit machine, everything it points to
    included and rounded up: a scalar one word, a string two words and a slice
    three words besides their contents, the memory between the length and the
    capacity of a slice included, one word on top for an option or a struct.
    A map is its entries; what the hash table needs besides is not counted. A
    field of a type without codec is counted as one word. *)
Fixpoint mem (v : val) : Z :=
  match v with
  | VStr b => 16 + zlen b
  | VBytes o => 24 + match o with Some b => zlen b | None => 0 end
  | VOpt _ x => 8 + mem x
  | VSlice _ items spare => 24 + total (map mem items) + total (map mem spare)
  | VMap o => 8 + match o with Some l => total (map (fun kv => match kv with (k, x) => mem k + mem x end) l) | None => 0 end
  | VPtr o => 8 + match o with Some x => mem x | None => 0 end
  | VStruct fs => 8 + total (map mem fs)
  | _ => 8
  end.

(** What a byte of input may cost: it depends on the declarations alone, on the
    number of fields of the largest struct and on how deeply pointers and
    slices are nested in the type of a field. *)
Definition per_byte (D : decls) : Z :=
  1202 + 500 * Z.of_nat (decls_depth D) + 48 * Z.of_nat (decls_width D).

(** How many values a message consists of, itself included. What two pointers
    point to is counted twice. *)
Fixpoint values (v : val) : Z :=
  1 + match v with
      | VOpt _ x => values x
      | VSlice _ items _ => total (map values items)
      | VMap (Some l) => total (map (fun kv => match kv with (k, x) => values k + values x end) l)
      | VPtr (Some x) => values x
      | VStruct fs => total (map values fs)
      | _ => 0
      end.
(** How many messages and maps lie within each other at most. *)
Definition largest (l : list Z) : Z := fold_right Z.max 0 l.
Fixpoint nesting (v : val) : Z :=
  match v with
  | VSlice _ items _ => largest (map nesting items)
  | VMap (Some l) => 1 + largest (map (fun kv => match kv with (k, x) => Z.max (nesting k) (nesting x) end) l)
  | VMap None => 1
  | VPtr (Some x) => nesting x
  | VStruct fs => 1 + largest (map nesting fs)
  | _ => 0
  end.
