(** Protobuf messages without a schema, groups included, and the last value of
    a field. *)
From Verif Require Import Base SpecWire.

Inductive value :=
| XVar (n : N) | X64 (p : bytes) | XLen (p : bytes) | XGroup (fs : list (N * value)) | X32 (p : bytes).
(** Bytes of a varint, not necessarily the shortest. *)
Definition varint_bytes (b : bytes) (n : N) : Prop := vgroup b = Some (b, []) /\ (length b <= 10)%nat /\ vvalue b = n /\ (n < 2^64)%N.
(** [fields d fs b]: the bytes hold the fields, with at most [d + 1] groups
    inside each other. *)
Inductive holds_value : Z -> N -> value -> N -> bytes -> Prop :=
| hv_var d num n b : varint_bytes b n -> holds_value d num (XVar n) 0 b
| hv_64 d num p : length p = 8%nat -> holds_value d num (X64 p) 1 p
| hv_len d num p l : varint_bytes l (N.of_nat (length p)) -> holds_value d num (XLen p) 2 (l ++ p)
| hv_group d num fs b e : (0 <= d)%Z -> fields (d - 1) fs b -> varint_bytes e (num * 8 + 4) -> holds_value d num (XGroup fs) 3 (b ++ e)
| hv_32 d num p : length p = 4%nat -> holds_value d num (X32 p) 5 p
with fields : Z -> list (N * value) -> bytes -> Prop :=
| hv_nil d : fields d [] []
| hv_cons d num x typ t b fs r : (1 <= num < 2^31)%N -> varint_bytes t (num * 8 + typ) -> holds_value d num x typ b -> fields d fs r ->
    fields d ((num, x) :: fs) (t ++ b ++ r).
(** The last varint of a field, as a bool; false if there is none. *)
Definition flag (num : N) (fs : list (N * value)) : bool :=
  fold_left (fun f x => match x with (n, XVar v) => if (n =? num)%N then negb (v =? 0)%N else f | _ => f end) fs false.
