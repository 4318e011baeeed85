(** Specification of the protobuf wire format, independent of the model of the
    code: varints as base-128 digits, zigzag as the usual two-case formula,
    little-endian integers as positional sums, records, and parsing. *)
From Coq Require Export List ZArith NArith Bool.
Export ListNotations.
Local Open Scope N_scope.

(** ** Varints *)

(** The shortest base-128 representation, least significant group first, the
    high bit set on all bytes but the last. *)
Fixpoint vint_aux (fuel : nat) (n : N) : list N :=
  match fuel with
  | O => []
  | S fuel => if n <? 128 then [n] else (n mod 128 + 128) :: vint_aux fuel (n / 128)
  end.
Definition vint (n : N) : list N := vint_aux (S (N.size_nat n)) n.

(** The bytes up to and including the first one without the high bit. *)
Fixpoint vgroup (b : list N) : option (list N * list N) :=
  match b with
  | [] => None
  | c :: r =>
    if c <? 128 then Some ([c], r)
    else match vgroup r with Some (g, r') => Some (c :: g, r') | None => None end
  end.

(** The number a group of bytes stands for. *)
Fixpoint vvalue (g : list N) : N :=
  match g with
  | [] => 0
  | c :: r => c mod 128 + 128 * vvalue r
  end.

(** Reading a varint: at most ten bytes, and a value below 2^64. *)
Inductive vread :=
| VOk (v : N) (len : nat) (rest : list N)
| VEof
| VOverflow (len : nat).
Definition read_varint (b : list N) : vread :=
  match vgroup b with
  | None => VEof
  | Some (g, r) =>
    if (10 <? length g)%nat || (2^64 <=? vvalue g) then VOverflow (length g)
    else VOk (vvalue g) (length g) r
  end.

(** ** ZigZag *)
Definition zigzag (z : Z) : N :=
  if (z <? 0)%Z then Z.to_N (-2 * z - 1) else Z.to_N (2 * z).
Definition unzigzag (n : N) : Z :=
  if N.even n then Z.of_N (n / 2) else (- Z.of_N (n / 2) - 1)%Z.

(** ** Little-endian *)
Fixpoint le_bytes (count : nat) (n : N) : list N :=
  match count with
  | O => []
  | S k => n mod 256 :: le_bytes k (n / 256)
  end.
Fixpoint le_value (b : list N) : N :=
  match b with
  | [] => 0
  | c :: r => c + 256 * le_value r
  end.

(** ** Records *)
Inductive payload :=
| PVar (n : N)           (* wire type 0 *)
| PFix64 (n : N)         (* wire type 1 *)
| PLen (b : list N)      (* wire type 2 *)
| PFix32 (n : N).        (* wire type 5 *)
Definition record := (N * payload)%type.

Definition wire_of (p : payload) : N :=
  match p with PVar _ => 0 | PFix64 _ => 1 | PLen _ => 2 | PFix32 _ => 5 end.

Definition ser_payload (p : payload) : list N :=
  match p with
  | PVar n => vint n
  | PFix64 n => le_bytes 8 n
  | PLen b => vint (N.of_nat (length b)) ++ b
  | PFix32 n => le_bytes 4 n
  end.
Definition ser_rec (r : record) : list N :=
  vint (8 * fst r + wire_of (snd r)) ++ ser_payload (snd r).
Definition ser (rs : list record) : list N := concat (map ser_rec rs).

(** The varint [tag] starts somewhere in [b]. *)
Definition occurs (b : list N) (tag : N) : Prop := exists p q k r, b = p ++ q /\ read_varint q = VOk tag k r.
