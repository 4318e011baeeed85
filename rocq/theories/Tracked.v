(** Model of isTrackedMessage (internal/generator/init.go:147-168), and of the
    functions of google.golang.org/protobuf/encoding/protowire it calls. *)
From Verif Require Import Base.
Local Open Scope Z_scope.

(** protowire's error codes, which are negative lengths (library). *)
Definition errCodeTruncated : Z := -1.
Definition errCodeFieldNumber : Z := -2.
Definition errCodeOverflow : Z := -3.
Definition errCodeReserved : Z := -4.
Definition errCodeEndGroup : Z := -5.
Definition errCodeRecursionDepth : Z := -6.
(** protowire.ConsumeVarint (library, unrolled there): [i] bytes have given
    [acc]. *)
Fixpoint consume_varint (i : Z) (acc : N) (b : bytes) : N * Z :=
  match b with
  | [] => (0%N, errCodeTruncated)
  | y :: b =>
    if i =? 9 then if (y <? 2)%N then ((acc + N.shiftl y 63)%N, 10) else (0%N, errCodeOverflow)
    else if (y <? 128)%N then ((acc + N.shiftl y (7 * Z.to_N i))%N, i + 1)
    else consume_varint (i + 1) (acc + N.shiftl (y - 128) (7 * Z.to_N i)) b
  end.
Definition ConsumeVarint (b : bytes) : N * Z := consume_varint 0 0 b.
(** protowire.DecodeTag, ConsumeTag (library): number, type, length. *)
Definition ConsumeTag (b : bytes) : N * N * Z :=
  let '(v, n) := ConsumeVarint b in
  if n <? 0 then (0%N, 0%N, n)
  else
    let num := N.shiftr v 3 in
    if ((2147483647 <? num) || (num <? 1))%N then (0%N, 0%N, errCodeFieldNumber)
    else (num, N.land v 7, n).
(** protowire.ConsumeBytes (library): the length only. *)
Definition consumeBytes (b : bytes) : Z :=
  let '(m, n) := ConsumeVarint b in
  if n <? 0 then n
  else if (Z.to_N (zlen b - n) <? m)%N then errCodeTruncated else n + Z.of_N m.
Definition drop (n : Z) (b : bytes) : bytes := skipn (Z.to_nat n) b.
(** protowire.ConsumeFieldValue's consumeFieldValueD and its loop over the
    fields of a group (library); [None]: out of fuel. *)
Fixpoint consumeFieldValueD (fuel : nat) (num typ : N) (b : bytes) (depth : Z) : option Z :=
  match fuel with
  | O => None
  | S fuel =>
    match typ with
    | 0%N => Some (snd (ConsumeVarint b))
    | 5%N => Some (if zlen b <? 4 then errCodeTruncated else 4)
    | 1%N => Some (if zlen b <? 8 then errCodeTruncated else 8)
    | 2%N => Some (consumeBytes b)
    | 3%N => if depth <? 0 then Some errCodeRecursionDepth else consumeGroup fuel num b depth (zlen b)
    | 4%N => Some errCodeEndGroup
    | _ => Some errCodeReserved
    end
  end
with consumeGroup (fuel : nat) (num : N) (b : bytes) (depth n0 : Z) : option Z :=
  match fuel with
  | O => None
  | S fuel =>
    let '(num2, typ2, n) := ConsumeTag b in
    if n <? 0 then Some n
    else
      let b := drop n b in
      if (typ2 =? 4)%N then Some (if (num =? num2)%N then n0 - zlen b else errCodeEndGroup)
      else
        match consumeFieldValueD fuel num2 typ2 b (depth - 1) with
        | None => None
        | Some n => if n <? 0 then Some n else consumeGroup fuel num (drop n b) depth n0
        end
  end.
Definition value_fuel (b : bytes) : nat := S (S (2 * length b)).
(** protowire.ConsumeFieldValue (library) *)
Definition ConsumeFieldValue (num typ : N) (b : bytes) : option Z := consumeFieldValueD (value_fuel b) num typ b 10000.

(** init.go:149 *)
Definition trackFieldUseFieldNumber : N := 37383685.
Inductive outcome := Tracked (t : bool) | SlicePanic | OutOfFuel.
(** init.go:154-166. [b[n:]] panics if n is negative or too large. *)
Fixpoint tracked_loop (fuel : nat) (tracked : bool) (b : bytes) : outcome :=
  match fuel with
  | O => OutOfFuel
  | S fuel =>
    match b with
    | [] => Tracked tracked
    | _ =>
      let '(num, typ, n) := ConsumeTag b in
      match from_ b n with
      | None => SlicePanic
      | Some b =>
        let tracked := if ((num =? trackFieldUseFieldNumber) && (typ =? 0))%N then negb (fst (ConsumeVarint b) =? 0)%N else tracked in
        match ConsumeFieldValue num typ b with
        | None => OutOfFuel
        | Some m => match from_ b m with None => SlicePanic | Some b => tracked_loop fuel tracked b end
        end
      end
    end
  end.
(** isTrackedMessage, init.go:147-168; [b]: the unknown fields of the options. *)
Definition isTrackedMessage (b : bytes) : outcome := tracked_loop (S (length b)) false b.
