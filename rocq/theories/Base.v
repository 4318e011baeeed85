(** Base vocabulary of the model: Go integers, byte slices, errors, crashes.

    Conventions.
    - Go [uint64]/[uint32]/[byte] values are [N]; every operation that can
      exceed the width carries an explicit [mod 2^64] / [mod 2^32] / [mod 256].
    - Go [int], [int64], [int32] values are [Z]; conversions wrap explicitly.
      [int] is 64 bits wide (amd64/arm64); sizes and offsets are not wrapped,
      the theorems that need it assume lengths below 2^63, as Go guarantees.
    - A Go [[]byte] is the list of its elements; capacity and aliasing of byte
      slices are only modelled in [Alias.v]. *)
From Coq Require Export List ZArith NArith Lia Bool.
Export ListNotations.

Notation bytes := (list N).

Definition bytes_ok (b : bytes) : Prop := Forall (fun c => (c < 256)%N) b.

Definition M64 : N := 18446744073709551616%N.        (* 2^64 *)
Definition Z64 : Z := 18446744073709551616%Z.        (* 2^64 *)
Definition Z63 : Z := 9223372036854775808%Z.         (* 2^63 *)
Definition Z32 : Z := 4294967296%Z.                  (* 2^32 *)
Definition Z31 : Z := 2147483648%Z.                  (* 2^31 *)

(** Go conversion [uint64(x)] of a signed integer, and [uint32(x)]. *)
Definition u64 (z : Z) : N := Z.to_N (z mod Z64).
Definition u32 (z : Z) : N := Z.to_N (z mod Z32).

(** Go conversion [int64(x)] / [int(x)] of a [uint64], and [int32(x)]. *)
Definition s64 (n : N) : Z :=
  let m := (Z.of_N n mod Z64)%Z in if (m <? Z63)%Z then m else (m - Z64)%Z.
Definition s32 (z : Z) : Z :=
  let m := (z mod Z32)%Z in if (m <? Z31)%Z then m else (m - Z32)%Z.

(** Go conversion [byte(x)]. *)
Definition u8 (n : N) : N := (n mod 256)%N.

(** Go shift [uint64(c) << s]: shifts of 64 or more give 0. *)
Definition shl64 (c s : N) : N := (N.shiftl c s mod M64)%N.

(** [len(b)] as a Go [int]. *)
Definition zlen {A} (b : list A) : Z := Z.of_nat (length b).

(** Checked slicing [b[lo:]] and [b[lo:hi]]: [None] is Go's run-time panic.
    Go allows [hi] up to [cap(b)]; the model insists on [len(b)], which is
    stricter, and the no-panic theorem shows the difference is never used. *)
Definition from_ (b : bytes) (lo : Z) : option bytes :=
  if ((0 <=? lo) && (lo <=? zlen b))%Z%bool then Some (skipn (Z.to_nat lo) b) else None.
Definition sub_ (b : bytes) (lo hi : Z) : option bytes :=
  if ((0 <=? lo) && (lo <=? hi) && (hi <=? zlen b))%Z%bool
  then Some (firstn (Z.to_nat (hi - lo)) (skipn (Z.to_nat lo) b)) else None.

(** Errors returned by the library (error.go, decode.go:16, io.ErrUnexpectedEOF).
    Error message texts are abstracted; causes and the fields of
    [UnmarshalFieldError] are kept. *)
Inductive err :=
| ErrUnexpectedEOF                               (* io.ErrUnexpectedEOF *)
| ErrVarintOverflow                              (* decode.go:16 *)
| ErrWireTypeUnknown                             (* error.go:9 *)
| ErrExpectedWireType (w : N)                    (* struct.go:100 fmt.Errorf *)
| UnmarshalFieldError (num : Z) (wt : Z) (e : err) (* error.go:11-15 *)
| InvalidUnmarshalError                          (* error.go:33-35 *)
| ErrNotAPointer                                 (* proto.go:28 *)
| ErrShortRead.                                  (* proto.go:58 *)

(** Abnormal ends. [Confused] marks an access through [unsafe.Pointer] at a Go
    type other than the type of the memory, whose result depends on addresses
    or on memory outside the object. *)
Inductive crash :=
| NilFunc        (* call of a nil func value: codec not filled in yet *)
| Bounds         (* slice bounds out of range *)
| Confused       (* memory accessed at the wrong type *)
| NilDeref       (* nil pointer / nil interface method call *)
| Unsupported.   (* explicit panic(...) or reflect panic on an unsupported type *)

(** Result of a [size] or [encode] function: a value or a crash. *)
Inductive res (A : Type) := OK (a : A) | CR (c : crash).
Arguments OK {A} a.
Arguments CR {A} c.
Definition rbind {A B} (x : res A) (k : A -> res B) : res B :=
  match x with OK a => k a | CR c => CR c end.
Notation "x <- e ;; k" := (rbind e (fun x => k))
  (at level 61, e at next level, right associativity).

(** Result of a [decode] function: the memory after the call, the count [n] and
    the [error]; or a crash; or out of fuel (excluded by a theorem). *)
Inductive dres (A : Type) :=
| DRet (a : A) (n : Z) (e : option err)
| DCrash (c : crash)
| DFuel.
Arguments DRet {A} a n e.
Arguments DCrash {A} c.
Arguments DFuel {A}.

Definition dmap {A B} (g : A -> B) (r : dres A) : dres B :=
  match r with
  | DRet a n e => DRet (g a) n e
  | DCrash c => DCrash c
  | DFuel => DFuel
  end.

(** errors.Is(e, target) for the sentinel [target] (error.go:21 Unwrap). *)
Fixpoint err_cause (e : err) : err :=
  match e with UnmarshalFieldError _ _ e' => err_cause e' | _ => e end.
