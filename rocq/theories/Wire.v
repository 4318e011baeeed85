(** Model of proto/encode.go, proto/decode.go and proto/size.go. *)
From Verif Require Import Base.
Local Open Scope N_scope.

(** encode.go:7-9  [(uint64(v) << 1) ^ uint64(v>>63)]; [v] is an int64, [>>] is
    arithmetic. *)
Definition encodeZigZag64 (v : Z) : N :=
  N.lxor (shl64 (u64 v) 1) (u64 (Z.shiftr v 63)).

(** The byte [byte((v>>s)&0x7f|0x80)] of encode.go:19-88. *)
Definition vbyte (v s : N) : N := u8 (N.lor (N.land (N.shiftr v s) 127) 128).

(** encode.go:13-91: the ten-way switch on the magnitude of [v]. *)
Definition appendVarint (b : bytes) (v : N) : bytes :=
  if v <? 2^7 then b ++ [u8 v]
  else if v <? 2^14 then b ++ [vbyte v 0; u8 (N.shiftr v 7)]
  else if v <? 2^21 then b ++ [vbyte v 0; vbyte v 7; u8 (N.shiftr v 14)]
  else if v <? 2^28 then b ++ [vbyte v 0; vbyte v 7; vbyte v 14; u8 (N.shiftr v 21)]
  else if v <? 2^35 then
    b ++ [vbyte v 0; vbyte v 7; vbyte v 14; vbyte v 21; u8 (N.shiftr v 28)]
  else if v <? 2^42 then
    b ++ [vbyte v 0; vbyte v 7; vbyte v 14; vbyte v 21; vbyte v 28; u8 (N.shiftr v 35)]
  else if v <? 2^49 then
    b ++ [vbyte v 0; vbyte v 7; vbyte v 14; vbyte v 21; vbyte v 28; vbyte v 35;
          u8 (N.shiftr v 42)]
  else if v <? 2^56 then
    b ++ [vbyte v 0; vbyte v 7; vbyte v 14; vbyte v 21; vbyte v 28; vbyte v 35;
          vbyte v 42; u8 (N.shiftr v 49)]
  else if v <? 2^63 then
    b ++ [vbyte v 0; vbyte v 7; vbyte v 14; vbyte v 21; vbyte v 28; vbyte v 35;
          vbyte v 42; vbyte v 49; u8 (N.shiftr v 56)]
  else
    b ++ [vbyte v 0; vbyte v 7; vbyte v 14; vbyte v 21; vbyte v 28; vbyte v 35;
          vbyte v 42; vbyte v 49; vbyte v 56; 1].

(** encode.go:93-95 *)
Definition appendVarintZigZag (b : bytes) (v : Z) : bytes :=
  appendVarint b (encodeZigZag64 v).

(** encode.go:97-103 *)
Definition encodeLE32 (b : bytes) (v : N) : bytes :=
  b ++ [u8 (N.shiftr v 0); u8 (N.shiftr v 8); u8 (N.shiftr v 16); u8 (N.shiftr v 24)].

(** encode.go:105-115 *)
Definition encodeLE64 (b : bytes) (v : N) : bytes :=
  b ++ [u8 (N.shiftr v 0); u8 (N.shiftr v 8); u8 (N.shiftr v 16); u8 (N.shiftr v 24);
        u8 (N.shiftr v 32); u8 (N.shiftr v 40); u8 (N.shiftr v 48); u8 (N.shiftr v 56)].

(** encode.go:117-119; struct.go's [fieldNumber] and [wireType] are [uint]. *)
Definition mktag (f t : N) : N := N.lor (shl64 f 3) t.
Definition appendTag (b : bytes) (f t : N) : bytes := appendVarint b (mktag f t).

(** decode.go:10-12  [int64(v>>1) ^ -(int64(v) & 1)] *)
Definition decodeZigZag64 (v : N) : Z :=
  Z.lxor (s64 (N.shiftr v 1)) (- (Z.land (s64 v) 1)).

(** decode.go:27-41: the loop; [i] is the index, [s] the shift, [x] the value. *)
Fixpoint decodeVarint_loop (b : bytes) (i : Z) (s x : N) : N * Z * option err :=
  match b with
  | [] => (x, i, Some ErrUnexpectedEOF)       (* i = len(b) here *)
  | c :: r =>
    if c <? 128 then
      if ((9 <? i)%Z || ((i =? 9)%Z && (1 <? c)))%bool
      then (0, i, Some ErrVarintOverflow)
      else (N.lor x (shl64 c s), (i + 1)%Z, None)
    else decodeVarint_loop r (i + 1)%Z (s + 7) (N.lor x (shl64 (N.land c 127) s))
  end.

(** decode.go:18-42 with the single-byte fast path. *)
Definition decodeVarint (b : bytes) : N * Z * option err :=
  match b with
  | c :: _ => if c <? 128 then (c, 1%Z, None) else decodeVarint_loop b 0%Z 0 0
  | [] => decodeVarint_loop b 0%Z 0 0
  end.

(** decode.go:44-47 *)
Definition decodeVarintZigZag (b : bytes) : Z * Z * option err :=
  let '(v, n, e) := decodeVarint b in (decodeZigZag64 v, n, e).

(** binary.LittleEndian.Uint32/Uint64 on the first 4/8 bytes (encoding/binary). *)
Definition le32 (b : bytes) : N :=
  match b with
  | b0 :: b1 :: b2 :: b3 :: _ => b0 + 256 * (b1 + 256 * (b2 + 256 * b3))
  | _ => 0
  end.
Definition le64 (b : bytes) : N :=
  match b with
  | b0 :: b1 :: b2 :: b3 :: r => b0 + 256 * (b1 + 256 * (b2 + 256 * (b3 + 256 * le32 r)))
  | _ => 0
  end.

(** decode.go:49-54 *)
Definition decodeLE32 (b : bytes) : N * Z * option err :=
  if (zlen b <? 4)%Z then (0, 0%Z, Some ErrUnexpectedEOF) else (le32 b, 4%Z, None).
(** decode.go:56-61 *)
Definition decodeLE64 (b : bytes) : N * Z * option err :=
  if (zlen b <? 8)%Z then (0, 0%Z, Some ErrUnexpectedEOF) else (le64 b, 8%Z, None).

(** decode.go:63-66; also struct.go:23-29 for a field's own tag. *)
Definition tag_number (v : N) : N := N.shiftr v 3.
Definition tag_type (v : N) : N := N.land v 7.
Definition decodeTag (b : bytes) : N * N * Z * option err :=
  let '(v, n, e) := decodeVarint b in (tag_number v, tag_type v, n, e).

(** decode.go:68-77. The result slice is [None] for Go's nil slice (error
    cases); the final slicing expression is checked. *)
Definition decodeVarlen (b : bytes) : res (option bytes * Z * option err) :=
  let '(v, n, e) := decodeVarint b in
  match e with
  | Some e => OK (None, n, Some e)
  | None =>
    if u64 (zlen b - n)%Z <? v then OK (None, n, Some ErrUnexpectedEOF)
    else match sub_ b n (n + s64 v)%Z with
         | Some d => OK (Some d, (n + s64 v)%Z, None)
         | None => CR Bounds
         end
  end.

(** math/bits.Len64 *)
Definition bitlen (v : N) : N := N.size v.

(** size.go:10-15  [int(9*uint32(bits.Len64(v))+64) / 64] *)
Definition sizeOfVarint (v : N) : Z := Z.of_N ((9 * bitlen v + 64) / 64).

(** size.go:17-19 *)
Definition sizeOfVarlen (n : Z) : Z := (sizeOfVarint (u64 n) + n)%Z.
