(** Model of proto/normal_codec.go, proto/required_codec.go,
    proto/option_codec.go and proto/option.go.

    Every function takes the value at address [p] instead of the address, the
    field's [wiretag] and [tagsize] instead of the *structField, and returns
    the new buffer / the new memory. [encode] functions append to [b]. *)
From Verif Require Import Base Wire GoType.
Local Open Scope Z_scope.

(** The part of structField (struct.go:16-21) leaf codecs read. *)
Record fmeta := { wiretag : N; tagsize : Z }.

(** proto.go:102-106 *)
Record leaf := {
  l_size : val -> fmeta -> res Z;
  l_encode : bytes -> val -> fmeta -> res bytes;
  l_decode : bytes -> val -> dres val
}.

(** ** normal_codec.go *)

(** normal_codec.go:15-20 *)
Definition sizeOfBool (p : val) (f : fmeta) : res Z :=
  v <- rd_bool p ;; if v then OK (1 + tagsize f) else OK 0.
(** normal_codec.go:22-32 *)
Definition encodeBool (b : bytes) (p : val) (f : fmeta) : res bytes :=
  v <- rd_bool p ;;
  if v then
    let b := appendVarint b (wiretag f) in
    OK (if v then b ++ [1%N] else b ++ [0%N])
  else OK b.
(** normal_codec.go:34-40: only the first byte is looked at. *)
Definition decodeBool (b : bytes) (p : val) : dres val :=
  match b with
  | [] => DRet p 0 (Some ErrUnexpectedEOF)
  | c :: _ => wret (wr_bool p (negb (c =? 0)%N)) 1 None
  end.
Definition boolCodec := {| l_size := sizeOfBool; l_encode := encodeBool; l_decode := decodeBool |}.

(** normal_codec.go:48-54 *)
Definition sizeOfBytes (p : val) (f : fmeta) : res Z :=
  v <- rd_bytes p ;;
  match v with
  | Some d => OK (sizeOfVarlen (zlen d) + tagsize f)
  | None => OK 0
  end.
(** normal_codec.go:56-64 *)
Definition encodeBytes (b : bytes) (p : val) (f : fmeta) : res bytes :=
  v <- rd_bytes p ;;
  match v with
  | Some d => OK (appendVarint (appendVarint b (wiretag f)) (u64 (zlen d)) ++ d)
  | None => OK b
  end.
(** normal_codec.go:66-74: always leaves a non-nil slice holding a copy. *)
Definition decodeBytes (b : bytes) (p : val) : dres val :=
  match decodeVarlen b with
  | CR c => DCrash c
  | OK (v, n, e) =>
    match p with
    | VBytes _ => DRet (VBytes (Some (match v with Some d => d | None => [] end))) n e
    | _ => DCrash Confused
    end
  end.
Definition bytesCodec := {| l_size := sizeOfBytes; l_encode := encodeBytes; l_decode := decodeBytes |}.

(** normal_codec.go:82-88 *)
Definition sizeOfString (p : val) (f : fmeta) : res Z :=
  v <- rd_str p ;;
  match v with [] => OK 0 | _ => OK (sizeOfVarlen (zlen v) + tagsize f) end.
(** normal_codec.go:90-98 *)
Definition encodeString (b : bytes) (p : val) (f : fmeta) : res bytes :=
  v <- rd_str p ;;
  match v with
  | [] => OK b
  | _ => OK (appendVarint (appendVarint b (wiretag f)) (u64 (zlen v)) ++ v)
  end.
(** normal_codec.go:100-108 *)
Definition decodeString (b : bytes) (p : val) : dres val :=
  match decodeVarlen b with
  | CR c => DCrash c
  | OK (v, n, e) =>
    if n =? 0 then wret (wr_str p []) 0 e
    else wret (wr_str p (match v with Some d => d | None => [] end)) n e
  end.
Definition stringCodec := {| l_size := sizeOfString; l_encode := encodeString; l_decode := decodeString |}.

(** [v != 0 || math.Signbit(v)] on the bit pattern of a float32 / float64:
    [v != 0] holds unless all bits but the sign are 0 (NaN != 0 is true). *)
Definition f32_nonzero (bits : N) : bool :=
  (negb (N.land bits 2147483647 =? 0) || N.testbit bits 31)%N.
Definition f64_nonzero (bits : N) : bool :=
  (negb (N.land bits 9223372036854775807 =? 0) || N.testbit bits 63)%N.

(** normal_codec.go:116-121 *)
Definition sizeOfFloat32 (p : val) (f : fmeta) : res Z :=
  v <- rd_f32 p ;; if f32_nonzero v then OK (4 + tagsize f) else OK 0.
(** normal_codec.go:123-129; math.Float32bits is the identity on patterns. *)
Definition encodeFloat32 (b : bytes) (p : val) (f : fmeta) : res bytes :=
  v <- rd_f32 p ;;
  if f32_nonzero v then OK (encodeLE32 (appendVarint b (wiretag f)) v) else OK b.
(** normal_codec.go:131-135 *)
Definition decodeFloat32 (b : bytes) (p : val) : dres val :=
  let '(v, n, e) := decodeLE32 b in wret (wr_f32 p v) n e.
Definition float32Codec := {| l_size := sizeOfFloat32; l_encode := encodeFloat32; l_decode := decodeFloat32 |}.

(** normal_codec.go:143-148 *)
Definition sizeOfFloat64 (p : val) (f : fmeta) : res Z :=
  v <- rd_f64 p ;; if f64_nonzero v then OK (8 + tagsize f) else OK 0.
(** normal_codec.go:150-156 *)
Definition encodeFloat64 (b : bytes) (p : val) (f : fmeta) : res bytes :=
  v <- rd_f64 p ;;
  if f64_nonzero v then OK (encodeLE64 (appendVarint b (wiretag f)) v) else OK b.
(** normal_codec.go:158-162 *)
Definition decodeFloat64 (b : bytes) (p : val) : dres val :=
  let '(v, n, e) := decodeLE64 b in wret (wr_f64 p v) n e.
Definition float64Codec := {| l_size := sizeOfFloat64; l_encode := encodeFloat64; l_decode := decodeFloat64 |}.

(** normal_codec.go:170-176; uint64(v) of an int32 sign-extends. *)
Definition sizeOfInt32 (p : val) (f : fmeta) : res Z :=
  v <- rd_i32 p ;;
  if negb (v =? 0) then OK (sizeOfVarint (u64 v) + tagsize f) else OK 0.
(** normal_codec.go:178-185 *)
Definition encodeInt32 (b : bytes) (p : val) (f : fmeta) : res bytes :=
  v <- rd_i32 p ;;
  if negb (v =? 0) then OK (appendVarint (appendVarint b (wiretag f)) (u64 v)) else OK b.
(** normal_codec.go:187-191 *)
Definition decodeInt32 (b : bytes) (p : val) : dres val :=
  let '(u, n, e) := decodeVarint b in wret (wr_i32 p (s32 (s64 u))) n e.
Definition int32Codec := {| l_size := sizeOfInt32; l_encode := encodeInt32; l_decode := decodeInt32 |}.

(** normal_codec.go:199-205 *)
Definition sizeOfInt64 (p : val) (f : fmeta) : res Z :=
  v <- rd_i64 p ;;
  if negb (v =? 0) then OK (sizeOfVarint (u64 v) + tagsize f) else OK 0.
(** normal_codec.go:207-214 *)
Definition encodeInt64 (b : bytes) (p : val) (f : fmeta) : res bytes :=
  v <- rd_i64 p ;;
  if negb (v =? 0) then OK (appendVarint (appendVarint b (wiretag f)) (u64 v)) else OK b.
(** normal_codec.go:216-220 *)
Definition decodeInt64 (b : bytes) (p : val) : dres val :=
  let '(v, n, e) := decodeVarint b in wret (wr_i64 p (s64 v)) n e.
Definition int64Codec := {| l_size := sizeOfInt64; l_encode := encodeInt64; l_decode := decodeInt64 |}.

(** normal_codec.go:228-233 *)
Definition sizeOfUint32 (p : val) (f : fmeta) : res Z :=
  v <- rd_u32 p ;;
  if negb (v =? 0)%N then OK (sizeOfVarint v + tagsize f) else OK 0.
(** normal_codec.go:235-241 *)
Definition encodeUint32 (b : bytes) (p : val) (f : fmeta) : res bytes :=
  v <- rd_u32 p ;;
  if negb (v =? 0)%N then OK (appendVarint (appendVarint b (wiretag f)) v) else OK b.
(** normal_codec.go:243-247; uint32(v) truncates. *)
Definition decodeUint32 (b : bytes) (p : val) : dres val :=
  let '(v, n, e) := decodeVarint b in wret (wr_u32 p (u32 (Z.of_N v))) n e.
Definition uint32Codec := {| l_size := sizeOfUint32; l_encode := encodeUint32; l_decode := decodeUint32 |}.

(** normal_codec.go:255-260 *)
Definition sizeOfFixed32 (p : val) (f : fmeta) : res Z :=
  v <- rd_u32 p ;; if negb (v =? 0)%N then OK (4 + tagsize f) else OK 0.
(** normal_codec.go:262-268 *)
Definition encodeFixed32 (b : bytes) (p : val) (f : fmeta) : res bytes :=
  v <- rd_u32 p ;;
  if negb (v =? 0)%N then OK (encodeLE32 (appendVarint b (wiretag f)) v) else OK b.
(** normal_codec.go:270-274 *)
Definition decodeFixed32 (b : bytes) (p : val) : dres val :=
  let '(v, n, e) := decodeLE32 b in wret (wr_u32 p v) n e.
Definition fixed32Codec := {| l_size := sizeOfFixed32; l_encode := encodeFixed32; l_decode := decodeFixed32 |}.

(** normal_codec.go:282-287 *)
Definition sizeOfUint64 (p : val) (f : fmeta) : res Z :=
  v <- rd_u64 p ;;
  if negb (v =? 0)%N then OK (sizeOfVarint v + tagsize f) else OK 0.
(** normal_codec.go:289-295 *)
Definition encodeUint64 (b : bytes) (p : val) (f : fmeta) : res bytes :=
  v <- rd_u64 p ;;
  if negb (v =? 0)%N then OK (appendVarint (appendVarint b (wiretag f)) v) else OK b.
(** normal_codec.go:297-301 *)
Definition decodeUint64 (b : bytes) (p : val) : dres val :=
  let '(v, n, e) := decodeVarint b in wret (wr_u64 p v) n e.
Definition uint64Codec := {| l_size := sizeOfUint64; l_encode := encodeUint64; l_decode := decodeUint64 |}.

(** normal_codec.go:309-314 *)
Definition sizeOfFixed64 (p : val) (f : fmeta) : res Z :=
  v <- rd_u64 p ;; if negb (v =? 0)%N then OK (8 + tagsize f) else OK 0.
(** normal_codec.go:316-322 *)
Definition encodeFixed64 (b : bytes) (p : val) (f : fmeta) : res bytes :=
  v <- rd_u64 p ;;
  if negb (v =? 0)%N then OK (encodeLE64 (appendVarint b (wiretag f)) v) else OK b.
(** normal_codec.go:324-328 *)
Definition decodeFixed64 (b : bytes) (p : val) : dres val :=
  let '(v, n, e) := decodeLE64 b in wret (wr_u64 p v) n e.
Definition fixed64Codec := {| l_size := sizeOfFixed64; l_encode := encodeFixed64; l_decode := decodeFixed64 |}.

(** normal_codec.go:336-341 *)
Definition sizeOfZigzag32 (p : val) (f : fmeta) : res Z :=
  v <- rd_i32 p ;;
  if negb (v =? 0) then OK (sizeOfVarint (encodeZigZag64 v) + tagsize f) else OK 0.
(** normal_codec.go:343-349 *)
Definition encodeZigzag32 (b : bytes) (p : val) (f : fmeta) : res bytes :=
  v <- rd_i32 p ;;
  if negb (v =? 0) then OK (appendVarint (appendVarint b (wiretag f)) (encodeZigZag64 v)) else OK b.
(** normal_codec.go:351-355 *)
Definition decodeZigzag32 (b : bytes) (p : val) : dres val :=
  let '(u, n, e) := decodeVarint b in wret (wr_i32 p (s32 (decodeZigZag64 u))) n e.
Definition zigzag32Codec := {| l_size := sizeOfZigzag32; l_encode := encodeZigzag32; l_decode := decodeZigzag32 |}.

(** normal_codec.go:363-368 *)
Definition sizeOfZigzag64 (p : val) (f : fmeta) : res Z :=
  v <- rd_i64 p ;;
  if negb (v =? 0) then OK (sizeOfVarint (encodeZigZag64 v) + tagsize f) else OK 0.
(** normal_codec.go:370-376 *)
Definition encodeZigzag64 (b : bytes) (p : val) (f : fmeta) : res bytes :=
  v <- rd_i64 p ;;
  if negb (v =? 0) then OK (appendVarint (appendVarint b (wiretag f)) (encodeZigZag64 v)) else OK b.
(** normal_codec.go:378-382 *)
Definition decodeZigzag64 (b : bytes) (p : val) : dres val :=
  let '(v, n, e) := decodeVarint b in wret (wr_i64 p (decodeZigZag64 v)) n e.
Definition zigzag64Codec := {| l_size := sizeOfZigzag64; l_encode := encodeZigzag64; l_decode := decodeZigzag64 |}.

(** ** required_codec.go *)

(** required_codec.go:12-14 (does not read the value) *)
Definition sizeOfBoolRequired (p : val) (f : fmeta) : res Z := OK (1 + tagsize f).
(** required_codec.go:15-23 *)
Definition encodeBoolRequired (b : bytes) (p : val) (f : fmeta) : res bytes :=
  v <- rd_bool p ;;
  let b := appendVarint b (wiretag f) in
  OK (if v then b ++ [1%N] else b ++ [0%N]).
Definition boolRequiredCodec := {| l_size := sizeOfBoolRequired; l_encode := encodeBoolRequired; l_decode := decodeBool |}.

(** required_codec.go:27-30 *)
Definition sizeOfStringRequired (p : val) (f : fmeta) : res Z :=
  v <- rd_str p ;; OK (sizeOfVarlen (zlen v) + tagsize f).
(** required_codec.go:31-37 *)
Definition encodeStringRequired (b : bytes) (p : val) (f : fmeta) : res bytes :=
  v <- rd_str p ;;
  OK (appendVarint (appendVarint b (wiretag f)) (u64 (zlen v)) ++ v).
Definition stringRequiredCodec := {| l_size := sizeOfStringRequired; l_encode := encodeStringRequired; l_decode := decodeString |}.

(** required_codec.go:41-43 *)
Definition sizeOfFloat32Required (p : val) (f : fmeta) : res Z := OK (4 + tagsize f).
(** required_codec.go:44-49 *)
Definition encodeFloat32Required (b : bytes) (p : val) (f : fmeta) : res bytes :=
  v <- rd_f32 p ;; OK (encodeLE32 (appendVarint b (wiretag f)) v).
Definition float32RequiredCodec := {| l_size := sizeOfFloat32Required; l_encode := encodeFloat32Required; l_decode := decodeFloat32 |}.

(** required_codec.go:53-55 *)
Definition sizeOfFloat64Required (p : val) (f : fmeta) : res Z := OK (8 + tagsize f).
(** required_codec.go:56-61 *)
Definition encodeFloat64Required (b : bytes) (p : val) (f : fmeta) : res bytes :=
  v <- rd_f64 p ;; OK (encodeLE64 (appendVarint b (wiretag f)) v).
Definition float64RequiredCodec := {| l_size := sizeOfFloat64Required; l_encode := encodeFloat64Required; l_decode := decodeFloat64 |}.

(** required_codec.go:65-68 *)
Definition sizeOfInt32Required (p : val) (f : fmeta) : res Z :=
  v <- rd_i32 p ;; OK (sizeOfVarint (u64 v) + tagsize f).
(** required_codec.go:69-74 *)
Definition encodeInt32Required (b : bytes) (p : val) (f : fmeta) : res bytes :=
  v <- rd_i32 p ;; OK (appendVarint (appendVarint b (wiretag f)) (u64 v)).
Definition int32RequiredCodec := {| l_size := sizeOfInt32Required; l_encode := encodeInt32Required; l_decode := decodeInt32 |}.

(** required_codec.go:78-81 *)
Definition sizeOfInt64Required (p : val) (f : fmeta) : res Z :=
  v <- rd_i64 p ;; OK (sizeOfVarint (u64 v) + tagsize f).
(** required_codec.go:82-87 *)
Definition encodeInt64Required (b : bytes) (p : val) (f : fmeta) : res bytes :=
  v <- rd_i64 p ;; OK (appendVarint (appendVarint b (wiretag f)) (u64 v)).
Definition int64RequiredCodec := {| l_size := sizeOfInt64Required; l_encode := encodeInt64Required; l_decode := decodeInt64 |}.

(** required_codec.go:91-94 *)
Definition sizeOfUint32Required (p : val) (f : fmeta) : res Z :=
  v <- rd_u32 p ;; OK (sizeOfVarint v + tagsize f).
(** required_codec.go:95-100 *)
Definition encodeUint32Required (b : bytes) (p : val) (f : fmeta) : res bytes :=
  v <- rd_u32 p ;; OK (appendVarint (appendVarint b (wiretag f)) v).
Definition uint32RequiredCodec := {| l_size := sizeOfUint32Required; l_encode := encodeUint32Required; l_decode := decodeUint32 |}.

(** required_codec.go:104-106 *)
Definition sizeOfFixed32Required (p : val) (f : fmeta) : res Z := OK (4 + tagsize f).
(** required_codec.go:107-112 *)
Definition encodeFixed32Required (b : bytes) (p : val) (f : fmeta) : res bytes :=
  v <- rd_u32 p ;; OK (encodeLE32 (appendVarint b (wiretag f)) v).
Definition fixed32RequiredCodec := {| l_size := sizeOfFixed32Required; l_encode := encodeFixed32Required; l_decode := decodeFixed32 |}.

(** required_codec.go:116-119 *)
Definition sizeOfUint64Required (p : val) (f : fmeta) : res Z :=
  v <- rd_u64 p ;; OK (sizeOfVarint v + tagsize f).
(** required_codec.go:120-125 *)
Definition encodeUint64Required (b : bytes) (p : val) (f : fmeta) : res bytes :=
  v <- rd_u64 p ;; OK (appendVarint (appendVarint b (wiretag f)) v).
Definition uint64RequiredCodec := {| l_size := sizeOfUint64Required; l_encode := encodeUint64Required; l_decode := decodeUint64 |}.

(** required_codec.go:129-131 *)
Definition sizeOfFixed64Required (p : val) (f : fmeta) : res Z := OK (8 + tagsize f).
(** required_codec.go:132-137 *)
Definition encodeFixed64Required (b : bytes) (p : val) (f : fmeta) : res bytes :=
  v <- rd_u64 p ;; OK (encodeLE64 (appendVarint b (wiretag f)) v).
Definition fixed64RequiredCodec := {| l_size := sizeOfFixed64Required; l_encode := encodeFixed64Required; l_decode := decodeFixed64 |}.

(** required_codec.go:141-144 *)
Definition sizeOfZigzag32Required (p : val) (f : fmeta) : res Z :=
  v <- rd_i32 p ;; OK (sizeOfVarint (encodeZigZag64 v) + tagsize f).
(** required_codec.go:145-150 *)
Definition encodeZigzag32Required (b : bytes) (p : val) (f : fmeta) : res bytes :=
  v <- rd_i32 p ;; OK (appendVarint (appendVarint b (wiretag f)) (encodeZigZag64 v)).
Definition zigzag32RequiredCodec := {| l_size := sizeOfZigzag32Required; l_encode := encodeZigzag32Required; l_decode := decodeZigzag32 |}.

(** required_codec.go:154-157 *)
Definition sizeOfZigzag64Required (p : val) (f : fmeta) : res Z :=
  v <- rd_i64 p ;; OK (sizeOfVarint (encodeZigZag64 v) + tagsize f).
(** required_codec.go:158-163 *)
Definition encodeZigzag64Required (b : bytes) (p : val) (f : fmeta) : res bytes :=
  v <- rd_i64 p ;; OK (appendVarint (appendVarint b (wiretag f)) (encodeZigZag64 v)).
Definition zigzag64RequiredCodec := {| l_size := sizeOfZigzag64Required; l_encode := encodeZigzag64Required; l_decode := decodeZigzag64 |}.

(** ** option.go *)

(** option.go:7-44 *)
Record goption (T : Type) := { some : bool; value : T }.
Arguments some {T} _.
Arguments value {T} _.
(** option.go:12-17 *)
Definition Some_ {T} (v : T) : goption T := {| some := true; value := v |}.
(** option.go:19-21: the value is the zero of T. *)
Definition None_ {T} (z : T) : goption T := {| some := false; value := z |}.
(** option.go:23-29 *)
Definition IsSome {T} (o : goption T) : bool := some o.
Definition IsNone {T} (o : goption T) : bool := negb (some o).
(** option.go:31-37: [z] is the zero value of T. *)
Definition Unwrap {T} (z : T) (o : goption T) : T := if IsSome o then value o else z.
(** option.go:39-44 *)
Definition UnwrapOr {T} (o : goption T) (d : T) : T := if IsSome o then value o else d.

(** ** option_codec.go: twelve instances of one template
    (gen/option/main.go:24-42), given the required/normal functions of the
    same name. *)

(** option_codec.go:13-19 and its eleven copies *)
Definition sizeOption (req : val -> fmeta -> res Z) (p : val) (f : fmeta) : res Z :=
  o <- rd_opt p ;; if fst o then req (snd o) f else OK 0.
(** option_codec.go:21-27 *)
Definition encodeOption (req : bytes -> val -> fmeta -> res bytes)
  (b : bytes) (p : val) (f : fmeta) : res bytes :=
  o <- rd_opt p ;; if fst o then req b (snd o) f else OK b.
(** option_codec.go:29-33: the flag is set before decoding, whatever happens. *)
Definition decodeOption (dec : bytes -> val -> dres val) (b : bytes) (p : val) : dres val :=
  match p with
  | VOpt _ x => dmap (VOpt true) (dec b x)
  | _ => DCrash Confused
  end.
Definition optionCodec (req : leaf) (dec : bytes -> val -> dres val) : leaf :=
  {| l_size := sizeOption (l_size req); l_encode := encodeOption (l_encode req);
     l_decode := decodeOption dec |}.

(** option_codec.go:7-11 *)
Definition boolOptionCodec := optionCodec boolRequiredCodec decodeBool.
(** option_codec.go:35-39 *)
Definition stringOptionCodec := optionCodec stringRequiredCodec decodeString.
(** option_codec.go:63-67 *)
Definition int32OptionCodec := optionCodec int32RequiredCodec decodeInt32.
(** option_codec.go:91-95 *)
Definition uint32OptionCodec := optionCodec uint32RequiredCodec decodeUint32.
(** option_codec.go:119-123 *)
Definition int64OptionCodec := optionCodec int64RequiredCodec decodeInt64.
(** option_codec.go:147-151 *)
Definition uint64OptionCodec := optionCodec uint64RequiredCodec decodeUint64.
(** option_codec.go:175-179 *)
Definition zigzag32OptionCodec := optionCodec zigzag32RequiredCodec decodeZigzag32.
(** option_codec.go:203-207 *)
Definition zigzag64OptionCodec := optionCodec zigzag64RequiredCodec decodeZigzag64.
(** option_codec.go:231-235 *)
Definition fixed32OptionCodec := optionCodec fixed32RequiredCodec decodeFixed32.
(** option_codec.go:259-263 *)
Definition fixed64OptionCodec := optionCodec fixed64RequiredCodec decodeFixed64.
(** option_codec.go:287-291 *)
Definition float32OptionCodec := optionCodec float32RequiredCodec decodeFloat32.
(** option_codec.go:315-319 *)
Definition float64OptionCodec := optionCodec float64RequiredCodec decodeFloat64.

(** ** The package-level codec variables. Their addresses are used as map keys
    (slice.go:11), so each gets a name. *)
Inductive wk :=
| WBool | WString | WFloat32 | WFloat64 | WInt32 | WInt64 | WUint32 | WUint64
| WFixed32 | WFixed64 | WZigzag32 | WZigzag64.
Inductive mode := Normal | Required | Optional.
Inductive scid := SC (w : wk) (m : mode) | SCBytes.

Definition scid_eq_dec (a b : scid) : {a = b} + {a <> b}.
Proof. decide equality; decide equality. Defined.

Definition static (s : scid) : leaf :=
  match s with
  | SCBytes => bytesCodec
  | SC WBool Normal => boolCodec         | SC WBool Required => boolRequiredCodec
  | SC WBool Optional => boolOptionCodec
  | SC WString Normal => stringCodec     | SC WString Required => stringRequiredCodec
  | SC WString Optional => stringOptionCodec
  | SC WFloat32 Normal => float32Codec   | SC WFloat32 Required => float32RequiredCodec
  | SC WFloat32 Optional => float32OptionCodec
  | SC WFloat64 Normal => float64Codec   | SC WFloat64 Required => float64RequiredCodec
  | SC WFloat64 Optional => float64OptionCodec
  | SC WInt32 Normal => int32Codec       | SC WInt32 Required => int32RequiredCodec
  | SC WInt32 Optional => int32OptionCodec
  | SC WInt64 Normal => int64Codec       | SC WInt64 Required => int64RequiredCodec
  | SC WInt64 Optional => int64OptionCodec
  | SC WUint32 Normal => uint32Codec     | SC WUint32 Required => uint32RequiredCodec
  | SC WUint32 Optional => uint32OptionCodec
  | SC WUint64 Normal => uint64Codec     | SC WUint64 Required => uint64RequiredCodec
  | SC WUint64 Optional => uint64OptionCodec
  | SC WFixed32 Normal => fixed32Codec   | SC WFixed32 Required => fixed32RequiredCodec
  | SC WFixed32 Optional => fixed32OptionCodec
  | SC WFixed64 Normal => fixed64Codec   | SC WFixed64 Required => fixed64RequiredCodec
  | SC WFixed64 Optional => fixed64OptionCodec
  | SC WZigzag32 Normal => zigzag32Codec | SC WZigzag32 Required => zigzag32RequiredCodec
  | SC WZigzag32 Optional => zigzag32OptionCodec
  | SC WZigzag64 Normal => zigzag64Codec | SC WZigzag64 Required => zigzag64RequiredCodec
  | SC WZigzag64 Optional => zigzag64OptionCodec
  end.
