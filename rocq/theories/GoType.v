(** Go types and values as seen by the library.

    Values are trees: a pointer owns its target. Sharing between pointers and
    cyclic data are not representable (Marshal of cyclic data does not return
    in the code either). Struct fields are addressed by index instead of byte
    offset (struct.go:17,31-33): distinct fields never overlap. *)
From Coq Require Import String.
From Verif Require Import Base.
Local Open Scope N_scope.

(** Scalar kinds: the reflect.Kinds of walker.go:37-61 that have a codec. *)
Inductive skind :=
| KBool | KInt32 | KInt64 | KUint32 | KUint64 | KFloat32 | KFloat64 | KString.

(** Go types of struct fields.
    - [TBytes] is any slice whose element kind is uint8 (walker.go:64-67);
    - [TOption k] is Option[k] for the eight instances of walker.go:8-17;
    - [TMsg sid] is a pointer to the declared struct number [sid];
    - [TPtr t] is a pointer to anything else;
    - [TMap k v] has a scalar key type (Go also allows pointer and struct keys,
      which are not modelled);
    - [TOther] is any type without codec: by-value structs, interfaces, int,
      uint8, arrays, chan, func. *)
Inductive gotype :=
| TScalar (k : skind)
| TBytes
| TOption (k : skind)
| TSlice (t : gotype)
| TMap (k : skind) (v : gotype)
| TPtr (t : gotype)
| TMsg (sid : nat)
| TOther.

Definition skind_eq_dec (a b : skind) : {a = b} + {a <> b}.
Proof. decide equality. Defined.
Definition gotype_eq_dec (a b : gotype) : {a = b} + {a <> b}.
Proof. decide equality; try apply skind_eq_dec; apply Nat.eq_dec. Defined.

(** A struct field declaration: reflect.StructField with PkgPath == "" as
    [gf_exported] and the three struct tag lookups of walker.go:152,240,246
    ([gf_tag] is [None] when Lookup("protobuf") fails; Get returns ""). *)
Record gofield := {
  gf_exported : bool;
  gf_tag : option string;
  gf_key : string;
  gf_val : string;
  gf_type : gotype
}.

(** The declared structs; [TMsg sid] refers to position [sid]. *)
Notation decls := (list (list gofield)).

(** Values.
    - integers carry their mathematical value, floats their bit pattern;
    - [VBytes None] is the nil slice;
    - [VOpt some v] is option.go:7-10;
    - [VSlice nonnil items spare]: elements up to len, and the memory between
      len and cap;
    - [VMap (Some l)]: the entries in the order a given iteration visits them;
    - [VOther] is memory of a type without codec. *)
Inductive val :=
| VBool (b : bool)
| VI32 (z : Z) | VI64 (z : Z)
| VU32 (n : N) | VU64 (n : N)
| VF32 (bits : N) | VF64 (bits : N)
| VStr (b : bytes)
| VBytes (o : option bytes)
| VOpt (some : bool) (v : val)
| VSlice (nonnil : bool) (items spare : list val)
| VMap (m : option (list (val * val)))
| VPtr (o : option val)
| VStruct (fs : list val)
| VOther (n : N).

(** Struct types that get a structInfo: declared ones, the entry struct that
    map.go:101-104 synthesises (determined by key type, value type and the two
    tags it formats), and the generic struct Option[k] (reachable through
    a pointer; its two fields are unexported). *)
Inductive skey :=
| SNamed (sid : nat)
| SEntry (k : skind) (v : gotype) (ktag vtag : N)
| SOpt (k : skind).

Definition skey_eq_dec (a b : skey) : {a = b} + {a <> b}.
Proof. decide equality; try apply N.eq_dec; try apply Nat.eq_dec;
  try apply skind_eq_dec; apply gotype_eq_dec. Defined.

(** Zero values (Go's zeroed memory). *)
Definition zero_k (k : skind) : val :=
  match k with
  | KBool => VBool false
  | KInt32 => VI32 0 | KInt64 => VI64 0
  | KUint32 => VU32 0 | KUint64 => VU64 0
  | KFloat32 => VF32 0 | KFloat64 => VF64 0
  | KString => VStr []
  end.
Definition zero (t : gotype) : val :=
  match t with
  | TScalar k => zero_k k
  | TBytes => VBytes None
  | TOption k => VOpt false (zero_k k)
  | TSlice _ => VSlice false [] []
  | TMap _ _ => VMap None
  | TPtr _ | TMsg _ => VPtr None
  | TOther => VOther 0
  end.

(** reflect.New(structType): a zeroed struct. *)
Definition zero_struct (D : decls) (k : skey) : val :=
  match k with
  | SNamed sid =>
    match nth_error D sid with
    | Some fs => VStruct (map (fun f => zero (gf_type f)) fs)
    | None => VStruct []
    end
  | SEntry k v _ _ => VStruct [zero_k k; zero v]
  | SOpt k => zero (TOption k)
  end.

(** Reading memory through unsafe.Pointer. [mem32]/[mem64] are the first 4/8
    bytes of a value as a little-endian number (amd64/arm64); [None] when they
    depend on an address or run past the object. *)
Definition mem64 (v : val) : option N :=
  match v with
  | VI64 z => Some (u64 z)
  | VU64 n => Some n
  | VF64 n => Some n
  | VPtr None => Some 0
  | _ => None
  end.
Definition mem32 (v : val) : option N :=
  match v with
  | VI32 z => Some (u32 z)
  | VU32 n => Some n
  | VF32 n => Some n
  | _ => match mem64 v with Some n => Some (n mod 4294967296) | None => None end
  end.

Definition of_opt {A} (o : option A) : res A :=
  match o with Some a => OK a | None => CR Confused end.

(** Loads of a bool, int32, ..., string, []byte at address p.
    A string header is the first two words of a slice header, so reading a
    []byte as a string gives its contents. *)
Definition rd_bool (v : val) : res bool :=
  match v with VBool b => OK b | _ => CR Confused end.
Definition rd_i32 (v : val) : res Z := n <- of_opt (mem32 v) ;; OK (s32 (Z.of_N n)).
Definition rd_u32 (v : val) : res N := of_opt (mem32 v).
Definition rd_f32 (v : val) : res N := of_opt (mem32 v).
Definition rd_i64 (v : val) : res Z := n <- of_opt (mem64 v) ;; OK (s64 n).
Definition rd_u64 (v : val) : res N := of_opt (mem64 v).
Definition rd_f64 (v : val) : res N := of_opt (mem64 v).
Definition rd_str (v : val) : res bytes :=
  match v with
  | VStr b => OK b
  | VBytes (Some b) => OK b
  | VBytes None => OK []
  | _ => CR Confused
  end.
Definition rd_bytes (v : val) : res (option bytes) :=
  match v with VBytes o => OK o | _ => CR Confused end.
(** p as a pointer to Option[T]: the flag and the address of the value. *)
Definition rd_opt (v : val) : res (bool * val) :=
  match v with VOpt s x => OK (s, x) | _ => CR Confused end.

(** Storing x at p as a T: only memory of exactly type T may be written. *)
Definition wr_bool (p : val) (b : bool) : option val :=
  match p with VBool _ => Some (VBool b) | _ => None end.
Definition wr_i32 (p : val) (z : Z) : option val :=
  match p with VI32 _ => Some (VI32 z) | _ => None end.
Definition wr_u32 (p : val) (n : N) : option val :=
  match p with VU32 _ => Some (VU32 n) | _ => None end.
Definition wr_f32 (p : val) (n : N) : option val :=
  match p with VF32 _ => Some (VF32 n) | _ => None end.
Definition wr_i64 (p : val) (z : Z) : option val :=
  match p with VI64 _ => Some (VI64 z) | _ => None end.
Definition wr_u64 (p : val) (n : N) : option val :=
  match p with VU64 _ => Some (VU64 n) | _ => None end.
Definition wr_f64 (p : val) (n : N) : option val :=
  match p with VF64 _ => Some (VF64 n) | _ => None end.
Definition wr_str (p : val) (b : bytes) : option val :=
  match p with VStr _ => Some (VStr b) | _ => None end.

(** Store, then [return n, err]. *)
Definition wret (w : option val) (n : Z) (e : option err) : dres val :=
  match w with Some p => DRet p n e | None => DCrash Confused end.
