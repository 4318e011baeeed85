(** Model of proto/gen/required/main.go, the generator of required_codec.go:
    a function from the syntax of normal_codec.go to the syntax of
    required_codec.go. Both files are transcribed below as syntax trees of the
    small part of Go they use, with its semantics. *)
From Coq Require Import String Ascii.
From Verif Require Import Base Wire GoType Leaf.
Local Open Scope string_scope.

(** ** Syntax *)

(** The types T of loads written as a dereference of p converted to a pointer to T. *)
Inductive loadty := LBool | LBytes | LString | LF32 | LF64 | LI32 | LI64 | LU32 | LU64.

Inductive expr :=
| EVar                           (* v *)
| EBuf                           (* b *)
| ELoad (t : loadty)             (* the T at address p *)
| ENonzero (e : expr)            (* e != 0, e != "", e != nil *)
| EOr (a b : expr)               (* a || b *)
| EInt (n : Z)
| ETagsize                       (* f.tagsize *)
| EWiretag                       (* f.wiretag *)
| EAdd (a b : expr)
| ECall (f : string) (e : expr)
| ECall2 (f : string) (a b : expr).
Inductive stmt :=
| SDef (e : expr)                                              (* v := e *)
| SSet (e : expr)                                              (* b = e *)
| SIf (init : option expr) (cond : expr) (yes no : list stmt)  (* if v := init; cond { } else { } *)
| SRet (e : expr).
(** Top-level declarations. Bodies of functions that the generator drops
    (decode functions) are not transcribed. *)
Inductive decl :=
| DImport (paths : list string)
| DVar (name size encode decode : string)                      (* var name = codec{size: , encode: , decode: } *)
| DFunc (name : string) (body : list stmt).

(** ** Semantics *)
Inductive gval := GBool (b : bool) | GInt (z : Z) | GUint (n : N) | GF32 (bits : N) | GF64 (bits : N) | GStr (b : bytes) | GBytes (o : option bytes).

(** Loads, as in Leaf.v. *)
Definition load (t : loadty) (p : val) : res gval :=
  match t with
  | LBool => x <- rd_bool p ;; OK (GBool x)
  | LBytes => x <- rd_bytes p ;; OK (GBytes x)
  | LString => x <- rd_str p ;; OK (GStr x)
  | LF32 => x <- rd_f32 p ;; OK (GF32 x)
  | LF64 => x <- rd_f64 p ;; OK (GF64 x)
  | LI32 => x <- rd_i32 p ;; OK (GInt x)
  | LI64 => x <- rd_i64 p ;; OK (GInt x)
  | LU32 => x <- rd_u32 p ;; OK (GUint x)
  | LU64 => x <- rd_u64 p ;; OK (GUint x)
  end.
(** Comparison with the zero constant of the type; a float is compared as a
    number: -0 equals 0. *)
Definition nonzero (v : gval) : option bool :=
  match v with
  | GInt z => Some (negb (z =? 0)%Z)
  | GUint n => Some (negb (n =? 0)%N)
  | GF32 n => Some (negb (N.land n 2147483647 =? 0)%N)
  | GF64 n => Some (negb (N.land n 9223372036854775807 =? 0)%N)
  | GStr b => Some (match b with [] => false | _ => true end)
  | GBytes o => Some (match o with None => false | _ => true end)
  | GBool _ => None
  end.
(** The calls. float64(x) of a float32 is only used under math.Signbit; it
    keeps the sign and is modelled by the float32. *)
Definition call (f : string) (v : gval) : option gval :=
  match v with
  | GInt z =>
    if f =? "uint64" then Some (GUint (u64 z))
    else if f =? "int64" then Some (GInt z)
    else if f =? "int" then Some (GInt z)
    else if f =? "encodeZigZag64" then Some (GUint (encodeZigZag64 z))
    else if f =? "sizeOfVarlen" then Some (GInt (sizeOfVarlen z)) else None
  | GUint n =>
    if f =? "uint64" then Some (GUint n)
    else if f =? "sizeOfVarint" then Some (GInt (sizeOfVarint n)) else None
  | GF32 n =>
    if f =? "math.Float32bits" then Some (GUint n)
    else if f =? "float64" then Some (GF32 n)
    else if f =? "math.Signbit" then Some (GBool (N.testbit n 31)) else None
  | GF64 n =>
    if f =? "math.Float64bits" then Some (GUint n)
    else if f =? "math.Signbit" then Some (GBool (N.testbit n 63)) else None
  | GStr b => if f =? "len" then Some (GInt (zlen b)) else None
  | GBytes o => if f =? "len" then Some (GInt (zlen match o with Some b => b | None => [] end)) else None
  | GBool _ => None
  end%string.
Definition call2 (f : string) (a b : gval) : option gval :=
  match a, b with
  | GBytes (Some x), GUint n =>
    if f =? "appendVarint" then Some (GBytes (Some (appendVarint x n)))
    else if f =? "encodeLE32" then Some (GBytes (Some (encodeLE32 x n)))
    else if f =? "encodeLE64" then Some (GBytes (Some (encodeLE64 x n))) else None
  | GBytes (Some x), GInt z => if f =? "append" then Some (GBytes (Some (x ++ [Z.to_N z])%list)) else None
  | GBytes (Some x), GStr y => if f =? "append..." then Some (GBytes (Some (x ++ y)%list)) else None
  | GBytes (Some x), GBytes y => if f =? "append..." then Some (GBytes (Some (x ++ match y with Some y => y | None => [] end)%list)) else None
  | _, _ => None
  end%string.

(** State of a function call: the memory at p, the field f, the variables v
    and b. *)
Record env := { e_p : val; e_f : fmeta; e_v : option gval; e_b : bytes }.
Definition wrong {A} : res A := CR Confused.    (* not a program of this form *)
Definition lift {A} (o : option A) : res A := match o with Some a => OK a | None => wrong end.
Fixpoint eval (s : env) (e : expr) : res gval :=
  match e with
  | EVar => lift (e_v s)
  | EBuf => OK (GBytes (Some (e_b s)))
  | ELoad t => load t (e_p s)
  | ENonzero e => x <- eval s e ;; b <- lift (nonzero x) ;; OK (GBool b)
  | EOr a b =>
    x <- eval s a ;;
    match x with GBool true => OK (GBool true) | GBool false => eval s b | _ => wrong end
  | EInt n => OK (GInt n)
  | ETagsize => OK (GInt (tagsize (e_f s)))
  | EWiretag => OK (GUint (wiretag (e_f s)))
  | EAdd a b =>
    x <- eval s a ;; y <- eval s b ;;
    match x, y with GInt x, GInt y => OK (GInt (x + y)) | _, _ => wrong end
  | ECall f e => x <- eval s e ;; lift (call f x)
  | ECall2 f a b => x <- eval s a ;; y <- eval s b ;; lift (call2 f x y)
  end.
Definition set_v (s : env) (v : gval) : env := {| e_p := e_p s; e_f := e_f s; e_v := Some v; e_b := e_b s |}.
Definition set_b (s : env) (v : gval) : res env :=
  match v with GBytes (Some b) => OK {| e_p := e_p s; e_f := e_f s; e_v := e_v s; e_b := b |} | _ => wrong end.
(** Running statements: the state at the end and the returned value, if any.
    There is one variable v; its scope is not tracked (the compiler rejects
    uses out of scope). *)
Fixpoint exec1 (st : stmt) (s : env) {struct st} : res (env * option gval) :=
  let fix execs (l : list stmt) (s : env) : res (env * option gval) :=
    match l with
    | [] => OK (s, None)
    | st :: l => r <- exec1 st s ;; match r with (s, None) => execs l s | (_, Some _) => OK r end
    end in
  match st with
  | SDef e => v <- eval s e ;; OK (set_v s v, None)
  | SSet e => v <- eval s e ;; s <- set_b s v ;; OK (s, None)
  | SIf init cond yes no =>
    s <- match init with Some e => v <- eval s e ;; OK (set_v s v) | None => OK s end ;;
    c <- eval s cond ;;
    match c with GBool true => execs yes s | GBool false => execs no s | _ => wrong end
  | SRet e => v <- eval s e ;; OK (s, Some v)
  end.
Fixpoint exec (l : list stmt) (s : env) : res (env * option gval) :=
  match l with
  | [] => OK (s, None)
  | st :: l => r <- exec1 st s ;; match r with (s, None) => exec l s | (_, Some _) => OK r end
  end.
(** A size function and an encode function as values. *)
Definition run_size (body : list stmt) (p : val) (f : fmeta) : res Z :=
  r <- exec body {| e_p := p; e_f := f; e_v := None; e_b := [] |} ;;
  match r with (_, Some (GInt z)) => OK z | _ => wrong end.
Definition run_encode (body : list stmt) (b : bytes) (p : val) (f : fmeta) : res bytes :=
  r <- exec body {| e_p := p; e_f := f; e_v := None; e_b := b |} ;;
  match r with (_, Some (GBytes (Some b))) => OK b | _ => wrong end.

(** ** The generator *)
Definition ascii_lower (c : ascii) : ascii :=
  let n := nat_of_ascii c in if (Nat.leb 65 n && Nat.leb n 90)%bool then ascii_of_nat (n + 32) else c.
(** strings.ToLower, HasPrefix, TrimPrefix, TrimSuffix *)
Fixpoint to_lower (s : string) : string :=
  match s with EmptyString => EmptyString | String c s => String (ascii_lower c) (to_lower s) end.
Definition has_prefix (s p : string) : bool := String.prefix p s.
Definition trim_prefix (s p : string) : string :=
  if String.prefix p s then substring (String.length p) (String.length s - String.length p) s else s.
Definition trim_suffix (s p : string) : string :=
  let n := (String.length s - String.length p)%nat in
  if (Nat.leb (String.length p) (String.length s) && (substring n (String.length p) s =? p))%bool then substring 0 n s else s.

(** gen/required/main.go:22-27 *)
Definition needTransform (s : string) : bool :=
  existsb (String.eqb s) ["bool"; "string"; "float32"; "float64"; "int32"; "int64"; "uint32"; "uint64"; "fixed32"; "fixed64"; "zigzag32"; "zigzag64"].
(** gen/required/main.go:81-97 *)
Definition filterImport (paths : list string) : list string := filter (fun p => negb (p =? "io")) paths.
(** gen/required/main.go:99-126; the codec{...} literal lists size, encode and
    decode. [None]: the declaration is dropped. *)
Definition transformVar (name size encode decode : string) : option decl :=
  let base := trim_suffix name "Codec" in
  if needTransform (trim_suffix base "Codec")
  then Some (DVar (trim_suffix base "Codec" ++ "RequiredCodec") (size ++ "Required") (encode ++ "Required") decode)
  else None.
(** gen/required/main.go:128-156. [is_ret]: a block's own statements contain a
    return. An if statement is replaced by its initialisation and its body;
    what follows a body with a return is dropped. *)
Definition is_ret (st : stmt) : bool := match st with SRet _ => true | _ => false end.
Fixpoint transformFuncBody (body : list stmt) : list stmt :=
  match body with
  | [] => []
  | SIf init _ yes _ :: rest =>
    (match init with Some e => [SDef e] | None => [] end ++ yes ++
     if existsb is_ret yes then [] else transformFuncBody rest)%list
  | st :: rest => st :: transformFuncBody rest
  end.
(** gen/required/main.go:46-79. Methods are not modelled: normal_codec.go has none. *)
Definition transform1 (d : decl) : list decl :=
  match d with
  | DImport paths => [DImport (filterImport paths)]
  | DVar name s e dd => match transformVar name s e dd with Some d => [d] | None => [] end
  | DFunc name body =>
    if (has_prefix name "size" || has_prefix name "encode")%bool then
      if needTransform (to_lower (trim_prefix (trim_prefix name "sizeOf") "encode"))
      then [DFunc (name ++ "Required") (transformFuncBody body)] else []
    else []
  end.
Definition transform (f : list decl) : list decl := flat_map transform1 f.

(** ** The two files *)
Notation tag_ := (SSet (ECall2 "appendVarint" EBuf EWiretag)).
Notation put_ e := (SSet (ECall2 "appendVarint" EBuf e)).
Notation plus_tag e := (EAdd e ETagsize).

(** normal_codec.go *)
Definition normal_file : list decl :=
[ DImport ["io"; "math"; "unsafe"];
  (* 9-13, 15-20, 22-32, 34-40 *)
  DVar "boolCodec" "sizeOfBool" "encodeBool" "decodeBool";
  DFunc "sizeOfBool" [SIf None (ELoad LBool) [SRet (EAdd (EInt 1) (ECall "int" ETagsize))] []; SRet (EInt 0)];
  DFunc "encodeBool" [SIf None (ELoad LBool) [tag_; SIf None (ELoad LBool) [SSet (ECall2 "append" EBuf (EInt 1))] [SSet (ECall2 "append" EBuf (EInt 0))]] []; SRet EBuf];
  DFunc "decodeBool" [];
  (* 42-46, 48-54, 56-64, 66-74 *)
  DVar "bytesCodec" "sizeOfBytes" "encodeBytes" "decodeBytes";
  DFunc "sizeOfBytes" [SDef (ELoad LBytes); SIf None (ENonzero EVar) [SRet (plus_tag (ECall "sizeOfVarlen" (ECall "len" EVar)))] []; SRet (EInt 0)];
  DFunc "encodeBytes" [SDef (ELoad LBytes); SIf None (ENonzero EVar) [tag_; put_ (ECall "uint64" (ECall "len" EVar)); SSet (ECall2 "append..." EBuf EVar)] []; SRet EBuf];
  DFunc "decodeBytes" [];
  (* 76-80, 82-88, 90-98, 100-108 *)
  DVar "stringCodec" "sizeOfString" "encodeString" "decodeString";
  DFunc "sizeOfString" [SDef (ELoad LString); SIf None (ENonzero EVar) [SRet (plus_tag (ECall "sizeOfVarlen" (ECall "len" EVar)))] []; SRet (EInt 0)];
  DFunc "encodeString" [SDef (ELoad LString); SIf None (ENonzero EVar) [tag_; put_ (ECall "uint64" (ECall "len" EVar)); SSet (ECall2 "append..." EBuf EVar)] []; SRet EBuf];
  DFunc "decodeString" [];
  (* 110-114, 116-121, 123-129, 131-135 *)
  DVar "float32Codec" "sizeOfFloat32" "encodeFloat32" "decodeFloat32";
  DFunc "sizeOfFloat32" [SIf None (EOr (ENonzero (ELoad LF32)) (ECall "math.Signbit" (ECall "float64" (ELoad LF32)))) [SRet (EAdd (EInt 4) (ECall "int" ETagsize))] []; SRet (EInt 0)];
  DFunc "encodeFloat32" [SIf (Some (ELoad LF32)) (EOr (ENonzero EVar) (ECall "math.Signbit" (ECall "float64" EVar)))
                           [tag_; SSet (ECall2 "encodeLE32" EBuf (ECall "math.Float32bits" EVar))] []; SRet EBuf];
  DFunc "decodeFloat32" [];
  (* 137-141, 143-148, 150-156, 158-162 *)
  DVar "float64Codec" "sizeOfFloat64" "encodeFloat64" "decodeFloat64";
  DFunc "sizeOfFloat64" [SIf None (EOr (ENonzero (ELoad LF64)) (ECall "math.Signbit" (ELoad LF64))) [SRet (EAdd (EInt 8) (ECall "int" ETagsize))] []; SRet (EInt 0)];
  DFunc "encodeFloat64" [SIf (Some (ELoad LF64)) (EOr (ENonzero EVar) (ECall "math.Signbit" EVar))
                           [tag_; SSet (ECall2 "encodeLE64" EBuf (ECall "math.Float64bits" EVar))] []; SRet EBuf];
  DFunc "decodeFloat64" [];
  (* 164-168, 170-176, 178-185, 187-191 *)
  DVar "int32Codec" "sizeOfInt32" "encodeInt32" "decodeInt32";
  DFunc "sizeOfInt32" [SDef (ELoad LI32); SIf None (ENonzero EVar) [SRet (plus_tag (ECall "sizeOfVarint" (ECall "uint64" EVar)))] []; SRet (EInt 0)];
  DFunc "encodeInt32" [SDef (ELoad LI32); SIf None (ENonzero EVar) [tag_; put_ (ECall "uint64" EVar)] []; SRet EBuf];
  DFunc "decodeInt32" [];
  (* 193-197, 199-205, 207-214, 216-220 *)
  DVar "int64Codec" "sizeOfInt64" "encodeInt64" "decodeInt64";
  DFunc "sizeOfInt64" [SDef (ELoad LI64); SIf None (ENonzero EVar) [SRet (plus_tag (ECall "sizeOfVarint" (ECall "uint64" EVar)))] []; SRet (EInt 0)];
  DFunc "encodeInt64" [SDef (ELoad LI64); SIf None (ENonzero EVar) [tag_; put_ (ECall "uint64" EVar)] []; SRet EBuf];
  DFunc "decodeInt64" [];
  (* 222-226, 228-233, 235-241, 243-247 *)
  DVar "uint32Codec" "sizeOfUint32" "encodeUint32" "decodeUint32";
  DFunc "sizeOfUint32" [SIf (Some (ELoad LU32)) (ENonzero EVar) [SRet (plus_tag (ECall "sizeOfVarint" (ECall "uint64" EVar)))] []; SRet (EInt 0)];
  DFunc "encodeUint32" [SIf (Some (ELoad LU32)) (ENonzero EVar) [tag_; put_ (ECall "uint64" EVar)] []; SRet EBuf];
  DFunc "decodeUint32" [];
  (* 249-253, 255-260, 262-268, 270-274 *)
  DVar "fixed32Codec" "sizeOfFixed32" "encodeFixed32" "decodeFixed32";
  DFunc "sizeOfFixed32" [SIf None (ENonzero (ELoad LU32)) [SRet (plus_tag (EInt 4))] []; SRet (EInt 0)];
  DFunc "encodeFixed32" [SIf (Some (ELoad LU32)) (ENonzero EVar) [tag_; SSet (ECall2 "encodeLE32" EBuf EVar)] []; SRet EBuf];
  DFunc "decodeFixed32" [];
  (* 276-280, 282-287, 289-295, 297-301 *)
  DVar "uint64Codec" "sizeOfUint64" "encodeUint64" "decodeUint64";
  DFunc "sizeOfUint64" [SIf (Some (ELoad LU64)) (ENonzero EVar) [SRet (plus_tag (ECall "sizeOfVarint" EVar))] []; SRet (EInt 0)];
  DFunc "encodeUint64" [SIf (Some (ELoad LU64)) (ENonzero EVar) [tag_; put_ EVar] []; SRet EBuf];
  DFunc "decodeUint64" [];
  (* 303-307, 309-314, 316-322, 324-328 *)
  DVar "fixed64Codec" "sizeOfFixed64" "encodeFixed64" "decodeFixed64";
  DFunc "sizeOfFixed64" [SIf None (ENonzero (ELoad LU64)) [SRet (plus_tag (EInt 8))] []; SRet (EInt 0)];
  DFunc "encodeFixed64" [SIf (Some (ELoad LU64)) (ENonzero EVar) [tag_; SSet (ECall2 "encodeLE64" EBuf EVar)] []; SRet EBuf];
  DFunc "decodeFixed64" [];
  (* 330-334, 336-341, 343-349, 351-355 *)
  DVar "zigzag32Codec" "sizeOfZigzag32" "encodeZigzag32" "decodeZigzag32";
  DFunc "sizeOfZigzag32" [SIf (Some (ELoad LI32)) (ENonzero EVar) [SRet (plus_tag (ECall "sizeOfVarint" (ECall "encodeZigZag64" (ECall "int64" EVar))))] []; SRet (EInt 0)];
  DFunc "encodeZigzag32" [SIf (Some (ELoad LI32)) (ENonzero EVar) [tag_; put_ (ECall "encodeZigZag64" (ECall "int64" EVar))] []; SRet EBuf];
  DFunc "decodeZigzag32" [];
  (* 357-361, 363-368, 370-376, 378-382 *)
  DVar "zigzag64Codec" "sizeOfZigzag64" "encodeZigzag64" "decodeZigzag64";
  DFunc "sizeOfZigzag64" [SIf (Some (ELoad LI64)) (ENonzero EVar) [SRet (plus_tag (ECall "sizeOfVarint" (ECall "encodeZigZag64" EVar)))] []; SRet (EInt 0)];
  DFunc "encodeZigzag64" [SIf (Some (ELoad LI64)) (ENonzero EVar) [tag_; put_ (ECall "encodeZigZag64" EVar)] []; SRet EBuf];
  DFunc "decodeZigzag64" [] ].

(** required_codec.go *)
Definition required_file : list decl :=
[ DImport ["math"; "unsafe"];
  (* 10, 12-14, 15-23 *)
  DVar "boolRequiredCodec" "sizeOfBoolRequired" "encodeBoolRequired" "decodeBool";
  DFunc "sizeOfBoolRequired" [SRet (EAdd (EInt 1) (ECall "int" ETagsize))];
  DFunc "encodeBoolRequired" [tag_; SIf None (ELoad LBool) [SSet (ECall2 "append" EBuf (EInt 1))] [SSet (ECall2 "append" EBuf (EInt 0))]; SRet EBuf];
  (* 25, 27-30, 31-37 *)
  DVar "stringRequiredCodec" "sizeOfStringRequired" "encodeStringRequired" "decodeString";
  DFunc "sizeOfStringRequired" [SDef (ELoad LString); SRet (plus_tag (ECall "sizeOfVarlen" (ECall "len" EVar)))];
  DFunc "encodeStringRequired" [SDef (ELoad LString); tag_; put_ (ECall "uint64" (ECall "len" EVar)); SSet (ECall2 "append..." EBuf EVar); SRet EBuf];
  (* 39, 41-43, 44-49 *)
  DVar "float32RequiredCodec" "sizeOfFloat32Required" "encodeFloat32Required" "decodeFloat32";
  DFunc "sizeOfFloat32Required" [SRet (EAdd (EInt 4) (ECall "int" ETagsize))];
  DFunc "encodeFloat32Required" [SDef (ELoad LF32); tag_; SSet (ECall2 "encodeLE32" EBuf (ECall "math.Float32bits" EVar)); SRet EBuf];
  (* 51, 53-55, 56-61 *)
  DVar "float64RequiredCodec" "sizeOfFloat64Required" "encodeFloat64Required" "decodeFloat64";
  DFunc "sizeOfFloat64Required" [SRet (EAdd (EInt 8) (ECall "int" ETagsize))];
  DFunc "encodeFloat64Required" [SDef (ELoad LF64); tag_; SSet (ECall2 "encodeLE64" EBuf (ECall "math.Float64bits" EVar)); SRet EBuf];
  (* 63, 65-68, 69-74 *)
  DVar "int32RequiredCodec" "sizeOfInt32Required" "encodeInt32Required" "decodeInt32";
  DFunc "sizeOfInt32Required" [SDef (ELoad LI32); SRet (plus_tag (ECall "sizeOfVarint" (ECall "uint64" EVar)))];
  DFunc "encodeInt32Required" [SDef (ELoad LI32); tag_; put_ (ECall "uint64" EVar); SRet EBuf];
  (* 76, 78-81, 82-87 *)
  DVar "int64RequiredCodec" "sizeOfInt64Required" "encodeInt64Required" "decodeInt64";
  DFunc "sizeOfInt64Required" [SDef (ELoad LI64); SRet (plus_tag (ECall "sizeOfVarint" (ECall "uint64" EVar)))];
  DFunc "encodeInt64Required" [SDef (ELoad LI64); tag_; put_ (ECall "uint64" EVar); SRet EBuf];
  (* 89, 91-94, 95-100 *)
  DVar "uint32RequiredCodec" "sizeOfUint32Required" "encodeUint32Required" "decodeUint32";
  DFunc "sizeOfUint32Required" [SDef (ELoad LU32); SRet (plus_tag (ECall "sizeOfVarint" (ECall "uint64" EVar)))];
  DFunc "encodeUint32Required" [SDef (ELoad LU32); tag_; put_ (ECall "uint64" EVar); SRet EBuf];
  (* 102, 104-106, 107-112 *)
  DVar "fixed32RequiredCodec" "sizeOfFixed32Required" "encodeFixed32Required" "decodeFixed32";
  DFunc "sizeOfFixed32Required" [SRet (plus_tag (EInt 4))];
  DFunc "encodeFixed32Required" [SDef (ELoad LU32); tag_; SSet (ECall2 "encodeLE32" EBuf EVar); SRet EBuf];
  (* 114, 116-119, 120-125 *)
  DVar "uint64RequiredCodec" "sizeOfUint64Required" "encodeUint64Required" "decodeUint64";
  DFunc "sizeOfUint64Required" [SDef (ELoad LU64); SRet (plus_tag (ECall "sizeOfVarint" EVar))];
  DFunc "encodeUint64Required" [SDef (ELoad LU64); tag_; put_ EVar; SRet EBuf];
  (* 127, 129-131, 132-137 *)
  DVar "fixed64RequiredCodec" "sizeOfFixed64Required" "encodeFixed64Required" "decodeFixed64";
  DFunc "sizeOfFixed64Required" [SRet (plus_tag (EInt 8))];
  DFunc "encodeFixed64Required" [SDef (ELoad LU64); tag_; SSet (ECall2 "encodeLE64" EBuf EVar); SRet EBuf];
  (* 139, 141-144, 145-150 *)
  DVar "zigzag32RequiredCodec" "sizeOfZigzag32Required" "encodeZigzag32Required" "decodeZigzag32";
  DFunc "sizeOfZigzag32Required" [SDef (ELoad LI32); SRet (plus_tag (ECall "sizeOfVarint" (ECall "encodeZigZag64" (ECall "int64" EVar))))];
  DFunc "encodeZigzag32Required" [SDef (ELoad LI32); tag_; put_ (ECall "encodeZigZag64" (ECall "int64" EVar)); SRet EBuf];
  (* 152, 154-157, 158-163 *)
  DVar "zigzag64RequiredCodec" "sizeOfZigzag64Required" "encodeZigzag64Required" "decodeZigzag64";
  DFunc "sizeOfZigzag64Required" [SDef (ELoad LI64); SRet (plus_tag (ECall "sizeOfVarint" (ECall "encodeZigZag64" EVar)))];
  DFunc "encodeZigzag64Required" [SDef (ELoad LI64); tag_; put_ (ECall "encodeZigZag64" EVar); SRet EBuf] ].

(** The body of a function of a file. *)
Fixpoint body_of (f : list decl) (name : string) : option (list stmt) :=
  match f with
  | [] => None
  | DFunc n b :: f => if (n =? name)%string then Some b else body_of f name
  | _ :: f => body_of f name
  end.
(** The codec variable of a file. *)
Fixpoint var_of (f : list decl) (name : string) : option (string * string * string) :=
  match f with
  | [] => None
  | DVar n s e d :: f => if (n =? name)%string then Some (s, e, d) else var_of f name
  | _ :: f => var_of f name
  end.
(** Names of the twelve kinds as they occur in variable names. *)
Definition kind_name (w : wk) : string :=
  match w with
  | WBool => "bool" | WString => "string" | WFloat32 => "float32" | WFloat64 => "float64"
  | WInt32 => "int32" | WInt64 => "int64" | WUint32 => "uint32" | WUint64 => "uint64"
  | WFixed32 => "fixed32" | WFixed64 => "fixed64" | WZigzag32 => "zigzag32" | WZigzag64 => "zigzag64"
  end.
