(** Model of proto/gen/option/main.go, the generator of option_codec.go: one
    template for twelve kinds. The declarations of the template and of the file
    are of four forms, whose meaning is given here. *)
From Coq Require Import String Ascii.
From Verif Require Import Base Wire GoType Leaf GenReq.
Local Open Scope string_scope.

(** Forms of declarations (gen/option/main.go:18-45): a codec variable with its
    three functions; and functions that convert p to a pointer to Option[type]
    and call another function on the value in it. *)
Inductive odecl :=
| OVar (name size encode decode : string)
| OSize (name type callee : string)     (* if o.IsSome() { return callee(o.unsafePointer(), f) }; return 0 *)
| OEncode (name type callee : string)   (* if o.IsSome() { return callee(b, o.unsafePointer(), f) }; return b *)
| ODecode (name type callee : string).  (* v.some = true; return callee(b, v.unsafePointer()) *)

(** gen/option/main.go:49-53 *)
Record decoder := { dec_type : string; dec_name : string; dec_codec : string }.
(** gen/option/main.go:55-72; Codec is the name in lower case. *)
Definition mk (type name : string) : decoder := {| dec_type := type; dec_name := name; dec_codec := to_lower name |}.
Definition decoders : list decoder :=
  [mk "bool" "Bool"; mk "string" "String"; mk "int32" "Int32"; mk "uint32" "Uint32"; mk "int64" "Int64"; mk "uint64" "Uint64";
   mk "int32" "Zigzag32"; mk "int64" "Zigzag64"; mk "uint32" "Fixed32"; mk "uint64" "Fixed64"; mk "float32" "Float32"; mk "float64" "Float64"].
(** The body of the range in the template, gen/option/main.go:18-45 *)
Definition template (d : decoder) : list odecl :=
  [ OVar (dec_codec d ++ "OptionCodec") ("sizeOf" ++ dec_name d ++ "Option") ("encode" ++ dec_name d ++ "Option") ("decode" ++ dec_name d ++ "Option");
    OSize ("sizeOf" ++ dec_name d ++ "Option") (dec_type d) ("sizeOf" ++ dec_name d ++ "Required");
    OEncode ("encode" ++ dec_name d ++ "Option") (dec_type d) ("encode" ++ dec_name d ++ "Required");
    ODecode ("decode" ++ dec_name d ++ "Option") (dec_type d) ("decode" ++ dec_name d) ].
(** gen/option/main.go:74-91 *)
Definition expand (ds : list decoder) : list odecl := flat_map template ds.

(** option_codec.go *)
Definition option_file : list odecl :=
[
  (* 7-11, 13-19, 21-27, 29-33 *)
  OVar "boolOptionCodec" "sizeOfBoolOption" "encodeBoolOption" "decodeBoolOption";
  OSize "sizeOfBoolOption" "bool" "sizeOfBoolRequired";
  OEncode "encodeBoolOption" "bool" "encodeBoolRequired";
  ODecode "decodeBoolOption" "bool" "decodeBool";
  (* 35-39, 41-47, 49-55, 57-61 *)
  OVar "stringOptionCodec" "sizeOfStringOption" "encodeStringOption" "decodeStringOption";
  OSize "sizeOfStringOption" "string" "sizeOfStringRequired";
  OEncode "encodeStringOption" "string" "encodeStringRequired";
  ODecode "decodeStringOption" "string" "decodeString";
  (* 63-67, 69-75, 77-83, 85-89 *)
  OVar "int32OptionCodec" "sizeOfInt32Option" "encodeInt32Option" "decodeInt32Option";
  OSize "sizeOfInt32Option" "int32" "sizeOfInt32Required";
  OEncode "encodeInt32Option" "int32" "encodeInt32Required";
  ODecode "decodeInt32Option" "int32" "decodeInt32";
  (* 91-95, 97-103, 105-111, 113-117 *)
  OVar "uint32OptionCodec" "sizeOfUint32Option" "encodeUint32Option" "decodeUint32Option";
  OSize "sizeOfUint32Option" "uint32" "sizeOfUint32Required";
  OEncode "encodeUint32Option" "uint32" "encodeUint32Required";
  ODecode "decodeUint32Option" "uint32" "decodeUint32";
  (* 119-123, 125-131, 133-139, 141-145 *)
  OVar "int64OptionCodec" "sizeOfInt64Option" "encodeInt64Option" "decodeInt64Option";
  OSize "sizeOfInt64Option" "int64" "sizeOfInt64Required";
  OEncode "encodeInt64Option" "int64" "encodeInt64Required";
  ODecode "decodeInt64Option" "int64" "decodeInt64";
  (* 147-151, 153-159, 161-167, 169-173 *)
  OVar "uint64OptionCodec" "sizeOfUint64Option" "encodeUint64Option" "decodeUint64Option";
  OSize "sizeOfUint64Option" "uint64" "sizeOfUint64Required";
  OEncode "encodeUint64Option" "uint64" "encodeUint64Required";
  ODecode "decodeUint64Option" "uint64" "decodeUint64";
  (* 175-179, 181-187, 189-195, 197-201 *)
  OVar "zigzag32OptionCodec" "sizeOfZigzag32Option" "encodeZigzag32Option" "decodeZigzag32Option";
  OSize "sizeOfZigzag32Option" "int32" "sizeOfZigzag32Required";
  OEncode "encodeZigzag32Option" "int32" "encodeZigzag32Required";
  ODecode "decodeZigzag32Option" "int32" "decodeZigzag32";
  (* 203-207, 209-215, 217-223, 225-229 *)
  OVar "zigzag64OptionCodec" "sizeOfZigzag64Option" "encodeZigzag64Option" "decodeZigzag64Option";
  OSize "sizeOfZigzag64Option" "int64" "sizeOfZigzag64Required";
  OEncode "encodeZigzag64Option" "int64" "encodeZigzag64Required";
  ODecode "decodeZigzag64Option" "int64" "decodeZigzag64";
  (* 231-235, 237-243, 245-251, 253-257 *)
  OVar "fixed32OptionCodec" "sizeOfFixed32Option" "encodeFixed32Option" "decodeFixed32Option";
  OSize "sizeOfFixed32Option" "uint32" "sizeOfFixed32Required";
  OEncode "encodeFixed32Option" "uint32" "encodeFixed32Required";
  ODecode "decodeFixed32Option" "uint32" "decodeFixed32";
  (* 259-263, 265-271, 273-279, 281-285 *)
  OVar "fixed64OptionCodec" "sizeOfFixed64Option" "encodeFixed64Option" "decodeFixed64Option";
  OSize "sizeOfFixed64Option" "uint64" "sizeOfFixed64Required";
  OEncode "encodeFixed64Option" "uint64" "encodeFixed64Required";
  ODecode "decodeFixed64Option" "uint64" "decodeFixed64";
  (* 287-291, 293-299, 301-307, 309-313 *)
  OVar "float32OptionCodec" "sizeOfFloat32Option" "encodeFloat32Option" "decodeFloat32Option";
  OSize "sizeOfFloat32Option" "float32" "sizeOfFloat32Required";
  OEncode "encodeFloat32Option" "float32" "encodeFloat32Required";
  ODecode "decodeFloat32Option" "float32" "decodeFloat32";
  (* 315-319, 321-327, 329-335, 337-341 *)
  OVar "float64OptionCodec" "sizeOfFloat64Option" "encodeFloat64Option" "decodeFloat64Option";
  OSize "sizeOfFloat64Option" "float64" "sizeOfFloat64Required";
  OEncode "encodeFloat64Option" "float64" "encodeFloat64Required";
  ODecode "decodeFloat64Option" "float64" "decodeFloat64" ].

(** ** Meaning *)
(** Declarations are found by name. *)
Fixpoint ovar_of (f : list odecl) (name : string) : option (string * string * string) :=
  match f with
  | [] => None
  | OVar n s e d :: f => if (n =? name)%string then Some (s, e, d) else ovar_of f name
  | _ :: f => ovar_of f name
  end.
Fixpoint osize_of (f : list odecl) (name : string) : option (string * string) :=
  match f with
  | [] => None
  | OSize n t c :: f => if (n =? name)%string then Some (t, c) else osize_of f name
  | _ :: f => osize_of f name
  end.
Fixpoint oencode_of (f : list odecl) (name : string) : option (string * string) :=
  match f with
  | [] => None
  | OEncode n t c :: f => if (n =? name)%string then Some (t, c) else oencode_of f name
  | _ :: f => oencode_of f name
  end.
Fixpoint odecode_of (f : list odecl) (name : string) : option (string * string) :=
  match f with
  | [] => None
  | ODecode n t c :: f => if (n =? name)%string then Some (t, c) else odecode_of f name
  | _ :: f => odecode_of f name
  end.
(** The decode functions of normal_codec.go by name (their bodies are no part
    of the syntax of GenReq.v). *)
Definition decode_named (name : string) : option (bytes -> val -> dres val) :=
  if name =? "decodeBool" then Some decodeBool
  else if name =? "decodeString" then Some decodeString
  else if name =? "decodeInt32" then Some decodeInt32
  else if name =? "decodeUint32" then Some decodeUint32
  else if name =? "decodeInt64" then Some decodeInt64
  else if name =? "decodeUint64" then Some decodeUint64
  else if name =? "decodeZigzag32" then Some decodeZigzag32
  else if name =? "decodeZigzag64" then Some decodeZigzag64
  else if name =? "decodeFixed32" then Some decodeFixed32
  else if name =? "decodeFixed64" then Some decodeFixed64
  else if name =? "decodeFloat32" then Some decodeFloat32
  else if name =? "decodeFloat64" then Some decodeFloat64 else None.
(** The conversion of p to a pointer to Option[type]: the bytes there are taken
    for a value of that type. Another type than the one of the memory is
    confusion. *)
Definition type_kind (type : string) : option skind :=
  if type =? "bool" then Some KBool else if type =? "string" then Some KString else if type =? "int32" then Some KInt32
  else if type =? "uint32" then Some KUint32 else if type =? "int64" then Some KInt64 else if type =? "uint64" then Some KUint64
  else if type =? "float32" then Some KFloat32 else if type =? "float64" then Some KFloat64 else None.
Definition has_kind (k : skind) (v : val) : bool :=
  match k, v with
  | KBool, VBool _ | KString, VStr _ | KInt32, VI32 _ | KUint32, VU32 _ | KInt64, VI64 _ | KUint64, VU64 _ | KFloat32, VF32 _ | KFloat64, VF64 _ => true
  | _, _ => false
  end.
Definition as_option (type : string) (p : val) : res (goption val) :=
  match type_kind type, p with
  | Some k, VOpt s v => if has_kind k v then OK {| some := s; value := v |} else CR Confused
  | _, _ => CR Confused
  end.
(** The three forms of functions. *)
Definition run_osize (req : list decl) (d : string * string) (p : val) (f : fmeta) : res Z :=
  o <- as_option (fst d) p ;;
  if IsSome o then match body_of req (snd d) with Some body => run_size body (value o) f | None => wrong end else OK 0%Z.
Definition run_oencode (req : list decl) (d : string * string) (b : bytes) (p : val) (f : fmeta) : res bytes :=
  o <- as_option (fst d) p ;;
  if IsSome o then match body_of req (snd d) with Some body => run_encode body b (value o) f | None => wrong end else OK b.
Definition run_odecode (d : string * string) (b : bytes) (p : val) : dres val :=
  match as_option (fst d) p with
  | OK o => match decode_named (snd d) with Some dec => dmap (fun v => VOpt true v) (dec b (value o)) | None => DCrash Confused end
  | CR x => DCrash x
  end.
