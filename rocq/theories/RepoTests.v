(** The repository's own test files, run on the model: their types, their
    values, and what they check. These are tests of the model, not proofs about
    it; the fuzz targets are proved for all arguments in PropsExact.v. *)
From Coq Require Import String.
From Verif Require Import Base Wire GoType Leaf Codec Tag Walker Api ProtoGen SpecWire SpecMsg SpecExact Sample.
Local Open Scope N_scope.

Definition unexported (tag : string) (t : gotype) : gofield :=
  {| gf_exported := false; gf_tag := Some tag; gf_key := ""; gf_val := ""; gf_type := t |}.

(** proto/internal/testproto/proto2.pb.go:10-31 *)
Definition Proto2_fields (nested : nat) : list gofield :=
  [ sfield "varint,1,opt" (TOption KBool); sfield "varint,2,opt" (TOption KInt32); sfield "varint,3,opt" (TOption KUint32);
    sfield "varint,4,opt" (TOption KInt64); sfield "varint,5,opt" (TOption KUint64); sfield "fixed32,6,opt" (TOption KFloat32);
    sfield "fixed64,7,opt" (TOption KFloat64); sfield "bytes,8,opt" (TOption KString); sfield "bytes,9,opt" TBytes;
    sfield "fixed32,10,opt" (TOption KUint32); sfield "fixed64,11,opt" (TOption KUint64); sfield "zigzag32,12,opt" (TOption KInt32);
    sfield "zigzag64,13,opt" (TOption KInt64); sfield "bytes,14,opt" (TMsg nested) ].
Definition Nested_fields : list gofield :=
  [ sfield "varint,1,opt" (TOption KInt32); sfield "varint,2,opt" (TOption KInt64); sfield "bytes,3,opt" (TOption KString) ].

(** The types of proto_test.go, encode_test.go and decode_test.go. *)
Definition testD : decls :=
  [ (* 0, 1 *) Proto2_fields 1; Nested_fields;
    (* 2: message, proto_test.go:22-27 *)
    [ sfield "varint,1,opt" (TScalar KInt32); sfield "varint,2,opt" (TScalar KInt32); sfield "varint,3,opt" (TScalar KInt32); sfield "bytes,4,opt" (TMsg 3) ];
    (* 3: submessage, proto_test.go:29-32 *)
    [ sfield "bytes,1,opt" (TScalar KString); sfield "bytes,2,opt" (TScalar KString) ];
    (* 4: key, proto_test.go:17-20 *)
    [ sfield "varint,1,opt" (TScalar KUint64); sfield "varint,2,opt" (TScalar KUint64) ];
    (* 5: proto_test.go:46-49 *)
    [ sfield "zigzag64,1,opt" (TScalar KInt64); sfield "zigzag64,2,opt" (TScalar KInt64) ];
    (* 6: proto_test.go:52-54 *) [ sfield "bytes,1,opt" (TMsg 2) ];
    (* 7: proto_test.go:55-58 *) [ sfield "bytes,1,opt" (TMsg 2); sfield "bytes,2,opt" (TMsg 2) ];
    (* 8: proto_test.go:64-66 *) [ sfield "varint,1,rep" (TSlice (TScalar KInt32)) ];
    (* 9: proto_test.go:76-78 *) [ sfield "bytes,1,rep" (TSlice (TScalar KString)) ];
    (* 10: proto_test.go:85-87 *) [ sfield "bytes,1,opt" (TSlice (TMsg 4)) ];
    (* 11, 12: proto_test.go:188-194 *) [ sfield "varint,1,opt" (TScalar KUint32) ]; [ sfield "varint,1,opt" (TScalar KInt32) ];
    (* 13: proto_test.go:203-205 *) [ sfield "varint,1,opt" (TPtr (TScalar KBool)) ];
    (* 14, 15: proto_test.go:216-223 *)
    [ unexported "varint,1,opt" (TScalar KUint64); unexported "varint,2,opt" (TScalar KUint64) ];
    [ sfield "varint,1,opt" (TScalar KUint64); sfield "varint,2,opt" (TScalar KUint64) ];
    (* 16: proto_test.go:253-256 *) [ sfield "fixed32,1,opt" (TScalar KUint32); sfield "fixed64,2,opt" (TScalar KUint64) ];
    (* 17: proto_test.go:281-284 *) [ sfield "fixed32,1,opt" (TOption KUint32); sfield "fixed64,2,opt" (TOption KUint64) ];
    (* 18: proto_test.go:311-314 *)
    [ smap "bytes,1,opt" "bytes,1,opt" "bytes,2,opt" (TMap KString (TScalar KString));
      smap "bytes,2,opt" "varint,1,opt" "varint,2,opt" (TMap KInt64 (TScalar KInt64)) ];
    (* 19, 20, 21: proto_test.go:341-349 *) [ sfield "bytes,1,opt" TBytes ]; [ sfield "bytes,1,opt" (TMsg 19) ]; [ sfield "bytes,1,opt" (TMsg 20) ];
    (* 22: decode_test.go:120-122 *) [ sfield "fixed32,1,opt" (TOption KUint32) ] ].

Definition new (m : nat) : val := zero_struct testD (SNamed m).
Definition at_ (m : nat) (x : val) : iface := IPtr (SNamed m) (Some x).

(** Size, Marshal, Unmarshal into a new struct: no error, and the size is the
    length; the values that come back. Caches are shared by the tests, as in one
    run of the test binary. *)
Definition trip (s : gstate) (m : nat) (x : val) : option val * gstate :=
  match Size testD (at_ m x) s with
  | (Returns n, s) =>
    match Marshal testD (at_ m x) s with
    | (Returns (Some b, None), s) =>
      match Unmarshal testD b (at_ m (new m)) s with
      | (Returns (IPtr _ (Some y), None), s) => (if (n =? zlen b)%Z then Some y else None, s)
      | (_, s) => (None, s)
      end
    | (_, s) => (None, s)
    end
  | (_, s) => (None, s)
  end.
Fixpoint trips (s : gstate) (l : list (nat * val)) : list (option val) * gstate :=
  match l with
  | [] => ([], s)
  | (m, x) :: l => let '(r, s) := trip s m x in let '(rs, s) := trips s l in (r :: rs, s)
  end.
(** reflect.DeepEqual, bit for bit. *)
Definition equal_all (l : list (nat * val)) (s : gstate) : Prop :=
  map (option_map shown) (fst (trips s l)) = map (fun t => Some (shown (snd t))) l.

Definition hello : bytes := [104; 101; 108; 108; 111].
Definition world : bytes := [119; 111; 114; 108; 100].
Definition hello_world : bytes := [72; 101; 108; 108; 111; 32; 87; 111; 114; 108; 100].
Definition msg_ (a b c : Z) (s : val) : val := VStruct [VI32 a; VI32 b; VI32 c; s].
Definition some_ (x : val) : val := VPtr (Some x).
Definition slice_ (l : list val) : val := VSlice true l [].

(** proto_test.go:34-119, TestMarshalUnmarshal *)
Definition values1 : list (nat * val) :=
  [ (2%nat, msg_ 1 2 3 (some_ (VStruct [VStr hello; VStr world])));
    (5%nat, VStruct [VI64 (-9223372036854775808); VI64 9223372036854775807]);
    (6%nat, VStruct [VPtr None]);
    (7%nat, VStruct [some_ (msg_ 10 100 1000 (VPtr None)); some_ (msg_ 0 0 0 (some_ (VStruct [VStr [52; 50]; VStr []])))]);
    (8%nat, VStruct [VSlice false [] []]);
    (8%nat, VStruct [slice_ [VI32 0]]);
    (8%nat, VStruct [slice_ [VI32 0; VI32 0; VI32 0]]);
    (8%nat, VStruct [slice_ [VI32 1; VI32 2; VI32 3]]);
    (9%nat, VStruct [VSlice false [] []]);
    (9%nat, VStruct [slice_ [VStr []]]);
    (9%nat, VStruct [slice_ [VStr [65]; VStr [66]; VStr [67]]]);
    (10%nat, VStruct [slice_ (map (fun n => some_ (VStruct [VU64 0; VU64 n])) [0; 1; 2; 3; 4])]) ].
Example TestMarshalUnmarshal : equal_all values1 g_empty.
Proof. vm_compute. reflexivity. Qed.

(** proto_test.go:121-185, TestProto2; 114.514 and 1919.810 as bits. *)
Definition nested_ (x y z : val) : val :=
  VStruct [VOpt false (VBool false); VOpt false (VI32 0); VOpt false (VU32 0); VOpt false (VI64 0); VOpt false (VU64 0); VOpt false (VF32 0); VOpt false (VF64 0);
           VOpt false (VStr []); VBytes None; VOpt false (VU32 0); VOpt false (VU64 0); VOpt false (VI32 0); VOpt false (VI64 0); some_ (VStruct [x; y; z])].
Definition values2 : list (nat * val) :=
  [ (0%nat, new 0);
    (0%nat, VStruct [VOpt true (VBool false); VOpt true (VI32 0); VOpt true (VU32 0); VOpt true (VI64 0); VOpt true (VU64 0); VOpt true (VF32 0); VOpt true (VF64 0);
       VOpt true (VStr []); VBytes (Some []); VOpt true (VU32 0); VOpt true (VU64 0); VOpt true (VI32 0); VOpt true (VI64 0); VPtr None]);
    (0%nat, VStruct [VOpt true (VBool true); VOpt true (VI32 1); VOpt true (VU32 2); VOpt true (VI64 3); VOpt true (VU64 4); VOpt true (VF32 1122305835);
       VOpt true (VF64 4656158229118834442); VOpt true (VStr hello_world); VBytes (Some (repeat 0 16)); VOpt true (VU32 5); VOpt true (VU64 6); VOpt true (VI32 7);
       VOpt true (VI64 8); VPtr None]);
    (0%nat, nested_ (VOpt false (VI32 0)) (VOpt false (VI64 0)) (VOpt false (VStr [])));
    (0%nat, nested_ (VOpt true (VI32 0)) (VOpt true (VI64 0)) (VOpt true (VStr [])));
    (0%nat, nested_ (VOpt true (VI32 114514)) (VOpt true (VI64 1919810)) (VOpt true (VStr (hello_world ++ [33])%list))) ].
Example TestProto2 : equal_all values2 (snd (trips g_empty values1)).
Proof. vm_compute. reflexivity. Qed.

(** proto_test.go:187-200, TestIssue106 *)
Example TestIssue106 :
  match Marshal testD (at_ 11 (VStruct [VU32 4294967295])) g_empty with
  | (Returns (Some b, None), s) => fst (Unmarshal testD b (at_ 12 (new 12)) s) = Returns (at_ 12 (VStruct [VI32 (-1)]), None)
  | _ => False
  end.
Proof. vm_compute. reflexivity. Qed.

(** proto_test.go:202-213, TestBoolPointer *)
Example TestBoolPointer : equal_all [(13%nat, VStruct [VPtr None])] g_empty.
Proof. vm_compute. reflexivity. Qed.

(** proto_test.go:215-250, TestPrivateField *)
Example TestPrivateField :
  fst (Size testD (at_ 14 (VStruct [VU64 1; VU64 2])) g_empty) = Returns 0%Z /\
  fst (Marshal testD (at_ 14 (VStruct [VU64 1; VU64 2])) g_empty) = Returns (Some [], None) /\
  match Marshal testD (at_ 15 (VStruct [VU64 2; VU64 1])) g_empty with
  | (Returns (Some b, None), s) => b <> [] /\
    fst (Unmarshal testD b (at_ 14 (VStruct [VU64 1; VU64 2])) s) = Returns (at_ 14 (VStruct [VU64 1; VU64 2]), None)
  | _ => False
  end.
Proof. vm_compute. repeat split. discriminate. Qed.

(** proto_test.go:252-278, TestFixed; 280-308, TestFixedOption; decode_test.go:119-138, TestIssue110 *)
Example TestFixed : equal_all [(16%nat, VStruct [VU32 16909060; VU64 72623859790382856])] g_empty /\
  fst (Size testD (at_ 16 (VStruct [VU32 16909060; VU64 72623859790382856])) g_empty) = Returns 14%Z.
Proof. vm_compute. split; reflexivity. Qed.
Example TestFixedOption : equal_all [(17%nat, VStruct [VOpt true (VU32 16909060); VOpt true (VU64 72623859790382856)])] g_empty /\
  fst (Size testD (at_ 17 (VStruct [VOpt true (VU32 16909060); VOpt true (VU64 72623859790382856)])) g_empty) = Returns 14%Z.
Proof. vm_compute. split; reflexivity. Qed.
Example TestIssue110 : equal_all [(22%nat, VStruct [VOpt true (VU32 1103130036)])] g_empty.
Proof. vm_compute. reflexivity. Qed.

(** proto_test.go:310-338, TestMap *)
Example TestMap : equal_all [(18%nat,
  VStruct [VMap (Some [(VStr [], VStr []); (VStr [97], VStr [98]); (VStr hello, VStr world)]);
           VMap (Some [(VI64 0, VI64 0); (VI64 1, VI64 1); (VI64 114, VI64 514); (VI64 1919, VI64 810)])])] g_empty.
Proof. vm_compute. reflexivity. Qed.

(** proto_test.go:340-356, TestIssue3 *)
Example TestIssue3 : equal_all [(21%nat, VStruct [some_ (VStruct [some_ (VStruct [VBytes (Some (repeat 0 125))])])])] g_empty.
Proof. vm_compute. reflexivity. Qed.

(** decode_test.go:9-38, TestUnarshalFromShortBuffer: every proper prefix but
    those of length 0, 2, 4 and 6 is an unexpected EOF. *)
Fixpoint is_eof (e : err) : bool :=
  match e with ErrUnexpectedEOF => true | UnmarshalFieldError _ _ e => is_eof e | _ => false end.
Example TestUnarshalFromShortBuffer :
  match Marshal testD (at_ 2 (msg_ 1 2 3 (some_ (VStruct [VStr hello; VStr world])))) g_empty with
  | (Returns (Some b, None), s) =>
    map (fun i => match fst (Unmarshal testD (firstn i b) (at_ 2 (new 2)) s) with Returns (_, Some e) => is_eof e | _ => false end) (seq 0 (length b)) =
    map (fun i => negb (existsb (Nat.eqb i) [0; 2; 4; 6]%nat)) (seq 0 22)
  | _ => False
  end.
Proof. vm_compute. reflexivity. Qed.

(** encode_test.go:101-143 *)
Example TestEncodeDecodeVarint : decodeVarint (appendVarint [] 42) = (42, 1%Z, None).
Proof. reflexivity. Qed.
Example TestEncodeDecodeVarintZigZag : decodeVarintZigZag (appendVarintZigZag [] (-42)) = ((-42)%Z, 1%Z, None).
Proof. reflexivity. Qed.
Example TestEncodeDecodeTag : decodeTag (appendTag [] 1 wt_varint) = (1, wt_varint, 1%Z, None).
Proof. reflexivity. Qed.

(** ** The checked-in generated file *)

(** proto/internal/testproto/proto2.proto:5-31: in proto2, optional fields of
    scalar, string, bytes and message type have presence. *)
Definition optional_ (n : N) (k : pkind) : pfield_desc :=
  {| d_number := n; d_kind := k; d_card := CardOptional; d_presence := true; d_weak := false; d_message := 1; d_oneof := None |}.
Definition proto2F : descriptors :=
  [ {| m_entry := false; m_oneofs := [];
       m_fields := [ optional_ 1 BoolKind; optional_ 2 Int32Kind; optional_ 3 Uint32Kind; optional_ 4 Int64Kind; optional_ 5 Uint64Kind;
                     optional_ 6 FloatKind; optional_ 7 DoubleKind; optional_ 8 StringKind; optional_ 9 BytesKind; optional_ 10 Fixed32Kind;
                     optional_ 11 Fixed64Kind; optional_ 12 Sint32Kind; optional_ 13 Sint64Kind; optional_ 14 MessageKind ] |};
    {| m_entry := false; m_oneofs := []; m_fields := [ optional_ 1 Int32Kind; optional_ 2 Int64Kind; optional_ 3 StringKind ] |} ].
(** The plugin yields the structs of proto2.pb.go:10-31. It would also add the
    field "_ [0]func()" to the second struct, all of whose fields are
    comparable (main.go:218-221); the file was generated before that. *)
Example proto2_generated : generate proto2F = [ Proto2_fields 1; Nested_fields ++ [shidden TOther] ]%list.
Proof. vm_compute. reflexivity. Qed.

(** ** The benchmarks *)

(** internal/benchmark/bench.pb.go:23-30, 78-89: structs of protoc-gen-go, with
    pointers for presence; the first three fields are unexported. *)
Definition benchD : decls :=
  [ [ shidden TOther; shidden TOther; shidden TOther;
      sfield "bytes,1,opt,name=action" (TPtr (TScalar KString)); sfield "bytes,2,opt,name=key" TBytes ];
    [ shidden TOther; shidden TOther; shidden TOther;
      sfield "bytes,1,opt,name=name" (TPtr (TScalar KString)); sfield "varint,2,opt,name=age" (TPtr (TScalar KInt64));
      sfield "fixed32,3,opt,name=height" (TPtr (TScalar KFloat32)); sfield "fixed64,4,opt,name=weight" (TPtr (TScalar KFloat64));
      sfield "varint,5,opt,name=alive" (TPtr (TScalar KBool)); sfield "bytes,6,opt,name=desc" TBytes ] ].
Definition PBSmall : val := VStruct [VOther 0; VOther 0; VOther 0; some_ (VStr hello); VBytes (Some world)].
Definition PBMedium (height : val) : val :=
  VStruct [VOther 0; VOther 0; VOther 0; some_ (VStr hello); some_ (VI64 20); height; VPtr None; some_ (VBool true); VBytes (Some world)].
(** bench_test.go:96-136: small messages are fine. In medium ones the codec of
    float32 (walker.go:180-185: baseKindOf looks through the pointer) is applied
    to the pointer: what is sent is part of an address. *)
Example bench_small : exists b, fst (Marshal benchD (at_ 0 PBSmall) g_empty) = Returns (Some b, None).
Proof. eexists. vm_compute. reflexivity. Qed.
Example bench_medium : fst (Marshal benchD (at_ 1 (PBMedium (some_ (VF32 1085905306)))) g_empty) = Panics Confused.
Proof. vm_compute. reflexivity. Qed.
(** bench_test.go:176-220: decoding a medium message stores the bits of a
    float32 into the pointer. *)
Example bench_medium_read : fst (Unmarshal benchD [29; 154; 153; 185; 64] (at_ 1 (zero_struct benchD (SNamed 1))) g_empty) = Panics Confused.
Proof. vm_compute. reflexivity. Qed.

(** ** The fuzz targets: types and inputs; theorems in PropsExact.v *)

(** proto/internal/testproto/proto2.pb.go:10-31, proto/fuzz_test.go:12-28 *)
Definition proto2D : decls := [Proto2_fields 1; Nested_fields].
Definition proto2 : schema :=
  [ [ Field 1 (FOptional Y_bool); Field 2 (FOptional Y_int32); Field 3 (FOptional Y_uint32); Field 4 (FOptional Y_int64); Field 5 (FOptional Y_uint64);
      Field 6 (FOptional Y_float); Field 7 (FOptional Y_double); Field 8 (FOptional Y_string); Field 9 FBytes; Field 10 (FOptional Y_fixed32);
      Field 11 (FOptional Y_fixed64); Field 12 (FOptional Y_sint32); Field 13 (FOptional Y_sint64); Field 14 (FMessage 1) ];
    [ Field 1 (FOptional Y_int32); Field 2 (FOptional Y_int64); Field 3 (FOptional Y_string) ] ].
Definition fuzz1_input (i j : Z) (s : bytes) : list val :=
  match nested_ (VOpt true (VI32 i)) (VOpt true (VI64 j)) (VOpt true (VStr s)) with VStruct xs => xs | _ => [] end.

(** proto/fuzz_test.go:30-50: message, message1, ..., message4 *)
Definition nestedD : decls :=
  map (fun k => [ sfield "bytes,1,opt" (TScalar KString); sfield "bytes,2,opt" (TMsg k) ]) [1; 2; 3; 4]%nat ++
  [[ sfield "bytes,1,opt" (TScalar KString) ]].
Definition nested : schema :=
  map (fun k => [ Field 1 (FImplicit Y_string); Field 2 (FMessage k) ]) [1; 2; 3; 4]%nat ++ [[ Field 1 (FImplicit Y_string) ]].
Definition nested_input (s s1 s2 s3 s4 : bytes) : list val :=
  [VStr s; some_ (VStruct [VStr s1; some_ (VStruct [VStr s2; some_ (VStruct [VStr s3; some_ (VStruct [VStr s4])])])])].
