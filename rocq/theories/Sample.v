(** Declarations and messages used in examples. They are not taken from /repo;
    the struct tags have the form the generator emits
    (internal/generator/main.go:402-431). *)
From Coq Require Import String.
From Verif Require Import Base GoType SpecMsg.
Local Open Scope N_scope.

Definition sfield (tag : string) (t : gotype) : gofield :=
  {| gf_exported := true; gf_tag := Some tag; gf_key := ""; gf_val := ""; gf_type := t |}.
Definition smap (tag key val : string) (t : gotype) : gofield :=
  {| gf_exported := true; gf_tag := Some tag; gf_key := key; gf_val := val; gf_type := t |}.
Definition shidden (t : gotype) : gofield :=
  {| gf_exported := false; gf_tag := None; gf_key := ""; gf_val := ""; gf_type := t |}.

(** message Person { int32 id = 1; optional string name = 2; bytes key = 3;
      repeated Person friends = 4; map<string, string> attrs = 5;
      sint64 delta = 6; fixed32 crc = 7; repeated int32 scores = 9; Account acct = 10;
      repeated string tags = 16; }
    message Account { uint64 balance = 1; bool open = 2; double rate = 3; optional int32 limit = 4; } *)
Definition sampleD : decls :=
  [[ sfield "varint,1,opt" (TScalar KInt32);
     sfield "bytes,2,opt" (TOption KString);
     sfield "bytes,3,opt" TBytes;
     sfield "bytes,4,rep" (TSlice (TMsg 0));
     smap "bytes,5,rep" "bytes,1,opt" "bytes,2,opt" (TMap KString (TScalar KString));
     sfield "zigzag64,6,opt" (TScalar KInt64);
     shidden TOther;
     sfield "fixed32,7,opt" (TScalar KUint32);
     sfield "varint,9,rep" (TSlice (TScalar KInt32));
     sfield "bytes,10,opt" (TMsg 1);
     sfield "bytes,16,rep" (TSlice (TScalar KString)) ];
   [ sfield "varint,1,opt" (TScalar KUint64);
     sfield "varint,2,opt" (TScalar KBool);
     sfield "fixed64,3,opt" (TScalar KFloat64);
     sfield "varint,4,opt" (TOption KInt32) ]].
Definition sample : schema :=
  [[ Field 1 (FImplicit Y_int32);
     Field 2 (FOptional Y_string);
     Field 3 FBytes;
     Field 4 (FRepeated (FMessage 0));
     Field 5 (FMap Y_string (FAlways Y_string));
     Field 6 (FImplicit Y_sint64);
     Hidden TOther;
     Field 7 (FImplicit Y_fixed32);
     Field 9 (FRepeated (FAlways Y_int32));
     Field 10 (FMessage 1);
     Field 16 (FRepeated (FAlways Y_string)) ];
   [ Field 1 (FImplicit Y_uint64);
     Field 2 (FImplicit Y_bool);
     Field 3 (FImplicit Y_double);
     Field 4 (FOptional Y_int32) ]].

Definition account : val := VStruct [VU64 300; VBool true; VF64 9223372036854775808; VOpt true (VI32 0)].
Definition kid : list val :=
  [VI32 (-1); VOpt false (VStr []); VBytes None; VSlice false [] []; VMap (Some [(VStr [120], VStr [])]);
   VI64 0; VOther 0; VU32 0; VSlice false [] []; VPtr None; VSlice false [] []].
Definition person : list val :=
  [VI32 150; VOpt true (VStr [65; 110; 110]); VBytes (Some []); VSlice true [VPtr (Some (VStruct kid))] [VPtr None];
   VMap (Some [(VStr [97], VStr [98; 98]); (VStr [], VStr [99])]);
   VI64 (-3); VOther 7; VU32 4294967295; VSlice true [VI32 1; VI32 0] [VI32 9]; VPtr (Some account);
   VSlice true [VStr []; VStr [122]] []].
