(** Messages with every deviation. *)
From Coq Require Import String.
From Verif Require Import Base Wire GoType Leaf Codec Tag Walker Api Resolve Typing SpecWire SpecTag SpecMsg SpecProto SpecOut
  WalkSeq MsgApi ProtoGen ProtoThms OutFacts OutThms.
Local Open Scope N_scope.

(** message A { sfixed32 a = 1; repeated fixed32 b = 2; map<sint32, uint32> c = 3; optional sfixed64 d = 4; A e = 5;
                map<int32, string> f = 6; map<string, bytes> g = 7; } *)
Definition entry_of (k v : pkind) : pmessage := {| m_entry := true; m_oneofs := []; m_fields := [plain_field 1 k; plain_field 2 v] |}.
Definition devF : descriptors :=
  [{| m_entry := false; m_oneofs := [true];
      m_fields := [plain_field 1 Sfixed32Kind; rep_field 2 Fixed32Kind 0; rep_field 3 MessageKind 1;
        {| d_number := 4; d_kind := Sfixed64Kind; d_card := CardOptional; d_presence := true; d_weak := false; d_message := 0; d_oneof := Some 0%nat |};
        plain_field 5 MessageKind; rep_field 6 MessageKind 2; rep_field 7 MessageKind 3] |};
   entry_of Sint32Kind Uint32Kind; entry_of Int32Kind StringKind; entry_of StringKind BytesKind].
Definition devS : schema := schema_of devF.
(** e without anything but the entry 1: 64 of c. *)
Definition dev_inner : list val := [VI32 0; VSlice false [] []; VMap (Some [(VI32 1, VU32 64)]); VOpt false (VI64 0); VPtr None; VMap None; VMap None].
Definition dev : list val :=
  [VI32 300; VSlice true [VU32 5; VU32 0] []; VMap None; VOpt true (VI64 (-1)); VPtr (Some (VStruct dev_inner)); VMap (Some []);
   VMap (Some [(VStr [104], VBytes (Some [1;2])); (VStr [], VBytes None)])].
(** The value of an entry of f, a string, is measured as an int32. *)
Definition bad : list val := [VI32 1; VSlice false [] []; VMap None; VOpt false (VI64 0); VPtr None; VMap (Some [(VI32 1, VStr [65])]); VMap None].
Definition dev_bytes : list N :=
  [13;172;2; 21;5; 21;0; 26;0; 33;255;255;255;255;255;255;255;255;255;1;
   42;10; 26;5;8;2;16;64; 50;0; 58;0; 50;0; 58;7;10;1;104;18;2;1;2; 58;4;10;0].
(** A key of 125 bytes with a nil value: the length before the entry takes two bytes, Size counts one. *)
Definition long : list val := [VI32 0; VSlice false [] []; VMap None; VOpt false (VI64 0); VPtr None; VMap None; VMap (Some [(VStr (repeat 65 125), VBytes None)])].

(** message P { fixed32 a = 1; repeated string b = 2; map<string, bytes> c = 3; } *)
Definition rightF : descriptors :=
  [{| m_entry := false; m_oneofs := []; m_fields := [plain_field 1 Fixed32Kind; rep_field 2 StringKind 0; rep_field 3 MessageKind 1] |}; entry_of StringKind BytesKind].
Definition right_xs : list val := [VU32 7; VSlice true [VStr [65]] []; VMap (Some [(VStr [66], VBytes (Some [1;2;3]))])].
(** message Q { sfixed32 a = 1; repeated fixed64 b = 2; Q c = 3; } *)
Definition flatF : descriptors :=
  [{| m_entry := false; m_oneofs := []; m_fields := [plain_field 1 Sfixed32Kind; rep_field 2 Fixed64Kind 0; plain_field 3 MessageKind] |}].
