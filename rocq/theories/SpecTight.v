(** For C87: when a field that has become of another kind still has what was sent. *)
From Verif Require Import Base GoType ProtoGen SpecMsg SpecProto.
Local Open Scope Z_scope.

(** What a scalar or a byte slice holds: a number, a text, or a floating point number
    of 32 or 64 bits. *)
Inductive content := CNumber (z : Z) | CText (b : list N) | CSingle (n : N) | CDouble (n : N).
Definition content_of (v : val) : option content :=
  match v with
  | VBool b => Some (CNumber (if b then 1 else 0))
  | VI32 z | VI64 z => Some (CNumber z)
  | VU32 n | VU64 n => Some (CNumber (Z.of_N n))
  | VStr b | VBytes (Some b) => Some (CText b)
  | VBytes None => Some (CText [])
  | VF32 n => Some (CSingle n)
  | VF64 n => Some (CDouble n)
  | _ => None
  end.
(** The numbers of a kind. *)
Definition has_number (k : pkind) (z : Z) : bool :=
  match k with
  | BoolKind => (0 <=? z) && (z <=? 1)
  | EnumKind | Int32Kind | Sint32Kind | Sfixed32Kind => (- 2^31 <=? z) && (z <? 2^31)
  | Uint32Kind | Fixed32Kind => (0 <=? z) && (z <? 2^32)
  | Int64Kind | Sint64Kind | Sfixed64Kind => (- 2^63 <=? z) && (z <? 2^63)
  | Uint64Kind | Fixed64Kind => (0 <=? z) && (z <? 2^64)
  | _ => false
  end.
(** [v] was sent and a field of kind [k] has [w]: the same, but of a number that the
    kind does not have only the lower 32 bits must be there. *)
Definition arrived (k : pkind) (v w : val) : bool :=
  match content_of v, content_of w with
  | Some (CNumber a), Some (CNumber b) => ((a - b) mod 2^32 =? 0) && (negb (has_number k a) || (a =? b))
  | Some (CText a), Some (CText b) => if list_eq_dec N.eq_dec a b then true else false
  | Some (CSingle a), Some (CSingle b) | Some (CDouble a), Some (CDouble b) => (a =? b)%N
  | _, _ => false
  end.
(** A .proto file with one message that has one field, [k x = 1], in proto3. *)
Definition sole (k : pkind) : descriptors :=
  [{| m_entry := false; m_oneofs := [];
      m_fields := [{| d_number := 1; d_kind := k; d_card := CardOptional; d_presence := false; d_weak := false; d_message := 0; d_oneof := None |}] |}].
(** All kinds but messages and groups. *)
Definition scalar_kind (k : pkind) : bool := match k with MessageKind | GroupKind => false | _ => true end.
(** The changes of kind that are compatible: those of SpecEvolve.v and from sint64 to
    sint32, which of large numbers gives other ones than protobuf says. A field of kind
    sfixed32 or sfixed64 is not even compatible with itself (C10). *)
From Verif Require Import SpecEvolve.
Definition kind_compatible (k k' : pkind) : bool :=
  may_become k k' || match k, k' with Sint64Kind, Sint32Kind => true | _, _ => false end.
(** The same with presence: [optional k x = 1], *)
Definition sole_optional (k : pkind) : descriptors :=
  [{| m_entry := false; m_oneofs := [];
      m_fields := [{| d_number := 1; d_kind := k; d_card := CardOptional; d_presence := true; d_weak := false; d_message := 0; d_oneof := None |}] |}].
(** and what such a field holds, if it is set. *)
Definition held (v : val) : option val :=
  match v with VOpt true x => Some x | VBytes (Some b) => Some (VBytes (Some b)) | _ => None end.
(** Lists: [repeated k x = 1], *)
Definition sole_repeated (k : pkind) : descriptors :=
  [{| m_entry := false; m_oneofs := [];
      m_fields := [{| d_number := 1; d_kind := k; d_card := CardRepeated; d_presence := false; d_weak := false; d_message := 0; d_oneof := None |}] |}].
(** and the elements of such a field but for nil ones, which are not written. *)
Definition elements (v : val) : list val :=
  match v with VSlice _ l _ => filter (fun x => match x with VBytes None => false | _ => true end) l | _ => [] end.
(** Lists of fixed32 or fixed64 are not even compatible with themselves. *)
Definition list_compatible (k k' : pkind) : bool :=
  kind_compatible k k' && match k with Fixed32Kind | Fixed64Kind => false | _ => true end.
