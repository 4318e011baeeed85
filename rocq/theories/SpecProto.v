(** What the descriptors of .proto messages mean: a schema in the sense of
    SpecMsg.v. Independent of the generator. *)
From Coq Require Import String.
From Verif Require Import Base GoType ProtoGen SpecMsg.

(** The protobuf scalar type of a kind; enums are int32 on the wire. *)
Definition scalar_of (k : pkind) : option sty :=
  match k with
  | BoolKind => Some Y_bool
  | EnumKind | Int32Kind => Some Y_int32
  | Sint32Kind => Some Y_sint32
  | Uint32Kind => Some Y_uint32
  | Int64Kind => Some Y_int64
  | Sint64Kind => Some Y_sint64
  | Uint64Kind => Some Y_uint64
  | Sfixed32Kind => Some Y_sfixed32
  | Fixed32Kind => Some Y_fixed32
  | FloatKind => Some Y_float
  | Sfixed64Kind => Some Y_sfixed64
  | Fixed64Kind => Some Y_fixed64
  | DoubleKind => Some Y_double
  | StringKind => Some Y_string
  | BytesKind | MessageKind | GroupKind => None
  end.
(** An element of a repeated field, or a map value. *)
Definition elem_of (fd : pfield_desc) : option fty :=
  match d_kind fd with
  | BytesKind => Some FBytes
  | MessageKind => Some (FMessage (d_message fd))
  | k => option_map FAlways (scalar_of k)
  end.
(** What a field is, for the parts of the language the library knows: no
    groups, no required fields, no weak fields. *)
Definition meaning (F : descriptors) (fd : pfield_desc) : option fty :=
  if d_weak fd then None else
  match d_card fd with
  | CardRequired => None
  | CardRepeated =>
    match d_kind fd, nth_error F (d_message fd) with
    | MessageKind, Some {| m_entry := true; m_fields := [kf; vf] |} =>
      match scalar_of (d_kind kf), elem_of vf with
      | Some k, Some e => Some (FMap k e)
      | _, _ => None
      end
    | _, _ => option_map FRepeated (elem_of fd)
    end
  | CardOptional =>
    match d_kind fd with
    | BytesKind => Some FBytes
    | MessageKind => Some (FMessage (d_message fd))
    | k => option_map (if d_presence fd then FOptional else FImplicit) (scalar_of k)
    end
  end.

(** Descriptors as protoc produces them. *)
Definition refers (k : pkind) : bool := match k with MessageKind | GroupKind => true | _ => false end.
Definition is_entry (F : descriptors) (fd : pfield_desc) : bool :=
  match nth_error F (d_message fd) with Some m => m_entry m | None => false end.
Definition valid_field (F : descriptors) (m : pmessage) (fd : pfield_desc) : bool :=
  (1 <=? d_number fd)%N && (d_number fd <? 2^29)%N &&
  (negb (refers (d_kind fd)) || Nat.ltb (d_message fd) (length F)) &&
  match d_card fd with CardRepeated => negb (d_presence fd) | _ => negb (refers (d_kind fd) && is_entry F fd) end &&
  match d_kind fd with GroupKind => negb (is_entry F fd) | _ => true end &&
  match d_oneof fd with
  | Some o => Nat.ltb o (length (m_oneofs m)) && match d_card fd with CardOptional => true | _ => false end
  | None => true
  end.
Definition key_kind (k : pkind) : bool :=
  match k with EnumKind | FloatKind | DoubleKind | BytesKind | MessageKind | GroupKind => false | _ => true end.
Definition valid_message (F : descriptors) (m : pmessage) : bool :=
  forallb (valid_field F m) (m_fields m) && nodup_N (map d_number (m_fields m)) &&
  (negb (m_entry m) ||
   match m_fields m with
   | [kf; vf] =>
     (d_number kf =? 1)%N && (d_number vf =? 2)%N && key_kind (d_kind kf) &&
     match d_kind vf with GroupKind => false | _ => true end &&
     forallb (fun fd => negb (d_weak fd) && match d_card fd, d_oneof fd with CardOptional, None => true | _, _ => false end) [kf; vf]
   | _ => false
   end).
Definition valid (F : descriptors) : bool := forallb (valid_message F) F.

(** Fields that are members of a oneof (not of the synthetic one that proto3
    optional fields have). *)
Definition oneof_member (m : pmessage) (fd : pfield_desc) : bool :=
  match d_oneof fd with Some o => negb (nth o (m_oneofs m) false) | None => false end.
Definition ordinary (m : pmessage) : list pfield_desc := filter (fun fd => negb (oneof_member m fd)) (m_fields m).

(** Every field outside oneofs has a meaning. *)
Definition usable (F : descriptors) : bool :=
  forallb (fun m => m_entry m || forallb (fun fd => match meaning F fd with Some _ => true | None => false end) (ordinary m)) F.

(** The schema. A struct has a slot for each oneof, where its first member is
    declared, and a slot at the end to make it incomparable if no slice, map or
    bytes field does. *)
Definition first_member (before : list pfield_desc) (fd : pfield_desc) : bool :=
  negb (existsb (fun fd' => match d_oneof fd', d_oneof fd with Some a, Some b => Nat.eqb a b | _, _ => false end) before).
Definition slot (F : descriptors) (m : pmessage) (before : list pfield_desc) (fd : pfield_desc) : list sfld :=
  if oneof_member m fd then if first_member before fd then [Hidden TOther] else []
  else match meaning F fd with Some f => [Field (d_number fd) f] | None => [] end.
Fixpoint slots (F : descriptors) (m : pmessage) (before l : list pfield_desc) : list sfld :=
  match l with
  | [] => []
  | fd :: l => slot F m before fd ++ slots F m (before ++ [fd]) l
  end.
Definition has_slice (F : descriptors) (fd : pfield_desc) : bool :=
  match meaning F fd with Some (FRepeated _ | FMap _ _ | FBytes) => true | _ => false end.
Definition message_schema (F : descriptors) (m : pmessage) : list sfld :=
  if m_entry m then []
  else slots F m [] (m_fields m) ++ if existsb (has_slice F) (ordinary m) then [] else [Hidden TOther].
Definition schema_of (F : descriptors) : schema := map (message_schema F) F.

(** Fields and numbers of a schema, slots left out. *)
Definition visible (fs : list sfld) : list (N * fty) :=
  flat_map (fun f => match f with Field n f => [(n, f)] | Hidden _ => [] end) fs.

(** The descriptors in scope: see SpecMsg.v. *)
Definition covered (F : descriptors) : bool :=
  valid F && usable F && in_scope (schema_of F) && coherent (schema_of F).

(** Sign-alternating encoding. *)
Definition zigzagged (s : sty) : bool := match s with Y_sint32 | Y_sint64 => true | _ => false end.
Definition elem_zigzag (e : fty) : bool := match e with FAlways s => zigzagged s | _ => false end.
(** No two repeated fields with the same Go type of which one is sint32 or
    sint64 and the other is not. *)
Definition agreeing (sch : schema) : bool :=
  forallb (fun f => forallb (fun g =>
    match f, g with
    | FRepeated a, FRepeated b => negb (is_type (go_type a) (go_type b)) || Bool.eqb (elem_zigzag a) (elem_zigzag b)
    | _, _ => true
    end) (fields_of sch)) (fields_of sch).
(** Maps whose key and value types are encoded alike. *)
Definition wide (s : sty) : bool :=
  match s with Y_int64 | Y_uint64 | Y_fixed64 | Y_sfixed64 => true | _ => false end.
Definition uniform_map (f : fty) : bool :=
  match f with
  | FMap k (FAlways s) => (is_type (TScalar (go_kind k)) (TScalar (go_kind s)) && Bool.eqb (zigzagged k) (zigzagged s)) || (wide k && wide s)
  | FMap _ _ => false
  | _ => true
  end.
Definition uniform_maps (sch : schema) : bool := forallb uniform_map (fields_of sch).

(** The wire type protobuf gives to a kind. *)
Definition kind_wire (k : pkind) : N :=
  match k with
  | Sfixed32Kind | Fixed32Kind | FloatKind => 5
  | Sfixed64Kind | Fixed64Kind | DoubleKind => 1
  | StringKind | BytesKind | MessageKind => 2
  | GroupKind => 3
  | _ => 0
  end.
Definition kind_zigzag (k : pkind) : bool := match k with Sint32Kind | Sint64Kind => true | _ => false end.
Definition card_rep (c : cardinality) : bool := match c with CardRepeated => true | _ => false end.
