(** For C86: how .proto files may change so that programs generated from the old and
    the new ones understand each other, in terms of descriptors. *)
From Verif Require Import Base GoType ProtoGen SpecMsg SpecProto.

(** Which kinds the kind of a field may become. *)
Definition may_become (k k' : pkind) : bool :=
  match k, k' with
  | (Int32Kind | Int64Kind | Uint32Kind | Uint64Kind | EnumKind | BoolKind), (Int32Kind | Int64Kind | Uint32Kind | Uint64Kind | EnumKind) => true
  | BoolKind, BoolKind => true
  | Sint32Kind, (Sint32Kind | Sint64Kind) | Sint64Kind, Sint64Kind => true
  | (StringKind | BytesKind), (StringKind | BytesKind) => true
  | Fixed32Kind, Fixed32Kind | Fixed64Kind, Fixed64Kind | FloatKind, FloatKind | DoubleKind, DoubleKind => true
  | _, _ => false
  end.
(** What a field holds: a message (then the old and the new one must be versions of
    each other) or something else. *)
Definition may_hold (same : nat -> nat -> bool) (a b : pfield_desc) : bool :=
  match d_kind a, d_kind b with
  | MessageKind, MessageKind => same (d_message a) (d_message b)
  | k, k' => may_become k k'
  end.
(** Key and value of a map field. *)
Definition map_parts (F : descriptors) (fd : pfield_desc) : option (pfield_desc * pfield_desc) :=
  match d_card fd, d_kind fd, nth_error F (d_message fd) with
  | CardRepeated, MessageKind, Some {| m_entry := true; m_fields := [kf; vf] |} => Some (kf, vf)
  | _, _, _ => None
  end.
Definition kind_eq_dec (a b : pkind) : {a = b} + {a <> b}. Proof. decide equality. Defined.
(** What a field may become: maps stay maps with the same kind of key; all else may
    also change between optional, with and without presence, and repeated. *)
Definition field_may_become (same : nat -> nat -> bool) (F F' : descriptors) (a b : pfield_desc) : bool :=
  match map_parts F a, map_parts F' b with
  | Some (k, v), Some (k', v') => (if kind_eq_dec (d_kind k) (d_kind k') then true else false) && may_hold same v v'
  | None, None => may_hold same a b
  | _, _ => false
  end.
(** [F'] is a new version of [F] in which message [m'] is what became of [m] where
    [same m m']. Fields may be added, removed and put in another order. *)
Definition evolves (same : nat -> nat -> bool) (F F' : descriptors) : Prop := forall m m' d d', same m m' = true ->
  nth_error F m = Some d -> nth_error F' m' = Some d' ->
  forall a b, In a (ordinary d) -> In b (ordinary d') -> d_number a = d_number b -> field_may_become same F F' a b = true.
