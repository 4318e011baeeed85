(** For C80: a message written with one version of a schema and read with
    another. Messages have the same number in both; fields are known by theirs. *)
From Verif Require Import Base GoType SpecWire SpecTag SpecMsg.

(** Which types of scalars a field may change to. *)
Definition change (s s' : sty) : bool :=
  match s, s' with
  | (Y_int32 | Y_int64 | Y_uint32 | Y_uint64 | Y_bool), (Y_int32 | Y_int64 | Y_uint32 | Y_uint64) => true
  | Y_sint32, (Y_sint32 | Y_sint64) | Y_sint64, Y_sint64 => true
  | Y_fixed32, Y_fixed32 | Y_fixed64, Y_fixed64 | Y_float, Y_float | Y_double, Y_double => true
  | Y_bool, Y_bool | Y_string, Y_string => true
  | _, _ => false
  end.
(** Which ones the documentation of protobuf says are compatible; the library does
    not read multi-byte bools (C28), reads large numbers as other sint32s, and
    writes sfixed as varints (C10). *)
Definition documented (s s' : sty) : bool :=
  match s, s' with
  | (Y_int32 | Y_int64 | Y_uint32 | Y_uint64 | Y_bool), (Y_int32 | Y_int64 | Y_uint32 | Y_uint64 | Y_bool) => true
  | (Y_sint32 | Y_sint64), (Y_sint32 | Y_sint64) => true
  | (Y_fixed32 | Y_sfixed32), (Y_fixed32 | Y_sfixed32) | (Y_fixed64 | Y_sfixed64), (Y_fixed64 | Y_sfixed64) => true
  | Y_float, Y_float | Y_double, Y_double | Y_string, Y_string => true
  | _, _ => false
  end.
(** The type of a field's scalars; bytes count as a string. *)
Fixpoint scalars (f : fty) : option sty :=
  match f with
  | FImplicit s | FOptional s | FPointer s | FAlways s => Some s
  | FBytes => Some Y_string
  | FRepeated e => scalars e
  | FMessage _ | FMap _ _ => None
  end.
Definition sty_eq_dec (a b : sty) : {a = b} + {a <> b}. Proof. decide equality. Defined.
(** Which types a field may change to: scalars also between implicit, optional and
    repeated, messages to repeated, values of maps like fields. *)
Fixpoint compatible (f f' : fty) : bool :=
  match f, f' with
  | FMessage m, (FMessage m' | FRepeated (FMessage m')) => Nat.eqb m m'
  | FRepeated (FMessage m), FRepeated (FMessage m') => Nat.eqb m m'
  | FMap k e, FMap k' e' => (if sty_eq_dec k k' then true else false) && compatible e e'
  | _, _ => match scalars f, scalars f' with Some s, Some s' => change s s' | _, _ => false end
  end.
Definition understood (sch sch' : schema) : Prop := forall m n f f',
  In (Field n f) (msg sch m) -> In (Field n f') (msg sch' m) -> compatible f f' = true.

(** A number as another type reads it: the number itself if the type has it, else
    the one of the type that differs by a multiple of 2^32 or 2^64. *)
Definition number (v : val) : Z :=
  match v with
  | VBool b => if b then 1 else 0
  | VI32 z | VI64 z => z
  | VU32 n | VU64 n => Z.of_N n
  | _ => 0
  end.
Definition become (s : sty) (v : val) : val :=
  match s with
  | Y_int32 => VI32 ((number v + 2^31) mod 2^32 - 2^31)
  | Y_int64 => VI64 ((number v + 2^63) mod 2^64 - 2^63)
  | Y_uint32 => VU32 (Z.to_N (number v mod 2^32))
  | Y_uint64 => VU64 (Z.to_N (number v mod 2^64))
  | Y_sint64 => VI64 (number v)
  | _ => v
  end.
(** The scalars that a field sends, *)
Fixpoint sends (f : fty) (v : val) : list val :=
  match f, v with
  | FImplicit _, _ => if is_zero v then [] else [v]
  | FOptional _, VOpt true x => [x]
  | FPointer _, VPtr (Some x) => [x]
  | FAlways _, _ => [v]
  | FBytes, VBytes (Some b) => [VStr b]
  | FRepeated e, VSlice _ items _ => flat_map (sends e) items
  | _, _ => []
  end.
(** and what a new field holds after it has got them: the last one, or all. *)
Fixpoint last_of (l : list val) : option val :=
  match l with [] => None | [x] => Some x | _ :: l => last_of l end.
Fixpoint gets (f : fty) (l : list val) : val :=
  match f, last_of l with
  | (FImplicit s | FAlways s), Some x => become s x
  | FOptional s, Some x => VOpt true (become s x)
  | FPointer s, Some x => VPtr (Some (become s x))
  | FBytes, Some (VStr b) => VBytes (Some b)
  | FRepeated e, Some _ => VSlice true (map (fun x => gets e [x]) l) []
  | _, _ => zero (go_type f)
  end.

Section Versions.
Variables sch sch' : schema.
(** What the field of type [f'] holds when [v] was in the field of type [f]. *)
Fixpoint translate (v : val) (f f' : fty) {struct v} : val :=
  let whole :=
    match f, v with
    | FMessage m, VPtr (Some (VStruct xs)) =>
      VPtr (Some (VStruct (map (fun g =>
        match g with
        | Hidden t => zero t
        | Field n f' =>
          let fix pick xs fs :=
            match xs, fs with
            | x :: xs, Field n' f :: fs => if (n' =? n)%N then translate x f f' else pick xs fs
            | _ :: xs, Hidden _ :: fs => pick xs fs
            | _, _ => zero (go_type f')
            end in
          pick xs (msg sch m)
        end) (msg sch' m))))
    | _, _ => VPtr None
    end in
  match f, f', v with
  | FMessage m, FMessage _, _ => whole
  | FMessage m, FRepeated _, VPtr (Some _) => VSlice true [whole] []
  | FMessage m, FRepeated _, _ => VSlice false [] []
  | FRepeated (FMessage m), FRepeated (FMessage m'), VSlice nn items _ =>
    VSlice true (flat_map (fun x => if is_nil x then [] else [translate x (FMessage m) (FMessage m')]) items) []
  | FMap k e, FMap _ e', VMap (Some l) => VMap (Some (map (fun kv => match kv with (a, x) => (a, translate x e e') end) l))
  | _, _, _ => gets f' (sends f v)
  end.
(** What field [n] of type [f'] holds, if the message had the values [xs] in the
    fields [fs], *)
Fixpoint pick (n : N) (f' : fty) (xs : list val) (fs : list sfld) : val :=
  match xs, fs with
  | x :: xs, Field n' f :: fs => if (n' =? n)%N then translate x f f' else pick n f' xs fs
  | _ :: xs, Hidden _ :: fs => pick n f' xs fs
  | _, _ => zero (go_type f')
  end.
(** and the whole message. *)
Definition translate_msg (xs : list val) (fs fs' : list sfld) : list val :=
  map (fun g => match g with Hidden t => zero t | Field n f' => pick n f' xs fs end) fs'.
End Versions.
