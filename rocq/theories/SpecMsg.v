(** Specification of messages: schemas, the records a message is written as,
    and merging a byte string into a message. Independent of the model of the
    code: only Go types and values (GoType.v), the wire format (SpecWire.v) and
    the meaning of struct tags (SpecTag.v) are used. *)
From Coq Require Import String.
From Verif Require Import Base GoType SpecWire SpecTag.

(** ** Schemas *)

(** The scalar types of protobuf that the generator maps to Go scalars (enums
    are int32 on the wire). *)
Inductive sty :=
| Y_int32 | Y_int64 | Y_uint32 | Y_uint64 | Y_sint32 | Y_sint64
| Y_fixed32 | Y_fixed64 | Y_sfixed32 | Y_sfixed64 | Y_float | Y_double | Y_bool | Y_string.

(** What a field holds.
    - [FImplicit s]: a plain scalar without presence;
    - [FOptional s]: Option[T];
    - [FPointer s]: pointer to a scalar;
    - [FAlways s]: an element of a repeated field or map entry;
    - [FBytes]: []byte, absent when nil;
    - [FMessage m]: pointer to message number [m];
    - [FRepeated e], [FMap k e]: elements are FAlways, FBytes or FMessage. *)
Inductive fty :=
| FImplicit (s : sty)
| FOptional (s : sty)
| FPointer (s : sty)
| FAlways (s : sty)
| FBytes
| FMessage (m : nat)
| FRepeated (e : fty)
| FMap (k : sty) (e : fty).

(** A message lists the Go struct's fields in order; [Hidden] ones are
    unexported or have no protobuf tag. *)
Inductive sfld := Hidden (t : gotype) | Field (n : N) (f : fty).
Notation schema := (list (list sfld)).

Definition go_kind (s : sty) : skind :=
  match s with
  | Y_int32 | Y_sint32 | Y_sfixed32 => KInt32
  | Y_int64 | Y_sint64 | Y_sfixed64 => KInt64
  | Y_uint32 | Y_fixed32 => KUint32
  | Y_uint64 | Y_fixed64 => KUint64
  | Y_float => KFloat32
  | Y_double => KFloat64
  | Y_bool => KBool
  | Y_string => KString
  end.
Fixpoint go_type (f : fty) : gotype :=
  match f with
  | FImplicit s | FAlways s => TScalar (go_kind s)
  | FOptional s => TOption (go_kind s)
  | FPointer s => TPtr (TScalar (go_kind s))
  | FBytes => TBytes
  | FMessage m => TMsg m
  | FRepeated e => TSlice (go_type e)
  | FMap k e => TMap (go_kind k) (go_type e)
  end.
Definition fld_type (f : sfld) : gotype :=
  match f with Hidden t => t | Field _ f => go_type f end.

(** Wire types, and the first item of the struct tag. *)
Definition wire_sty (s : sty) : N :=
  match s with
  | Y_fixed32 | Y_sfixed32 | Y_float => 5
  | Y_fixed64 | Y_sfixed64 | Y_double => 1
  | Y_string => 2
  | _ => 0
  end.
Fixpoint wire_fty (f : fty) : N :=
  match f with
  | FImplicit s | FOptional s | FPointer s | FAlways s => wire_sty s
  | FRepeated e => wire_fty e
  | FBytes | FMessage _ | FMap _ _ => 2
  end.
Definition kind_sty (s : sty) : string :=
  match s with
  | Y_fixed32 | Y_sfixed32 | Y_float => "fixed32"
  | Y_fixed64 | Y_sfixed64 | Y_double => "fixed64"
  | Y_string => "bytes"
  | Y_sint32 => "zigzag32"
  | Y_sint64 => "zigzag64"
  | _ => "varint"
  end.
Fixpoint kind_fty (f : fty) : string :=
  match f with
  | FImplicit s | FOptional s | FPointer s | FAlways s => kind_sty s
  | FRepeated e => kind_fty e
  | FBytes | FMessage _ | FMap _ _ => "bytes"
  end.

(** ** Go declarations that implement a schema *)
Fixpoint strip (head s : string) : option string :=
  match head, s with
  | EmptyString, _ => Some s
  | String c h, String d r => if Ascii.eqb c d then strip h r else None
  | _, _ => None
  end.
(** [tag] is "kind,number,opt" or "kind,number,rep", maybe followed by more items. *)
Definition tag_is (tag kind : string) (n : N) (rep : bool) : bool :=
  match strip (kind ++ "," ++ numeral n ++ "," ++ (if rep then "rep" else "opt")) tag with
  | Some rest => tail_ok rest
  | None => false
  end.
Definition is_rep (f : fty) : bool := match f with FRepeated _ | FMap _ _ => true | _ => false end.

Definition is_type (a b : gotype) : bool := if gotype_eq_dec a b then true else false.
Definition implements_field (g : gofield) (f : sfld) : bool :=
  match f with
  | Hidden t => is_type (gf_type g) t && match gf_exported g, gf_tag g with true, Some _ => false | _, _ => true end
  | Field n f =>
    gf_exported g && is_type (gf_type g) (go_type f) &&
    match gf_tag g with Some tag => tag_is tag (kind_fty f) n (is_rep f) | None => false end &&
    match f with
    | FMap k e => tag_is (gf_key g) (kind_sty k) 1 false && tag_is (gf_val g) (kind_fty e) 2 false
    | _ => true
    end
  end.
Fixpoint implements_msg (gs : list gofield) (fs : list sfld) : bool :=
  match gs, fs with
  | [], [] => true
  | g :: gs, f :: fs => implements_field g f && implements_msg gs fs
  | _, _ => false
  end.
Fixpoint implements (D : decls) (sch : schema) : bool :=
  match D, sch with
  | [], [] => true
  | gs :: D, fs :: sch => implements_msg gs fs && implements D sch
  | _, _ => false
  end.

(** Position and tag (8 * number + wire type) of each declared field. *)
Fixpoint declared (i : nat) (fs : list sfld) : list (nat * N) :=
  match fs with
  | [] => []
  | Hidden _ :: fs => declared (S i) fs
  | Field n f :: fs => (i, 8 * n + wire_fty f)%N :: declared (S i) fs
  end.

(** Well-formed schemas: numbers positive, below 2^61 and distinct within a
    message, messages exist. *)
Fixpoint numbers (fs : list sfld) : list N :=
  match fs with
  | [] => []
  | Hidden _ :: fs => numbers fs
  | Field n _ :: fs => n :: numbers fs
  end.
Fixpoint nodup_N (l : list N) : bool :=
  match l with [] => true | x :: l => negb (existsb (N.eqb x) l) && nodup_N l end.
Fixpoint msgs_exist (count : nat) (f : fty) : bool :=
  match f with
  | FMessage m => Nat.ltb m count
  | FRepeated e | FMap _ e => msgs_exist count e
  | _ => true
  end.
Definition schema_ok (sch : schema) : bool :=
  forallb (fun fs =>
    forallb (fun n => (0 <? n)%N && (n <? 2^61)%N) (numbers fs) && nodup_N (numbers fs) &&
    forallb (fun f => match f with Field _ f => msgs_exist (length sch) f | _ => true end) fs) sch.

(** ** The fragment the library gets right: the other combinations are dealt
    with by refutations. *)
Definition scope_elem (e : fty) : bool :=
  match e with
  | FAlways (Y_fixed32 | Y_fixed64 | Y_sfixed32 | Y_sfixed64) => false
  | FAlways _ | FBytes | FMessage _ => true
  | _ => false
  end.
Definition scope_key (s : sty) : bool :=
  match s with Y_int32 | Y_int64 | Y_uint32 | Y_uint64 | Y_bool | Y_string => true | _ => false end.
Definition scope_val (e : fty) : bool :=
  match e with
  | FAlways (Y_sint32 | Y_sint64 | Y_fixed32 | Y_fixed64 | Y_sfixed32 | Y_sfixed64) => false
  | FAlways _ | FBytes | FMessage _ => true
  | _ => false
  end.
Definition scope_field (f : fty) : bool :=
  match f with
  | FImplicit (Y_sfixed32 | Y_sfixed64) | FOptional (Y_sfixed32 | Y_sfixed64) => false
  | FImplicit _ | FOptional _ => true
  | FPointer (Y_fixed32 | Y_fixed64 | Y_sfixed32 | Y_sfixed64 | Y_float | Y_double) => false
  | FPointer _ => true
  | FAlways _ => false
  | FBytes | FMessage _ => true
  | FRepeated e => scope_elem e
  | FMap k e => scope_key k && scope_val e
  end.
Definition scope_msg (fs : list sfld) : bool :=
  forallb (fun f => match f with Field _ f => scope_field f | Hidden _ => true end) fs.
Definition in_scope (sch : schema) : bool := forallb scope_msg sch.

(** The library remembers the codec of a slice or pointer type by its Go type
    only, so that these fields must agree on zigzag: two of them with the same
    Go type have the same kind of tag. *)
Definition remembered (f : fty) : bool := match f with FPointer _ | FRepeated _ => true | _ => false end.
Definition fields_of (sch : schema) : list fty :=
  flat_map (flat_map (fun f => match f with Field _ f => [f] | Hidden _ => [] end)) sch.
Definition coherent (sch : schema) : bool :=
  forallb (fun f => forallb (fun g =>
    negb (remembered f && is_type (go_type f) (go_type g)) || String.eqb (kind_fty f) (kind_fty g))
    (fields_of sch)) (fields_of sch).

(** [D] are the Go types of the messages of [sch], and [sch] is in scope. *)
Definition covers (D : decls) (sch : schema) : bool :=
  implements D sch && schema_ok sch && in_scope sch && coherent sch.

(** ** What is written *)
Definition in64 (z : Z) : N := Z.to_N (z mod 2^64).
Definition pay (s : sty) (v : val) : payload :=
  match s, v with
  | (Y_int32 | Y_int64), (VI32 z | VI64 z) => PVar (in64 z)
  | (Y_uint32 | Y_uint64), (VU32 n | VU64 n) => PVar n
  | (Y_sint32 | Y_sint64), (VI32 z | VI64 z) => PVar (zigzag z)
  | Y_fixed32, VU32 n => PFix32 n
  | Y_fixed64, VU64 n => PFix64 n
  | Y_sfixed32, VI32 z => PFix32 (Z.to_N (z mod 2^32))
  | Y_sfixed64, VI64 z => PFix64 (in64 z)
  | Y_float, VF32 n => PFix32 n
  | Y_double, VF64 n => PFix64 n
  | Y_bool, VBool b => PVar (if b then 1 else 0)
  | Y_string, VStr b => PLen b
  | _, _ => PVar 0
  end.
(** The zero value, bit for bit. *)
Definition is_zero (v : val) : bool :=
  match v with
  | VBool b => negb b
  | VI32 z | VI64 z => (z =? 0)%Z
  | VU32 n | VU64 n | VF32 n | VF64 n => (n =? 0)%N
  | VStr b => match b with [] => true | _ => false end
  | _ => false
  end.

Section Schema.
Variable sch : schema.
Definition msg (m : nat) : list sfld := nth m sch [].

(** The records of one field. *)
Fixpoint records (v : val) (n : N) (f : fty) {struct v} : list record :=
  match f, v with
  | FImplicit s, _ => if is_zero v then [] else [(n, pay s v)]
  | FAlways s, _ => [(n, pay s v)]
  | FOptional s, VOpt true x => [(n, pay s x)]
  | FPointer s, VPtr (Some x) => [(n, pay s x)]
  | FBytes, VBytes (Some b) => [(n, PLen b)]
  | FMessage m, VPtr (Some (VStruct xs)) =>
    let fix all xs fs :=
      match xs, fs with
      | x :: xs, Field n f :: fs => records x n f ++ all xs fs
      | _ :: xs, Hidden _ :: fs => all xs fs
      | _, _ => []
      end in
    [(n, PLen (ser (all xs (msg m))))]
  | FRepeated e, VSlice _ items _ => flat_map (fun x => records x n e) items
  | FMap k e, VMap (Some l) =>
    flat_map (fun kv => match kv with (a, x) =>
      [(n, PLen (ser (records a 1 (FAlways k) ++ records x 2 e)))] end) l
  | _, _ => []
  end.
(** The records of a message, in declaration order. *)
Fixpoint message (xs : list val) (fs : list sfld) : list record :=
  match xs, fs with
  | x :: xs, Field n f :: fs => records x n f ++ message xs fs
  | _ :: xs, Hidden _ :: fs => message xs fs
  | _, _ => []
  end.

(** Values outside the reach of three deviations of the library, each the
    subject of a refutation: the length prefix of a map entry is computed with
    the key's codec; an empty map is written as an empty entry; a pointer to a
    zero scalar is not written. [map_len_ok]: what is in memory at the value
    would have, as a key, the length the value has. [bits64], [bits32]: the first 8
    and 4 bytes at the address of a value, unless they depend on an address or
    run past the value. *)
Definition bits64 (x : val) : option N :=
  match x with VI64 z => Some (in64 z) | VU64 n | VF64 n => Some n | VPtr None => Some 0%N | _ => None end.
Definition bits32 (x : val) : option N :=
  match x with
  | VI32 z => Some (Z.to_N (z mod 2^32)) | VU32 n | VF32 n => Some n
  | _ => match bits64 x with Some n => Some (n mod 2^32)%N | None => None end
  end.
Definition as_signed (n : N) : Z := if (n <? 2^31)%N then Z.of_N n else (Z.of_N n - 2^32)%Z.
Definition key_length (k : sty) (x : val) : option nat :=
  match k with
  | Y_bool => Some 1%nat
  | Y_int32 => match bits32 x with Some n => Some (length (vint (in64 (as_signed n)))) | None => None end
  | Y_uint32 => match bits32 x with Some n => Some (length (vint n)) | None => None end
  | Y_int64 | Y_uint64 => match bits64 x with Some n => Some (length (vint n)) | None => None end
  | Y_string =>
    match x with
    | VStr b | VBytes (Some b) => Some (length (ser_payload (PLen b)))
    | VBytes None => Some 1%nat
    | _ => None
    end
  | _ => None
  end.
Definition map_len_ok (k : sty) (e : fty) (x : val) : bool :=
  match key_length k x with
  | Some n => Nat.eqb (S n) (length (ser (records x 2 e)))
  | None => false
  end.
Fixpoint encodable (v : val) (f : fty) {struct v} : bool :=
  match f, v with
  | FPointer _, VPtr (Some x) => negb (is_zero x)
  | FMessage m, VPtr (Some (VStruct xs)) =>
    let fix all xs fs :=
      match xs, fs with
      | x :: xs, Field _ f :: fs => encodable x f && all xs fs
      | _ :: xs, Hidden _ :: fs => all xs fs
      | _, _ => true
      end in
    all xs (msg m)
  | FRepeated e, VSlice _ items _ => forallb (fun x => encodable x e) items
  | FMap k e, VMap (Some (kv :: l)) =>
    forallb (fun kv => match kv with (_, x) => map_len_ok k e x && encodable x e end) (kv :: l)
  | FMap k e, _ => false
  | _, _ => true
  end.
Fixpoint encodable_msg (xs : list val) (fs : list sfld) : bool :=
  match xs, fs with
  | x :: xs, Field _ f :: fs => encodable x f && encodable_msg xs fs
  | _ :: xs, Hidden _ :: fs => encodable_msg xs fs
  | _, _ => true
  end.

(** ** What is read *)

(** The payload after a tag of wire type [w]. *)
Definition read_payload (w : N) (r : list N) : option (payload * list N) :=
  if (w =? 0)%N then
    match read_varint r with VOk v _ r => Some (PVar v, r) | _ => None end
  else if (w =? 1)%N then
    if (8 <=? length r)%nat then Some (PFix64 (le_value (firstn 8 r)), skipn 8 r) else None
  else if (w =? 2)%N then
    match read_varint r with
    | VOk l _ r => if (l <=? N.of_nat (length r))%N
                   then Some (PLen (firstn (N.to_nat l) r), skipn (N.to_nat l) r) else None
    | _ => None
    end
  else if (w =? 5)%N then
    if (4 <=? length r)%nat then Some (PFix32 (le_value (firstn 4 r)), skipn 4 r) else None
  else None.

Definition signed (w : N) (n : N) : Z :=
  let m := (n mod 2^w)%N in
  if (m <? 2^(w-1))%N then Z.of_N m else (Z.of_N m - Z.of_N (2^w))%Z.
Definition read_scalar (s : sty) (p : payload) : option val :=
  match s, p with
  | Y_int32, PVar n => Some (VI32 (signed 32 n))
  | Y_int64, PVar n => Some (VI64 (signed 64 n))
  | Y_uint32, PVar n => Some (VU32 (n mod 2^32))
  | Y_uint64, PVar n => Some (VU64 n)
  | Y_sint32, PVar n => Some (VI32 (unzigzag (n mod 2^32)))
  | Y_sint64, PVar n => Some (VI64 (unzigzag n))
  | Y_fixed32, PFix32 n => Some (VU32 n)
  | Y_fixed64, PFix64 n => Some (VU64 n)
  | Y_sfixed32, PFix32 n => Some (VI32 (signed 32 n))
  | Y_sfixed64, PFix64 n => Some (VI64 (signed 64 n))
  | Y_float, PFix32 n => Some (VF32 n)
  | Y_double, PFix64 n => Some (VF64 n)
  | Y_bool, PVar n => Some (VBool (negb (n =? 0)%N))
  | Y_string, PLen b => Some (VStr b)
  | _, _ => None
  end.

Fixpoint find_field (i : nat) (fs : list sfld) (n : N) : option (nat * fty) :=
  match fs with
  | [] => None
  | Field n' f :: fs => if (n' =? n)%N then Some (i, f) else find_field (S i) fs n
  | Hidden _ :: fs => find_field (S i) fs n
  end.
Fixpoint replace {A} (l : list A) (i : nat) (x : A) : list A :=
  match l, i with
  | [], _ => []
  | _ :: r, O => x :: r
  | y :: r, S i => y :: replace r i x
  end.

(** Go's == on floats with [e] bits of exponent and [f] bits of fraction: nothing
    equals a NaN, zeros of either sign are equal. *)
Definition same_float (e f a b : N) : bool :=
  let exponent n := ((n / 2^f) mod 2^e)%N in
  let fraction n := (n mod 2^f)%N in
  let nan n := (exponent n =? 2^e - 1)%N && negb (fraction n =? 0)%N in
  let zero n := (exponent n =? 0)%N && (fraction n =? 0)%N in
  negb (nan a) && negb (nan b) && ((a =? b)%N || zero a && zero b).
(** Equality of map keys: Go's == on scalars. *)
Definition same_key (a b : val) : bool :=
  match a, b with
  | VBool x, VBool y => Bool.eqb x y
  | VI32 x, VI32 y | VI64 x, VI64 y => (x =? y)%Z
  | VU32 x, VU32 y | VU64 x, VU64 y => (x =? y)%N
  | VStr x, VStr y => if list_eq_dec N.eq_dec x y then true else false
  | VF32 x, VF32 y => same_float 8 23 x y
  | VF64 x, VF64 y => same_float 11 52 x y
  | _, _ => false
  end.
(** Insert or replace. *)
Fixpoint put_entry (l : list (val * val)) (k x : val) : list (val * val) :=
  match l with
  | [] => [(k, x)]
  | (k', x') :: r => if same_key k' k then (k, x) :: r else (k', x') :: put_entry r k x
  end.

Definition zeros (fs : list sfld) : list val := map (fun f => zero (fld_type f)) fs.

(** Result of merging: the new contents; malformed input; or fuel exhausted,
    which does not happen when the fuel exceeds the length of the input. *)
Inductive mres (A : Type) := MOk (a : A) | MBad | MFuel.
Arguments MOk {A} a.
Arguments MBad {A}.
Arguments MFuel {A}.
Definition of_option {A} (o : option A) : mres A := match o with Some a => MOk a | None => MBad end.
Definition mmap {A B} (g : A -> B) (r : mres A) : mres B :=
  match r with MOk a => MOk (g a) | MBad => MBad | MFuel => MFuel end.

(** Merge one record's payload into a field of type [f] that holds [y];
    [sub fs xs b] merges the bytes [b] into a message. *)
Fixpoint put (sub : list sfld -> list val -> list N -> mres (list val)) (f : fty) (p : payload) (y : val) : mres val :=
  match f with
  | FImplicit s | FAlways s => of_option (read_scalar s p)
  | FOptional s => mmap (VOpt true) (of_option (read_scalar s p))
  | FPointer s => mmap (fun x => VPtr (Some x)) (of_option (read_scalar s p))
  | FBytes => match p with PLen b => MOk (VBytes (Some b)) | _ => MBad end
  | FMessage m =>
    match p with
    | PLen b =>
      mmap (fun xs => VPtr (Some (VStruct xs)))
        (sub (msg m) match y with VPtr (Some (VStruct xs)) => xs | _ => zeros (msg m) end b)
    | _ => MBad
    end
  | FRepeated e =>
    mmap (fun x => match y with VSlice _ items _ => VSlice true (items ++ [x]) [] | _ => y end)
      (put sub e p (zero (go_type e)))
  | FMap k e =>
    match p with
    | PLen b =>
      let entry := [Field 1 (FAlways k); Field 2 e] in
      mmap (fun xs => match xs, y with
                      | [a; x], VMap m => VMap (Some (put_entry match m with Some l => l | None => [] end a x))
                      | _, _ => y end)
        (sub entry (zeros entry) b)
    | _ => MBad
    end
  end.
(** Merge a byte string into the message contents [xs]. *)
Fixpoint merge (fuel : nat) (fs : list sfld) (xs : list val) (b : list N) : mres (list val) :=
  match fuel with
  | O => MFuel
  | S fuel =>
    match b with
    | [] => MOk xs
    | _ =>
      match read_varint b with
      | VOk tag _ r =>
        match read_payload (tag mod 8) r with
        | None => MBad
        | Some (p, r) =>
          match find_field 0 fs (tag / 8) with
          | None => merge fuel fs xs r                       (* unknown: skipped *)
          | Some (i, f) =>
            if negb (wire_fty f =? tag mod 8)%N then MBad
            else match nth_error xs i with
                 | None => MBad
                 | Some y =>
                   match put (merge fuel) f p y with
                   | MOk y => merge fuel fs (replace xs i y) r
                   | MBad => MBad
                   | MFuel => MFuel
                   end
                 end
          end
        end
      | _ => MBad
      end
    end
  end.

(** Numbers of the records of [b], up to the first malformed one. *)
Fixpoint mentioned (fuel : nat) (b : list N) : list N :=
  match fuel with
  | O => []
  | S fuel =>
    match b with
    | [] => []
    | _ =>
      match read_varint b with
      | VOk tag _ r =>
        (tag / 8)%N :: match read_payload (tag mod 8) r with Some (_, r) => mentioned fuel r | None => [] end
      | _ => []
      end
    end
  end.

(** ** Inputs on which the library is known to deviate from [merge]: a bool
    whose varint has more than one byte, a sint32 whose varint is 2^32 or more
    (see the refutations). [plain] says there are none. *)
Fixpoint plain_put (sub : list sfld -> list N -> bool) (f : fty) (p : payload) (len : nat) : bool :=
  match f with
  | FImplicit s | FAlways s | FOptional s | FPointer s =>
    match s, p with
    | Y_bool, _ => Nat.eqb len 1
    | Y_sint32, PVar n => (n <? 2^32)%N
    | _, _ => true
    end
  | FBytes => true
  | FMessage m => match p with PLen b => sub (msg m) b | _ => true end
  | FRepeated e => plain_put sub e p len
  | FMap k e => match p with PLen b => sub [Field 1 (FAlways k); Field 2 e] b | _ => true end
  end.
Fixpoint plain (fuel : nat) (fs : list sfld) (b : list N) : bool :=
  match fuel with
  | O => true
  | S fuel =>
    match b with
    | [] => true
    | _ =>
      match read_varint b with
      | VOk tag _ r =>
        match read_payload (tag mod 8) r with
        | None => true
        | Some (p, r') =>
          match find_field 0 fs (tag / 8) with
          | None => true
          | Some (_, f) => negb (wire_fty f =? tag mod 8)%N || plain_put (plain fuel) f p (length r - length r')
          end && plain fuel fs r'
        end
      | _ => true
      end
    end
  end.

(** ** What the wire keeps: fields without a tag come back zero, nil elements
    of repeated fields are dropped. *)
Definition is_nil (v : val) : bool :=
  match v with VPtr None | VBytes None => true | _ => false end.
Fixpoint kept (v : val) (f : fty) {struct v} : val :=
  match f, v with
  | FMessage m, VPtr (Some (VStruct xs)) =>
    let fix all xs fs :=
      match xs, fs with
      | x :: xs, Field _ f :: fs => kept x f :: all xs fs
      | _ :: xs, Hidden t :: fs => zero t :: all xs fs
      | _, _ => []
      end in
    VPtr (Some (VStruct (all xs (msg m))))
  | FRepeated e, VSlice nn items spare =>
    VSlice nn (flat_map (fun x => if is_nil x then [] else [kept x e]) items) spare
  | FMap k e, VMap (Some l) => VMap (Some (map (fun kv => match kv with (a, x) => (a, kept x e) end) l))
  | _, _ => v
  end.
Fixpoint kept_msg (xs : list val) (fs : list sfld) : list val :=
  match xs, fs with
  | x :: xs, Field _ f :: fs => kept x f :: kept_msg xs fs
  | _ :: xs, Hidden t :: fs => zero t :: kept_msg xs fs
  | _, _ => []
  end.

End Schema.
Arguments MOk {A} a.
Arguments MBad {A}.
Arguments MFuel {A}.

(** ** Message values up to what the wire format cannot tell apart: spare
    capacity, nil and empty slices, nil and empty maps, the memory behind None. *)
Definition zero_like (v : val) : val :=
  match v with
  | VBool _ => VBool false
  | VI32 _ => VI32 0 | VI64 _ => VI64 0
  | VU32 _ => VU32 0 | VU64 _ => VU64 0
  | VF32 _ => VF32 0 | VF64 _ => VF64 0
  | VStr _ => VStr []
  | _ => v
  end.
Fixpoint norm (v : val) : val :=
  match v with
  | VOpt false x => VOpt false (zero_like x)
  | VSlice _ items _ => VSlice (match items with [] => false | _ => true end) (map norm items) []
  | VMap (Some (kv :: l)) => VMap (Some (map (fun kv => match kv with (k, x) => (k, norm x) end) (kv :: l)))
  | VMap (Some []) => VMap None
  | VPtr (Some x) => VPtr (Some (norm x))
  | VStruct xs => VStruct (map norm xs)
  | _ => v
  end.
(** Memory between length and capacity of a slice holds no message. Go code
    cannot tell, but slots of a []*Msg left by an earlier call are reused. *)
Fixpoint fresh (v : val) : bool :=
  match v with
  | VSlice _ items spare =>
    forallb fresh items && forallb (fun x => match x with VPtr (Some _) => false | _ => true end) spare
  | VMap (Some l) => forallb (fun kv => match kv with (_, x) => fresh x end) l
  | VPtr (Some x) => fresh x
  | VStruct xs => forallb fresh xs
  | _ => true
  end.
