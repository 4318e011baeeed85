(** Model of parseStructTag (proto/struct.go:151-227) and formatWireTag
    (proto/map.go:96-98, proto/proto.go:87-100). *)
From Coq Require Import String Ascii.
From Verif Require Import Base Wire GoType.
Local Open Scope Z_scope.

(** strings.Split(s, ",") *)
Fixpoint split_comma (s : string) : list string :=
  match s with
  | EmptyString => [EmptyString]
  | String c r =>
    if Ascii.eqb c ","%char then EmptyString :: split_comma r
    else match split_comma r with
         | w :: ws => String c w :: ws
         | [] => [String c EmptyString]
         end
  end.

(** strconv.Atoi: optional sign, at least one decimal digit, nothing else,
    and a result that fits int (64 bits). *)
Definition digit (c : ascii) : option Z :=
  let n := Z.of_N (N_of_ascii c) in
  if (48 <=? n) && (n <=? 57) then Some (n - 48) else None.
Fixpoint digits (s : string) (acc : Z) : option Z :=
  match s with
  | EmptyString => Some acc
  | String c r => match digit c with Some d => digits r (10 * acc + d) | None => None end
  end.
Definition unsigned (s : string) : option Z :=
  match s with EmptyString => None | _ => digits s 0 end.
Definition atoi (s : string) : option Z :=
  let v := match s with
           | String c r =>
             if Ascii.eqb c "-"%char then option_map Z.opp (unsigned r)
             else if Ascii.eqb c "+"%char then unsigned r
             else unsigned s
           | EmptyString => None
           end in
  match v with
  | Some z => if (- Z63 <=? z) && (z <? Z63) then Some z else None
  | None => None
  end.

(** struct.go:151-157; [fieldNumber] and [wireType] are uints. *)
Record structTag := { t_wire : N; t_num : N; t_rep : bool; t_zz : bool }.

Inductive tag_err := ErrTagWire | ErrTagNumber | ErrTagOption.

(** struct.go:165-184, case 0 *)
Definition parse_wire (f : string) (t : structTag) : structTag * option tag_err :=
  let mk w z := ({| t_wire := w; t_num := t_num t; t_rep := t_rep t; t_zz := z |}, None) in
  if (f =? "varint")%string then mk 0%N (t_zz t)
  else if (f =? "bytes")%string then mk 2%N (t_zz t)
  else if (f =? "fixed32")%string then mk 5%N (t_zz t)
  else if (f =? "fixed64")%string then mk 1%N (t_zz t)
  else if (f =? "zigzag32")%string then mk 0%N true
  else if (f =? "zigzag64")%string then mk 0%N true
  else (t, Some ErrTagWire).
(** struct.go:186-191, case 1; [fieldNumber(n)] of an int wraps to uint. *)
Definition parse_num (f : string) (t : structTag) : structTag * option tag_err :=
  match atoi f with
  | Some n => ({| t_wire := t_wire t; t_num := u64 n; t_rep := t_rep t; t_zz := t_zz t |}, None)
  | None => (t, Some ErrTagNumber)
  end.
(** struct.go:193-201, case 2 *)
Definition parse_opt (f : string) (t : structTag) : structTag * option tag_err :=
  if (f =? "opt")%string then (t, None)
  else if (f =? "rep")%string then
    ({| t_wire := t_wire t; t_num := t_num t; t_rep := true; t_zz := t_zz t |}, None)
  else (t, Some ErrTagOption).

(** struct.go:164-220: the loop; on error the tag built so far is returned too
    (walker.go:240,246 go on with it). *)
Fixpoint parse_fields (i : nat) (fs : list string) (t : structTag) : structTag * option tag_err :=
  match fs with
  | [] => (t, None)
  | f :: fs =>
    let '(t, e) := match i with
                   | 0%nat => parse_wire f t
                   | 1%nat => parse_num f t
                   | 2%nat => parse_opt f t
                   | _ => (t, None)
                   end in
    match e with
    | Some e => (t, Some e)
    | None => parse_fields (S i) fs t
    end
  end.

(** struct.go:159-223 *)
Definition parseStructTag (tag : string) : structTag * option tag_err :=
  parse_fields 0 (split_comma tag) {| t_wire := 0; t_num := 0; t_rep := false; t_zz := false |}.

(** walker.go:165,241,247: [uint64(t.fieldNumber)<<3 | uint64(t.wireType)] *)
Definition tag_wiretag (t : structTag) : N := mktag (t_num t) (t_wire t).

(** fmt's %d of a uint64, most significant digit first. A uint64 has at most 20
    digits. *)
Definition digit_char (d : N) : ascii := ascii_of_N (48 + d).
Fixpoint decimal_aux (fuel : nat) (n : N) (acc : string) : string :=
  match fuel with
  | O => acc
  | S fuel =>
    let acc := String (digit_char (n mod 10)) acc in
    if (n <? 10)%N then acc else decimal_aux fuel (n / 10)%N acc
  end.
Definition decimal (n : N) : string := decimal_aux 20 n EmptyString.

(** proto.go:87-100 *)
Definition wire_name (wt : N) : string :=
  (if wt =? 0 then "varint" else if wt =? 2 then "bytes" else if wt =? 5 then "fixed32"
   else if wt =? 1 then "fixed64" else "unknown")%N%string.

(** map.go:96-98: the value of the [protobuf] key of the formatted tag. *)
Definition formatWireTag (wire : N) : string :=
  (wire_name (N.land wire 7) ++ "," ++ decimal (N.shiftr wire 3) ++ ",opt")%string.

(** map.go:101-104: the fields of the synthesised entry struct. *)
Definition entry_fields (k : skind) (v : gotype) (ktag vtag : N) : list gofield :=
  [ {| gf_exported := true; gf_tag := Some (formatWireTag ktag); gf_key := ""; gf_val := "";
       gf_type := TScalar k |};
    {| gf_exported := true; gf_tag := Some (formatWireTag vtag); gf_key := ""; gf_val := "";
       gf_type := v |} ].

(** The fields of a struct type that gets a structInfo. Option[k] has two
    unexported fields (option.go:7-10). *)
Definition struct_fields (D : decls) (k : skey) : list gofield :=
  match k with
  | SNamed sid => match nth_error D sid with Some fs => fs | None => [] end
  | SEntry k v kt vt => entry_fields k v kt vt
  | SOpt k =>
    [ {| gf_exported := false; gf_tag := None; gf_key := ""; gf_val := ""; gf_type := TScalar KBool |};
      {| gf_exported := false; gf_tag := None; gf_key := ""; gf_val := ""; gf_type := TScalar k |} ]
  end.
