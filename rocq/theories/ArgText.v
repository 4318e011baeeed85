(** Model of the texts of errors about arguments and struct tags
    (proto/error.go:37-51, proto/proto.go:18, 28, 58, proto/struct.go:160-218). *)
From Coq Require Import String Ascii.
From Verif Require Import Base Wire Tag StructTag ErrText.
Local Open Scope string_scope.

(** reflect.Type as far as these texts go: Kind() (a pointer, a struct,
    something else), Elem() and String() (error.go:38-50). A pointer type may
    have a name. The texts of other types are given. *)
Inductive rtype :=
| RPtr (elem : rtype)
| RNamedPtr (name : string) (elem : rtype)
| RStruct (text : string)
| ROther (text : string).
(** reflect.Type.String (library) *)
Fixpoint type_string (t : rtype) : string :=
  match t with
  | RPtr e => "*" ++ type_string e
  | RNamedPtr n _ => n
  | RStruct s | ROther s => s
  end.
(** Elem() if Kind() is Pointer *)
Definition elem_of (t : rtype) : option rtype := match t with RPtr e | RNamedPtr _ e => Some e | _ => None end.
(** Kind() == reflect.Struct *)
Definition struct_kind (t : rtype) : bool := match t with RStruct _ => true | _ => false end.

(** InvalidUnmarshalError.Error, error.go:37-51 *)
Definition invalid_text (t : option rtype) : string :=
  match t with
  | None => "proto: Unmarshal(nil)"
  | Some t =>
    match elem_of t with
    | None => "proto: Unmarshal(non-pointer" ++ type_string t ++ ")"
    | Some e => if negb (struct_kind e) then "proto: Unmarshal(bad pointer" ++ type_string t ++ ")"
                else "proto: Unmarshal(nil " ++ type_string t ++ ")"
    end
  end.
(** fmt's verb T (library) *)
Definition fmt_T (t : option rtype) : string := match t with None => "<nil>" | Some t => type_string t end.
(** proto.go:18 (what Size panics with) and proto.go:28 *)
Definition not_pointer_text (t : option rtype) : string := "proto.Marshal(" ++ fmt_T t ++ "): not a pointer".
(** proto.go:58 *)
Definition short_text (t : option rtype) (n l : Z) : string :=
  "proto.Unmarshal(" ++ fmt_T t ++ "): read=" ++ fmt_d n ++ " < buffer=" ++ fmt_d l.

(** strconv.ParseUint(s, 10, 64) (library): the digits one by one; [true] is
    ErrRange, [false] ErrSyntax. *)
Fixpoint parse_uint (s : string) (acc : Z) : Z + bool :=
  match s with
  | EmptyString => inl acc
  | String c r =>
    match digit c with
    | None => inr false
    | Some d => let n := (10 * acc + d)%Z in if (n <? 2^64)%Z then parse_uint r n else inr true
    end
  end.
(** strconv.Atoi (library) as ParseInt(s, 10, 0): whether the error is
    ErrRange, if there is one. *)
Definition atoi_error (s : string) : option bool :=
  let '(neg, r) := match s with
                   | String "-" r => (true, r)
                   | String "+" r => (false, r)
                   | _ => (false, s)
                   end in
  match r with
  | EmptyString => Some false
  | _ => match parse_uint r 0 with
         | inr e => Some e
         | inl n => if (n <? (if neg : bool then Z63 + 1 else Z63))%Z then None else Some true
         end
  end.
(** NumError.Error (library) *)
Definition num_error_text (s : string) (range : bool) : string :=
  "strconv.Atoi: parsing " ++ Quote s ++ ": " ++ (if range then "value out of range" else "invalid syntax").

(** The error of parseStructTag as text, struct.go:164-218: [f] is the item the
    loop stops at. Quoting is modelled for ASCII text. *)
Definition tag_error_text (tag f : string) (e : tag_err) : string :=
  match e with
  | ErrTagWire => "unsupported wire type in struct tag " ++ Quote tag ++ ": " ++ f                    (* struct.go:183 *)
  | ErrTagNumber => "unsupported field number in struct tag " ++ Quote tag ++ ": " ++                 (* struct.go:189 *)
      match atoi_error f with Some range => num_error_text f range | None => "" end
  | ErrTagOption => "unsupported field option in struct tag " ++ Quote tag ++ ": " ++ f               (* struct.go:200 *)
  end.
(** The loop of struct.go:164-220 with the text of its error. *)
Fixpoint fields_text (tag : string) (i : nat) (fs : list string) : option string :=
  match fs with
  | [] => None
  | f :: fs =>
    let t := {| t_wire := 0; t_num := 0; t_rep := false; t_zz := false |} in
    match snd match i with 0%nat => parse_wire f t | 1%nat => parse_num f t | 2%nat => parse_opt f t | _ => (t, None) end with
    | Some e => Some (tag_error_text tag f e)
    | None => fields_text tag (S i) fs
    end
  end.
(** Error() of what parseStructTag returns, struct.go:159-223 *)
Definition tag_text (tag : string) : option string := fields_text tag 0 (split_comma tag).
