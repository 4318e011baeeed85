(** How Go reads struct declarations. *)
From Coq Require Import String Ascii.
From Verif Require Import Base GoType StructTag SpecStructTag SpecText.
Local Open Scope string_scope.
Local Open Scope char_scope.

(** ** Struct types of a file: lines of code between a header and a brace. Words
    are separated by spaces. *)
Fixpoint words (s : string) : list string :=
  match s with
  | EmptyString => [EmptyString]
  | String c s => if Ascii.eqb c space then EmptyString :: words s
                  else match words s with w :: r => String c w :: r | [] => [String c EmptyString] end
  end.
Definition header (line : string) : option string :=
  match words line with
  | [a; n; b; c] => if (String.eqb a "type" && String.eqb b "struct" && String.eqb c "{")%bool then Some n else None
  | _ => None
  end.
(** [cur]: the struct being read. *)
Fixpoint structs (cur : option (string * list string)) (ls : list string) : list (string * list string) :=
  match ls, cur with
  | [], _ => []
  | l :: ls, None => match header l with Some n => structs (Some (n, [])) ls | None => structs None ls end
  | l :: ls, Some (n, body) => if String.eqb l "}" then (n, body) :: structs None ls else structs (Some (n, body ++ [l])%list) ls
  end.

(** ** Types *)
Inductive gtype :=
| GName (n : string) | GStar (t : gtype) | GSlice (t : gtype) | GArray (n : string) (t : gtype) | GMap (k v : gtype)
| GInst (n : string) (t : gtype) | GFunc | GStruct.
Definition ident_char (c : ascii) : bool :=
  let n := N_of_ascii c in
  ((48 <=? n) && (n <=? 57) || (65 <=? n) && (n <=? 90) || (97 <=? n) && (n <=? 122) || (n =? 95) || (n =? 46) || (128 <=? n))%N%bool.
Fixpoint span (s : string) : string * string :=
  match s with
  | EmptyString => (EmptyString, EmptyString)
  | String c s' => if ident_char c then let '(a, b) := span s' in (String c a, b) else (EmptyString, s)
  end.
Definition open_bracket : ascii := "[".
(** A type at the start of the text, and the text behind it. *)
Fixpoint parse (fuel : nat) (s : string) : option (gtype * string) :=
  match fuel with
  | O => None
  | S fuel =>
    let inner (s : string) := match parse fuel s with Some (t, String "]" r) => Some (t, r) | _ => None end in
    match s with
    | String "*" r => option_map (fun '(t, r) => (GStar t, r)) (parse fuel r)
    | String "[" (String "]" r) => option_map (fun '(t, r) => (GSlice t, r)) (parse fuel r)
    | String "[" r =>
      match span r with
      | (n, String "]" r) => option_map (fun '(t, r) => (GArray n t, r)) (parse fuel r)
      | _ => None
      end
    | _ =>
      match span s with
      | (EmptyString, _) => None
      | (n, String "[" r) =>
        match inner r with
        | Some (t, r) =>
          if String.eqb n "map" then option_map (fun '(v, r) => (GMap t v, r)) (parse fuel r) else Some (GInst n t, r)
        | None => None
        end
      | (n, String "(" (String ")" r)) => if String.eqb n "func" then Some (GFunc, r) else None
      | (n, String "{" (String "}" r)) => if String.eqb n "struct" then Some (GStruct, r) else None
      | (n, r) => Some (GName n, r)
      end
    end
  end.
Definition parse_type (s : string) : option gtype :=
  match parse (S (String.length s)) s with Some (t, EmptyString) => Some t | _ => None end.

(** ** What types mean to the library. What a name that is not predeclared
    stands for: a struct (by its number), another name of int32, or anything
    else. *)
Inductive entity := EStruct (sid : nat) | EInt32 | EElse.
Definition scalar_name (n : string) : option skind :=
  if String.eqb n "bool" then Some KBool else if String.eqb n "int32" then Some KInt32
  else if String.eqb n "int64" then Some KInt64 else if String.eqb n "uint32" then Some KUint32
  else if String.eqb n "uint64" then Some KUint64 else if String.eqb n "float32" then Some KFloat32
  else if String.eqb n "float64" then Some KFloat64 else if String.eqb n "string" then Some KString else None.
Definition name_type (scope : string -> entity) (n : string) : gotype :=
  match scalar_name n with
  | Some k => TScalar k
  | None => match scope n with EInt32 => TScalar KInt32 | _ => TOther end
  end.
Definition is_byte (n : string) : bool := String.eqb n "byte" || String.eqb n "uint8".
Fixpoint type_of (scope : string -> entity) (t : gtype) : gotype :=
  match t with
  | GName n => name_type scope n
  | GStar (GName n) =>
    match scalar_name n, scope n with
    | None, EStruct sid => TMsg sid
    | _, _ => TPtr (name_type scope n)
    end
  | GStar t => TPtr (type_of scope t)
  | GSlice (GName n) => if is_byte n then TBytes else TSlice (name_type scope n)
  | GSlice t => TSlice (type_of scope t)
  | GMap k v => match type_of scope k with TScalar k => TMap k (type_of scope v) | _ => TOther end
  | GInst n t => if String.eqb n "proto.Option" then match type_of scope t with TScalar k => TOption k | _ => TOther end else TOther
  | GArray _ _ | GFunc | GStruct => TOther
  end.

(** ** Fields: a name, a type, a tag *)
Fixpoint cut (c : ascii) (s : string) : string * string :=
  match s with
  | EmptyString => (EmptyString, EmptyString)
  | String d s' => if Ascii.eqb c d then (EmptyString, s) else let '(a, b) := cut c s' in (String d a, b)
  end.
Definition is_upper (s : string) : bool :=
  match s with EmptyString => false | String c _ => (65 <=? N_of_ascii c)%N && (N_of_ascii c <=? 90)%N end.
(** As reflect shows it to the library. *)
Definition read_field (scope : string -> entity) (line : string) : option (string * gofield) :=
  match cut space line with
  | (name, String _ rest) =>
    let '(ty, tag) := cut backtick rest in
    match parse_type ty with
    | Some t => option_map (pair name) (reflect_field (is_upper name) tag (type_of scope t))
    | None => None
    end
  | _ => None
  end.
Fixpoint read_fields (scope : string -> entity) (body : list string) : option (list (string * gofield)) :=
  match body with
  | [] => Some []
  | l :: body =>
    match read_field scope l, read_fields scope body with
    | Some f, Some fs => Some (f :: fs)
    | _, _ => None
    end
  end.

(** The structs that a file of Go declares, with their fields. *)
Fixpoint read_structs (scope : string -> entity) (ss : list (string * list string)) : option (list (string * list (string * gofield))) :=
  match ss with
  | [] => Some []
  | (n, body) :: ss =>
    match read_fields scope body, read_structs scope ss with
    | Some fs, Some r => Some ((n, fs) :: r)
    | _, _ => None
    end
  end.
Definition go_structs (scope : string -> entity) (text : string) : option (list (string * list (string * gofield))) :=
  read_structs scope (structs None (code_lines text)).
