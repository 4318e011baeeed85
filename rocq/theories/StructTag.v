(** Model of the struct tags as text: how the protoc plugin writes them
    (internal/generator/main.go:512-533) and how reflect gives them to the
    library (proto/walker.go:152, 240, 246). strconv.Quote, strconv.Unquote and
    reflect.StructTag.Lookup are functions of Go's library; they are written
    down here for text of ASCII characters, which field kinds, numbers and
    identifiers of .proto files consist of. *)
From Coq Require Import String Ascii.
From Verif Require Import Base GoType ProtoGen.
Local Open Scope string_scope.
Local Open Scope char_scope.

(** Characters by their code. *)
Definition chr (n : N) : ascii := ascii_of_N n.
Definition code (c : ascii) : N := N_of_ascii c.
Definition quote_chr : ascii := chr 34.
Definition backslash : ascii := chr 92.
Definition backtick : ascii := chr 96.
Definition space : ascii := chr 32.
Definition str1 (c : ascii) : string := String c EmptyString.

(** lowercase hex digits of strconv *)
Definition hex_digit (n : N) : ascii := if (n <? 10)%N then chr (48 + n) else chr (87 + n).
(** strconv.appendEscapedRune for an ASCII rune and double quotes (used in main.go:529) *)
Definition escape (c : ascii) : string :=
  let n := code c in
  if ((n =? 34) || (n =? 92))%N%bool then String backslash (str1 c)
  else if ((32 <=? n) && (n <? 127))%N%bool then str1 c
  else if (n =? 7)%N then String backslash (str1 "a")
  else if (n =? 8)%N then String backslash (str1 "b")
  else if (n =? 12)%N then String backslash (str1 "f")
  else if (n =? 10)%N then String backslash (str1 "n")
  else if (n =? 13)%N then String backslash (str1 "r")
  else if (n =? 9)%N then String backslash (str1 "t")
  else if (n =? 11)%N then String backslash (str1 "v")
  else String backslash (String "x" (String (hex_digit (n / 16)) (str1 (hex_digit (n mod 16))))).
Fixpoint escapes (s : string) : string :=
  match s with EmptyString => EmptyString | String c s => escape c ++ escapes s end.
(** strconv.Quote, main.go:529 *)
Definition Quote (s : string) : string := String quote_chr (escapes s ++ str1 quote_chr).
(** strings.Replace of backticks by their hexadecimal escape, main.go:529 *)
Fixpoint replace_backtick (s : string) : string :=
  match s with
  | EmptyString => EmptyString
  | String c s => (if Ascii.eqb c backtick then String backslash "x60" else str1 c) ++ replace_backtick s
  end.

(** structTags, main.go:518: pairs of key and value. *)
Notation structTags := (list (string * string)).
(** main.go:525-530: one tag. *)
Definition tagText (t : string * string) : string :=
  fst t ++ String ":" (replace_backtick (Quote (snd t))).
(** strings.Join with a space, main.go:532 *)
Fixpoint joinTags (ts : structTags) : string :=
  match ts with
  | [] => EmptyString
  | [t] => tagText t
  | t :: ts => tagText t ++ String space (joinTags ts)
  end.
(** structTags.String, main.go:520-533 *)
Definition tagsString (ts : structTags) : string :=
  match ts with
  | [] => EmptyString
  | _ => String backtick (joinTags ts ++ str1 backtick)
  end.

(** gotrackTags, main.go:512 *)
Definition gotrackTags : structTags := [("go", "track")]%string.
(** main.go:247-252, the tags of the field of a oneof of the given name, and
    main.go:274-287, those of other fields. [tracked]: m.isTracked *)
Definition oneofTags (name : string) (tracked : bool) : structTags :=
  (("protobuf_oneof"%string, name) :: (if tracked then gotrackTags else []))%list.
Definition fieldTags (F : descriptors) (fd : pfield_desc) (tracked : bool) : structTags :=
  (("protobuf"%string, fieldProtobufTagValue fd) ::
   (if is_map F fd then
      match m_fields (message_of F fd) with
      | kf :: vf :: _ => [("protobuf_key"%string, fieldProtobufTagValue kf); ("protobuf_val"%string, fieldProtobufTagValue vf)]
      | _ => []
      end
    else []) ++
   (if tracked then gotrackTags else []))%list.
(** main.go:476-481: the tag of the only field of the wrapper of a oneof member. *)
Definition wrapperTags (fd : pfield_desc) (tracked : bool) : structTags :=
  (("protobuf"%string, fieldProtobufTagValue fd) :: (if tracked then gotrackTags else []))%list.

(** The Go compiler's reading of a raw string literal: what is between the
    backticks, without carriage returns. [None]: no such literal, or text
    after it. The empty text stands for a field without tag. *)
Fixpoint raw_body (s : string) : option string :=
  match s with
  | EmptyString => None
  | String c s' =>
    if Ascii.eqb c backtick then match s' with EmptyString => Some EmptyString | _ => None end
    else match raw_body s' with
         | Some b => Some (if (code c =? 13)%N then b else String c b)
         | None => None
         end
  end.
Definition raw_literal (s : string) : option string :=
  match s with
  | EmptyString => Some EmptyString
  | String c s => if Ascii.eqb c backtick then raw_body s else None
  end.

(** reflect.StructTag.Lookup (library): skipping of spaces. *)
Fixpoint skip_spaces (s : string) : string :=
  match s with
  | EmptyString => EmptyString
  | String c s' => if Ascii.eqb c space then skip_spaces s' else s
  end.
(** Characters of a key: no space, colon, quote or control character. *)
Definition key_char (c : ascii) : bool :=
  ((32 <? code c) && negb (code c =? 58) && negb (code c =? 34) && negb (code c =? 127))%N%bool.
Fixpoint scan_key (s : string) : string * string :=
  match s with
  | EmptyString => (EmptyString, EmptyString)
  | String c s' => if key_char c then let '(k, r) := scan_key s' in (String c k, r) else (EmptyString, s)
  end.
(** The quoted string after the opening quote, and what follows the closing
    quote; a backslash takes the next character with it. *)
Fixpoint scan_quoted (s : string) : option (string * string) :=
  match s with
  | EmptyString => None
  | String c s' =>
    if Ascii.eqb c quote_chr then Some (EmptyString, s')
    else if Ascii.eqb c backslash then
      match s' with
      | EmptyString => None
      | String d s'' => match scan_quoted s'' with Some (q, r) => Some (String c (String d q), r) | None => None end
      end
    else match scan_quoted s' with Some (q, r) => Some (String c q, r) | None => None end
  end.
(** strconv.Unquote (library) of a double-quoted string, of which the contents
    are given. [None]: invalid syntax. Escapes with u, U and octal digits are
    not modelled and count as invalid; Quote does not write them for ASCII. *)
Definition unhex (c : ascii) : option N :=
  let n := code c in
  if ((48 <=? n) && (n <=? 57))%N%bool then Some (n - 48)%N
  else if ((97 <=? n) && (n <=? 102))%N%bool then Some (n - 87)%N
  else if ((65 <=? n) && (n <=? 70))%N%bool then Some (n - 55)%N
  else None.
Definition simple_escape (c : ascii) : option ascii :=
  let n := code c in
  if (n =? 97)%N then Some (chr 7) else if (n =? 98)%N then Some (chr 8) else if (n =? 102)%N then Some (chr 12)
  else if (n =? 110)%N then Some (chr 10) else if (n =? 114)%N then Some (chr 13) else if (n =? 116)%N then Some (chr 9)
  else if (n =? 118)%N then Some (chr 11) else if ((n =? 92) || (n =? 34))%N%bool then Some c else None.
Fixpoint Unquote (s : string) : option string :=
  match s with
  | EmptyString => Some EmptyString
  | String c s' =>
    if (Ascii.eqb c quote_chr || (code c =? 10)%N)%bool then None
    else if Ascii.eqb c backslash then
      match s' with
      | EmptyString => None
      | String d s'' =>
        if Ascii.eqb d "x" then
          match s'' with
          | String h (String l s''') =>
            match unhex h, unhex l with
            | Some h, Some l => option_map (String (chr (16 * h + l))) (Unquote s''')
            | _, _ => None
            end
          | _ => None
          end
        else match simple_escape d with Some e => option_map (String e) (Unquote s'') | None => None end
      end
    else option_map (String c) (Unquote s')
  end.

(** The loop of reflect.StructTag.Lookup (library). Each round takes at least
    one character off the tag, so that the length of the tag is enough fuel. *)
Inductive lookup := Found (v : string) | Missing | LookupFuel.
Fixpoint lookup_loop (fuel : nat) (tag key : string) : lookup :=
  match fuel with
  | O => LookupFuel
  | S fuel =>
    match skip_spaces tag with
    | EmptyString => Missing
    | tag =>
      let '(name, r) := scan_key tag in
      match name, r with
      | EmptyString, _ => Missing
      | _, String c (String q r) =>
        if (Ascii.eqb c ":" && Ascii.eqb q quote_chr)%bool then
          match scan_quoted r with
          | None => Missing
          | Some (qv, r) =>
            if String.eqb key name then
              match Unquote qv with Some v => Found v | None => Missing end
            else lookup_loop fuel r key
          end
        else Missing
      | _, _ => Missing
      end
    end
  end.
(** f.Tag.Lookup, walker.go:152 *)
Definition Lookup (tag key : string) : lookup := lookup_loop (S (String.length tag)) tag key.
(** f.Tag.Get, walker.go:240, 246: the empty string if the key is missing. *)
Definition Get (tag key : string) : string := match Lookup tag key with Found v => v | _ => EmptyString end.

(** The field of a struct as reflect shows it, from the text of its tag in the
    source. [None]: the source does not compile. *)
Definition reflect_field (exported : bool) (text : string) (t : gotype) : option gofield :=
  match raw_literal text with
  | None => None
  | Some tag =>
    Some {| gf_exported := exported;
            gf_tag := match Lookup tag "protobuf" with Found v => Some v | _ => None end;
            gf_key := Get tag "protobuf_key"; gf_val := Get tag "protobuf_val"; gf_type := t |}
  end.
