(** Model of the text that the protoc plugin writes (internal/generator/main.go),
    with the comments of the .proto file in it. Identifiers, texts of types and
    of default values are given (ProtoGen.v and GenGetter.v model how types and
    default values are chosen, GenFile.v which names are declared). Not
    modelled: annotations (they are written to another file) and what
    protogen's Content makes of the text, which inserts the import clause and
    formats it. *)
From Coq Require Import String Ascii.
From Verif Require Import Base StructTag ErrText.
Local Open Scope string_scope.
Local Open Scope list_scope.

Definition nl : ascii := chr 10.
Definition newline : string := str1 nl.
(** protogen.GeneratedFile.P (library): the arguments, and a newline. *)
Definition P (args : list string) : string := String.concat "" args ++ newline.

(** strings.Split at newlines (library). *)
Fixpoint split_nl (s : string) : list string :=
  match s with
  | EmptyString => [EmptyString]
  | String c s =>
    if Ascii.eqb c nl then EmptyString :: split_nl s
    else match split_nl s with l :: r => String c l :: r | [] => [String c EmptyString] end
  end.
(** strings.TrimSuffix of one newline (library). *)
Fixpoint trim_nl (s : string) : string :=
  match s with
  | EmptyString => EmptyString
  | String c EmptyString => if Ascii.eqb c nl then EmptyString else String c EmptyString
  | String c s => String c (trim_nl s)
  end.
(** strings.Contains of a newline (library). *)
Fixpoint has_nl (s : string) : bool :=
  match s with EmptyString => false | String c s => Ascii.eqb c nl || has_nl s end.
(** protogen.Comments.String (library): every line behind two slashes. *)
Definition Comments (c : string) : string :=
  match c with
  | EmptyString => EmptyString
  | _ => String.concat "" (map (fun line => "//" ++ line ++ newline)%string (split_nl (trim_nl c)))
  end.
(** appendDeprecationSuffix, main.go:536-544 *)
Definition appendDeprecationSuffix (c : string) (deprecated : bool) : string :=
  if deprecated then
    ((match c with EmptyString => EmptyString | _ => c ++ newline end) ++ " Deprecated: Do not use." ++ newline)%string
  else c.
(** trailingComment.String, main.go:549-557 *)
Definition trailingComment (c : string) : string :=
  let s := trim_nl (Comments c) in
  if has_nl s then EmptyString else s.

(** Comments of an element (protogen.CommentSet) and its option deprecated. *)
Record doc := { leading : string; trailing : string; deprecated : bool }.
Definition lead (d : doc) : string := Comments (appendDeprecationSuffix (leading d) (deprecated d)).

(** protogen.Enum and protogen.EnumValue as used by genEnum. *)
Record tvalue := { v_ident : string; v_number : Z; v_doc : doc }.
Record tenum := { e_ident : string; e_doc : doc; e_vals : list tvalue }.
(** genEnum, main.go:168-187 *)
Definition enum_text (e : tenum) : string :=
  String.concat "" (
    [P [lead (e_doc e); "type "; e_ident e; "= int32"]; P ["const ("]] ++
    map (fun v => P [lead (v_doc v); v_ident v; " "; e_ident e; " = "; fmt_d (v_number v); trailingComment (trailing (v_doc v))]) (e_vals e) ++
    [P [")"]; P []]).

(** protogen.Field: GoName, GoIdent, the type (fieldGoType, main.go:357-404) and
    whether it is wrapped in an option, the tags, the default value
    (main.go:433-459), the position of its oneof if it has one. *)
Record tfield := { x_name : string; x_ident : string; x_type : string; x_option : bool; x_tags : structTags;
                   x_default : string; x_oneof : option nat; x_doc : doc }.
(** protogen.Oneof: GoName, GoIdent, Desc.IsSynthetic(), name in the .proto
    file, leading comments. *)
Record toneof := { n_name : string; n_ident : string; n_synthetic : bool; n_desc : string; n_comments : string }.
(** protogen.Message, with isTracked (init.go:140) and whether genMessageFields
    writes the field that forbids comparison (main.go:232-234). *)
Record tmsg := { g_ident : string; g_mapentry : bool; g_tracked : bool; g_comparable : bool;
                 g_doc : doc; g_fields : list tfield; g_groups : list toneof }.

Definition no_oneof : toneof := {| n_name := ""; n_ident := ""; n_synthetic := true; n_desc := ""; n_comments := "" |}.
(** The oneof of a field that has one which is not synthetic, and whether the
    field is its first; main.go:238-245. [before]: the fields of the message
    before this one. *)
Definition member_of (m : tmsg) (x : tfield) : option nat :=
  match x_oneof x with
  | Some o => if n_synthetic (nth o (g_groups m) no_oneof) then None else Some o
  | None => None
  end.
Definition in_oneof (o : nat) (x : tfield) : bool :=
  match x_oneof x with Some o' => Nat.eqb o o' | None => false end.
Definition first_of (before : list tfield) (o : nat) : bool := negb (existsb (in_oneof o) before).
(** oneof.Fields *)
Definition members (m : tmsg) (o : nat) : list tfield := filter (in_oneof o) (g_fields m).
(** oneofInterfaceName, main.go:499-501 *)
Definition oneofInterfaceName (o : toneof) : string := "is" ++ n_ident o.
(** main.go:256-264: the comment of a oneof's field. *)
Definition oneof_comment (m : tmsg) (o : nat) : string :=
  let n := nth o (g_groups m) no_oneof in
  (match n_comments n with EmptyString => EmptyString | c => c ++ newline end ++
   (" Types that are assignable to " ++ n_name n ++ ":" ++ newline) ++
   String.concat "" (map (fun x => String (chr 9) ("*" ++ x_ident x ++ newline)) (members m o)))%string.
(** genMessageField, main.go:237-297; protoPackage.Ident, main.go:271-273, as it
    is printed without a clash of package names. *)
Definition field_text (m : tmsg) (before : list tfield) (x : tfield) : string :=
  match member_of m x with
  | Some o =>
    if first_of before o then
      let n := nth o (g_groups m) no_oneof in
      P [Comments (oneof_comment m o); n_name n; " "; oneofInterfaceName n; tagsString (oneofTags (n_desc n) (g_tracked m))]
    else EmptyString
  | None =>
    P [lead (x_doc x); x_name x; " "; if x_option x then "proto.Option[" ++ x_type x ++ "]" else x_type x;
       tagsString (x_tags x); trailingComment (trailing (x_doc x))]%string
  end.
(** The loop of genMessageFields, main.go:226-235, and likewise main.go:304. *)
Fixpoint over_fields (f : list tfield -> tfield -> string) (before xs : list tfield) : string :=
  match xs with
  | [] => EmptyString
  | x :: xs => (f before x ++ over_fields f (before ++ [x]) xs)%string
  end.
Definition fields_text (m : tmsg) : string :=
  (over_fields (field_text m) [] (g_fields m) ++ (if g_comparable m then P ["_ [0]func()"] else EmptyString))%string.
(** genNoInterfacePragma, main.go:505-510 *)
Definition pragma (tracked : bool) : string :=
  if tracked then (P ["//go:nointerface"] ++ P [])%string else EmptyString.
(** genMessageGetterMethods, main.go:303-352: for one field. *)
Definition getter_text (m : tmsg) (before : list tfield) (x : tfield) : string :=
  (pragma (g_tracked m) ++
   match member_of m x with
   | Some o =>
     let n := nth o (g_groups m) no_oneof in
     (if first_of before o then
        String.concat "" [P ["func (m *"; g_ident m; ") Get"; n_name n; "() "; oneofInterfaceName n; " {"];
          P ["if m != nil {"]; P ["return m."; n_name n]; P ["}"]; P ["return nil"]; P ["}"]; P []]
      else EmptyString) ++
     String.concat "" [P [Comments (appendDeprecationSuffix "" (deprecated (x_doc x)));
          "func (x *"; g_ident m; ") Get"; x_name x; "() "; x_type x; " {"];
          P ["if x, ok := x.Get"; n_name n; "().(*"; x_ident x; "); ok {"];
          P ["return x."; x_name x]; P ["}"]; P ["return "; x_default x]; P ["}"]]
   | None => EmptyString
   end ++ P [])%string.
(** genMessageOneofWrapperTypes, main.go:461-495: for one oneof. *)
Definition wrapper_text (m : tmsg) (o : nat) (n : toneof) : string :=
  if n_synthetic n then EmptyString
  else
    let ifName := oneofInterfaceName n in
    (String.concat "" [P ["type "; ifName; " interface {"]; P [ifName; "()"]; P ["}"]; P []] ++
     String.concat "" (map (fun x => String.concat "" [P ["type "; x_ident x; " struct {"];
       P [lead (x_doc x); x_name x; " "; x_type x; tagsString (x_tags x); trailingComment (trailing (x_doc x))];
       P ["}"]; P []]) (members m o)) ++
     String.concat "" (map (fun x => (P ["func (*"; x_ident x; ") "; ifName; "() {}"] ++ P [])%string) (members m o)))%string.
Fixpoint over_oneofs (f : nat -> toneof -> string) (o : nat) (ns : list toneof) : string :=
  match ns with
  | [] => EmptyString
  | n :: ns => (f o n ++ over_oneofs f (S o) ns)%string
  end.
(** genMessage, main.go:207-224 *)
Definition message_text (m : tmsg) : string :=
  if g_mapentry m then EmptyString
  else
    (P [lead (g_doc m); "type "; g_ident m; " struct {"] ++ fields_text m ++ P ["}"] ++ P [] ++
     over_fields (getter_text m) [] (g_fields m) ++ over_oneofs (wrapper_text m) 0 (g_groups m))%string.

(** A public import: its path, and token, name and qualified name of what it
    forwards (main.go:122-166; which these are: GenFile.v). *)
Record timport := { i_path : string; i_forwards : list (string * string * string) }.
Definition import_text (i : timport) : string :=
  (P ["// Symbols defined in public import of "; i_path i; "."] ++ P [] ++
   String.concat "" (map (fun f => let '(tok, name, q) := f in P [tok; " "; name; " = "; q]) (i_forwards i)) ++ P [])%string.
(** protogen.File, with allEnums and allMessages (init.go:73-107). *)
Record tfile := { f_path : string; f_deprecated : bool; f_package : string; f_public : list timport;
                  f_allEnums : list tenum; f_allMessages : list tmsg }.
(** genGeneratedHeader, main.go:77-86 *)
Definition header_text (f : tfile) : string :=
  (P ["// Code generated by protoc-gen-golite. DO NOT EDIT."] ++
   (if f_deprecated f then P ["// "; f_path f; " is a deprecated file."] else P ["// source: "; f_path f]) ++ P [])%string.
(** GenerateFile, main.go:53-75 *)
Definition file_text (f : tfile) : string :=
  (header_text f ++ P [""; "package "; f_package f] ++ P [] ++
   String.concat "" (map import_text (f_public f)) ++
   String.concat "" (map enum_text (f_allEnums f)) ++
   String.concat "" (map message_text (f_allMessages f)))%string.
