(** Model of the protoc plugin from descriptors with names to the text of
    GenText.v (internal/generator/main.go). Field.GoName, GoIdent and the like
    are computed by protogen; they are given here. *)
From Coq Require Import String Ascii.
From Verif Require Import Base ProtoGen StructTag ErrText GenText.
Local Open Scope string_scope.

(** protogen.Field: its descriptor, GoName, GoIdent.GoName, and for enums the
    name of the type and of the first value as QualifiedGoIdent prints them in
    this file, with the value's number and whether it is of the same package
    (main.go:368-369, 446-454). *)
Record nfield := { nf_desc : pfield_desc; nf_name : string; nf_ident : string; nf_enum : string;
                   nf_first : string; nf_first_number : Z; nf_first_here : bool; nf_doc : doc }.
(** protogen.Message: GoIdent.GoName, and the name QualifiedGoIdent prints for it
    in this file (main.go:387); [nm_tracked]: isTracked. *)
Record nmessage := { nm_ident : string; nm_ref : string; nm_entry : bool; nm_tracked : bool; nm_doc : doc;
                     nm_fields : list nfield; nm_oneofs : list toneof }.
Definition nm_desc (m : nmessage) : pmessage :=
  {| m_entry := nm_entry m; m_fields := map nf_desc (nm_fields m); m_oneofs := map n_synthetic (nm_oneofs m) |}.
(** The messages of all files. *)
Definition descs (X : list nmessage) : descriptors := map nm_desc X.
Definition no_nmessage : nmessage :=
  {| nm_ident := ""; nm_ref := ""; nm_entry := false; nm_tracked := false; nm_doc := {| leading := ""; trailing := ""; deprecated := false |};
     nm_fields := []; nm_oneofs := [] |}.
(** field.Message *)
Definition nmessage_of (X : list nmessage) (x : nfield) : nmessage := nth (d_message (nf_desc x)) X no_nmessage.

(** fieldGoType, main.go:362-389: the type of the kind. *)
Definition kindText (X : list nmessage) (x : nfield) : string :=
  match d_kind (nf_desc x) with
  | BoolKind => "bool"
  | EnumKind => nf_enum x
  | Int32Kind | Sint32Kind | Sfixed32Kind => "int32"
  | Uint32Kind | Fixed32Kind => "uint32"
  | Int64Kind | Sint64Kind | Sfixed64Kind => "int64"
  | Uint64Kind | Fixed64Kind => "uint64"
  | FloatKind => "float32"
  | DoubleKind => "float64"
  | StringKind => "string"
  | BytesKind => "[]byte"
  | MessageKind | GroupKind => "*" ++ nm_ref (nmessage_of X x)
  end.
(** main.go:357-400 for a field that is no map. *)
Definition plainText (X : list nmessage) (x : nfield) : string :=
  if d_weak (nf_desc x) then "struct{}"
  else if is_list (descs X) (nf_desc x) then "[]" ++ kindText X x else kindText X x.
(** main.go:357-400; an entry without two fields, which protoc does not
    produce, would make the plugin panic and stands for the empty text. *)
Definition typeText (X : list nmessage) (x : nfield) : string :=
  if d_weak (nf_desc x) then "struct{}"
  else if is_map (descs X) (nf_desc x) then
    match nm_fields (nmessage_of X x) with
    | kf :: vf :: _ => "map[" ++ plainText X kf ++ "]" ++ plainText X vf
    | _ => ""
    end
  else plainText X x.
(** fieldDefaultValue, main.go:433-459; an enum without values, which protoc
    does not accept, would make the plugin panic. *)
Definition defaultText (X : list nmessage) (x : nfield) : string :=
  if is_list (descs X) (nf_desc x) then "nil"
  else match d_kind (nf_desc x) with
       | BoolKind => "false"
       | StringKind => String (chr 34) (String (chr 34) "")
       | MessageKind | GroupKind | BytesKind => "nil"
       | EnumKind => if nf_first_here x then nf_first x else nf_enum x ++ "(" ++ fmt_d (nf_first_number x) ++ ")"
       | _ => "0"
       end.

(** The parts of a field that GenText.v needs; main.go:269-287, 476-481. *)
Definition to_field (X : list nmessage) (m : nmessage) (x : nfield) : tfield :=
  {| x_name := nf_name x; x_ident := nf_ident x; x_type := typeText X x;
     x_option := snd (fst (fieldGoType (descs X) (nf_desc x)));
     x_tags := match real_oneof (nm_desc m) (nf_desc x) with
               | Some _ => wrapperTags (nf_desc x) (nm_tracked m)
               | None => fieldTags (descs X) (nf_desc x) (nm_tracked m)
               end;
     x_default := defaultText X x; x_oneof := d_oneof (nf_desc x); x_doc := nf_doc x |}.
(** f.comparable after the fields, main.go:228-232, 269-270. *)
Definition comparable_after (X : list nmessage) (m : nmessage) : bool :=
  forallb (fun x => match real_oneof (nm_desc m) (nf_desc x) with
                    | Some _ => true
                    | None => snd (fieldGoType (descs X) (nf_desc x))
                    end) (nm_fields m).
Definition to_message (X : list nmessage) (m : nmessage) : tmsg :=
  {| g_ident := nm_ident m; g_mapentry := nm_entry m; g_tracked := nm_tracked m; g_comparable := comparable_after X m;
     g_doc := nm_doc m; g_fields := map (to_field X m) (nm_fields m); g_groups := nm_oneofs m |}.
(** protogen.File; [nx_messages]: allMessages (init.go:73-107), which are among
    the messages of all files. *)
Record nfile := { nx_path : string; nx_deprecated : bool; nx_package : string; nx_public : list timport;
                  nx_enums : list tenum; nx_messages : list nmessage }.
Definition to_file (X : list nmessage) (f : nfile) : tfile :=
  {| f_path := nx_path f; f_deprecated := nx_deprecated f; f_package := nx_package f; f_public := nx_public f;
     f_allEnums := nx_enums f; f_allMessages := map (to_message X) (nx_messages f) |}.
(** GenerateFile, main.go:53-75 *)
Definition GenerateText (X : list nmessage) (f : nfile) : string := file_text (to_file X f).
