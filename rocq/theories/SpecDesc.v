(** Names in descriptors, and the structs that descriptors call for. *)
From Coq Require Import String Ascii.
From Verif Require Import Base GoType ProtoGen GenText GenDesc SpecStructTag SpecText SpecGo.
Local Open Scope string_scope.
Local Open Scope list_scope.

(** Identifiers, possibly with a package, that are not predeclared types. *)
Fixpoint all_ident (s : string) : bool := match s with EmptyString => true | String c s => ident_char c && all_ident s end.
Definition identifier (s : string) : bool := negb (String.eqb s "") && all_ident s.
Definition type_name (s : string) : bool :=
  identifier s && match scalar_name s with None => true | _ => false end && negb (is_byte s).
(** What the names of types stand for: messages for their structs, enums for
    int32, the interfaces of oneofs for neither. *)
Record good_scope (X : list nmessage) (scope : string -> entity) : Prop := {
  scope_message : forall i m, nth_error X i = Some m -> nm_entry m = false -> type_name (nm_ref m) = true /\ scope (nm_ref m) = EStruct i;
  scope_enum : forall m x, In m X -> In x (nm_fields m) -> d_kind (nf_desc x) = EnumKind -> type_name (nf_enum x) = true /\ scope (nf_enum x) = EInt32;
  scope_oneof : forall m n, In m X -> In n (nm_oneofs m) -> identifier (n_ident n) = true /\ scope (oneofInterfaceName n) = EElse }.
(** Names as protogen gives them. *)
Definition named_field (x : nfield) : bool := word (nf_name x) && is_upper (nf_name x) && word (nf_ident x) && word (nf_first x).
Definition named_oneof (n : toneof) : bool := good_oneof n && is_upper (n_name n).
Definition named_message (m : nmessage) : bool :=
  word (nm_ident m) && forallb named_field (nm_fields m) && forallb named_oneof (nm_oneofs m).
Definition named_file (f : nfile) : bool :=
  one_line (nx_path f) && word (nx_package f) && forallb good_import (nx_public f) &&
  forallb good_enum (nx_enums f) && forallb named_message (nx_messages f).

(** Members of a oneof, and their position. *)
Definition member (m : nmessage) (x : nfield) : option nat :=
  match d_oneof (nf_desc x) with
  | Some o => match nth_error (nm_oneofs m) o with Some n => if n_synthetic n then None else Some o | None => None end
  | None => None
  end.
(** The names of the fields of a struct: of fields outside oneofs, and of
    oneofs at their first member; a marker if the fields allow comparison. *)
Fixpoint field_names (m : nmessage) (seen : list nat) (xs : list nfield) : list string :=
  match xs with
  | [] => []
  | x :: xs =>
    match member m x with
    | None => nf_name x :: field_names m seen xs
    | Some o => if existsb (Nat.eqb o) seen then field_names m seen xs
                else n_name (nth o (nm_oneofs m) no_oneof) :: field_names m (o :: seen) xs
    end
  end.
Definition is_slice (F : descriptors) (fd : pfield_desc) : bool :=
  negb (d_weak fd) && (match d_card fd with CardRepeated => true | _ => false end || match d_kind fd with BytesKind => true | _ => false end || is_map F fd).
Definition struct_names (X : list nmessage) (m : nmessage) : list string :=
  field_names m [] (nm_fields m) ++
  (if existsb (fun x => match member m x with None => is_slice (descs X) (nf_desc x) | Some _ => false end) (nm_fields m) then [] else ["_"]).
(** The members of oneofs, which have a wrapper each: a struct with one field. *)
Definition wrapped_fields (m : nmessage) : list nfield :=
  concat (map (fun o => filter (fun x => match member m x with Some o' => Nat.eqb o o' | None => false end) (nm_fields m)) (seq 0 (length (nm_oneofs m)))).
Definition wrapped (F : descriptors) (x : nfield) : gofield :=
  {| gf_exported := true; gf_tag := Some (fieldProtobufTagValue (nf_desc x)); gf_key := ""; gf_val := ""; gf_type := fst (fst (fieldGoType F (nf_desc x))) |}.
(** What a message declares: nothing if it is the entry of a map, otherwise its
    struct and the wrappers. *)
Definition declares (X : list nmessage) (m : nmessage) (part : list (string * list (string * gofield))) : Prop :=
  if nm_entry m then part = []
  else exists fs, part = (nm_ident m, fs) :: map (fun x => (nf_ident x, [(nf_name x, wrapped (descs X) x)])) (wrapped_fields m) /\
       map fst fs = struct_names X m /\ map snd fs = genMessage (descs X) (nm_desc m).
