(** Names of the descriptors of a file as Go demands them, and what the
    declarations of a generated file should be and do. *)
From Coq Require Import String Ascii.
From Verif Require Import Base GoType ProtoGen GenText GenDesc SpecStructTag SpecText SpecGo SpecDesc SpecDecl.
Local Open Scope string_scope.
Local Open Scope list_scope.

(** ** Names without a package *)
Fixpoint all_name (s : string) : bool := match s with EmptyString => true | String c s => name_char c && all_name s end.
Definition name (s : string) : bool := negb (String.eqb s "") && all_name s.
Definition simple_field (x : nfield) : bool := name (nf_name x) && name (nf_ident x) && name (nf_first x).
Definition simple_oneof (n : toneof) : bool := name (n_name n) && name (n_ident n).
Definition simple_message (m : nmessage) : bool :=
  name (nm_ident m) && forallb simple_field (nm_fields m) && forallb simple_oneof (nm_oneofs m).
Definition simple_enum (e : tenum) : bool := name (e_ident e) && forallb (fun v => name (v_ident v)) (e_vals e).
Definition simple_import (i : timport) : bool :=
  forallb (fun f => let '(tok, a, q) := f in name tok && name a && identifier q) (i_forwards i).
Definition simple_file (f : nfile) : bool :=
  name (nx_package f) && forallb simple_import (nx_public f) && forallb simple_enum (nx_enums f) && forallb simple_message (nx_messages f).
(** Different things have different names; the compiler rejects a file in which
    they do not. *)
Definition real (n : toneof) : bool := negb (n_synthetic n).
Record distinct (f : nfile) : Prop := {
  distinct_messages : forall m m', In m (nx_messages f) -> In m' (nx_messages f) -> nm_entry m = false -> nm_entry m' = false ->
    nm_ident m = nm_ident m' -> m = m';
  distinct_fields : forall m x x', In m (nx_messages f) -> In x (nm_fields m) -> In x' (nm_fields m) -> nf_name x = nf_name x' -> x = x';
  distinct_oneofs : forall m m' o o' n n', In m (nx_messages f) -> In m' (nx_messages f) ->
    nth_error (nm_oneofs m) o = Some n -> nth_error (nm_oneofs m') o' = Some n' -> n_synthetic n = false -> n_synthetic n' = false ->
    n_ident n = n_ident n' -> m = m' /\ o = o';
  distinct_groups : forall m o o' n n', In m (nx_messages f) -> nth_error (nm_oneofs m) o = Some n -> nth_error (nm_oneofs m) o' = Some n' ->
    n_synthetic n = false -> n_synthetic n' = false -> n_name n = n_name n' -> o = o';
  distinct_getters : forall m x n, In m (nx_messages f) -> In x (nm_fields m) -> In n (nm_oneofs m) -> n_synthetic n = false -> nf_name x <> n_name n }.

(** ** What methods return *)
(** protobuf's default of a field without one of its own. *)
Definition default_of (x : nfield) : val :=
  match d_kind (nf_desc x) with
  | BoolKind => VBool false
  | EnumKind => VI32 (nf_first_number x)
  | Int32Kind | Sint32Kind | Sfixed32Kind => VI32 0
  | Int64Kind | Sint64Kind | Sfixed64Kind => VI64 0
  | Uint32Kind | Fixed32Kind => VU32 0
  | Uint64Kind | Fixed64Kind => VU64 0
  | FloatKind => VF32 0
  | DoubleKind => VF64 0
  | StringKind => VStr []
  | BytesKind => VBytes None
  | MessageKind | GroupKind => VPtr None
  end.
(** Numbers of enums are of 32 bits, and their first values are declared. *)
Definition good_first (consts : string -> option Z) (x : nfield) : Prop :=
  d_kind (nf_desc x) = EnumKind ->
  (-2147483648 <= nf_first_number x <= 2147483647)%Z /\
  (nf_first_here x = true -> consts (nf_first x) = Some (nf_first_number x) /\ nf_first x <> "nil" /\ nf_first x <> "false" /\ nf_first x <> "0").
(** The value of the oneof's field: nothing, or a wrapper. *)
Definition held (p : pointer) (n : toneof) : mval :=
  match p with Some s => s (n_name n) | None => NoValue end.
Definition wraps (v : mval) : Prop := match v with Plain _ => False | _ => True end.
Definition member_value (v : mval) (x : nfield) : outcome :=
  match v with
  | Points w p =>
    if String.eqb w (nf_ident x) then match p with Some s => Returns (s (nf_name x)) | None => Panics end
    else Returns (Plain (default_of x))
  | _ => Returns (Plain (default_of x))
  end.

(** ** What a file declares *)
Inductive thing :=
| APackage (n : string) | AName (keyword n target : string) | AConst (n type : string) (z : Z)
| AStruct (n : string) | AnInterface (n : string) (fs : list string) | AMethod (on n result : string) | AnEmptyMethod (on n : string).
Definition things_of (d : decl) : list thing :=
  match d with
  | Package n => [APackage n]
  | Forward k n t => [AName k n t]
  | Consts cs => map (fun '(v, t, z) => AConst v t z) cs
  | Struct n => [AStruct n]
  | Interface n fs => [AnInterface n fs]
  | Method m => [AMethod (on m) (mname m) (result m)]
  | Marker t f => [AnEmptyMethod t f]
  end.
(** For an enum: a name for int32, and its values. *)
Definition enum_things (e : tenum) : list thing :=
  AName "type" (e_ident e) "int32" :: map (fun v => AConst (v_ident v) (e_ident e) (v_number v)) (e_vals e).
(** For a message: its struct; getters for the members of oneofs, and at the
    first member one for the oneof; for each oneof an interface with one method,
    a struct for each member and the method for each of them. *)
Fixpoint getter_things (X : list nmessage) (m : nmessage) (seen : list nat) (xs : list nfield) : list thing :=
  match xs with
  | [] => []
  | x :: xs =>
    match member m x with
    | None => getter_things X m seen xs
    | Some o =>
      let n := nth o (nm_oneofs m) no_oneof in
      (if existsb (Nat.eqb o) seen then [] else [AMethod (nm_ident m) ("Get" ++ n_name n) ("is" ++ n_ident n)]) ++
      AMethod (nm_ident m) ("Get" ++ nf_name x) (typeText X x) :: getter_things X m (o :: seen) xs
    end
  end.
Definition members_of (m : nmessage) (o : nat) : list nfield :=
  filter (fun x => match member m x with Some o' => Nat.eqb o o' | None => false end) (nm_fields m).
Definition oneof_things (m : nmessage) (o : nat) : list thing :=
  match nth_error (nm_oneofs m) o with
  | Some n =>
    if n_synthetic n then []
    else AnInterface ("is" ++ n_ident n) ["is" ++ n_ident n]%string ::
         map (fun x => AStruct (nf_ident x)) (members_of m o) ++ map (fun x => AnEmptyMethod (nf_ident x) ("is" ++ n_ident n)) (members_of m o)
  | None => []
  end.
Definition message_things (X : list nmessage) (m : nmessage) : list thing :=
  if nm_entry m then []
  else AStruct (nm_ident m) :: getter_things X m [] (nm_fields m) ++ flat_map (oneof_things m) (seq 0 (length (nm_oneofs m))).
Definition file_things (X : list nmessage) (f : nfile) : list thing :=
  APackage (nx_package f) :: flat_map (fun i => map (fun '(tok, a, q) => AName tok a q) (i_forwards i)) (nx_public f) ++
  flat_map enum_things (nx_enums f) ++ flat_map (message_things X) (nx_messages f).
