(** Model of the texts of the panics of proto/walker.go (lines 74, 163, 334, 339,
    and the panics of package reflect at 86 and 237): the walker of Walker.v
    once more, clause by clause, with the text in place of [Panic].

    A text names a Go type. The name of a struct type, and what a [TOther] is,
    are given. Simplifications: scalars are called by their kinds (named types
    with such a kind are not told apart by Walker.v either); a map whose key
    type is no scalar, which is a [TOther], has another text than the one given
    here (that of its key type, walker.go:244). *)
From Coq Require Import String.
From Verif Require Import Base Wire GoType Leaf Codec Tag Walker ArgText.
Local Open Scope string_scope.

(** reflect.Type of a [TOther]: String() and whether Kind() is Struct. *)
Record other := { o_text : string; o_struct : bool }.

(** reflect.Kind.String (library) for scalar kinds *)
Definition kind_text (k : skind) : string :=
  match k with
  | KBool => "bool" | KInt32 => "int32" | KInt64 => "int64" | KUint32 => "uint32"
  | KUint64 => "uint64" | KFloat32 => "float32" | KFloat64 => "float64" | KString => "string"
  end.

(** A program that returns, or panics with a text. *)
Definition xbind {A B} (p : prog (A + string)) (k : A -> prog (B + string)) : prog (B + string) :=
  pbind p (fun r => match r with inl a => k a | inr e => Ret (inr e) end).
Notation "'letx' p := e 'in' k" := (xbind e (fun p => k))
  (at level 200, p pattern, e at level 100, k at level 200).
Definition ret {A} (a : A) : prog (A + string) := Ret (inl a).
Definition throw {A} (s : string) : prog (A + string) := Ret (inr s).
Definition op_ {A} (p : prog A) : prog (A + string) := pbind p ret.

Section Text.
Variable D : decls.
Variable name : nat -> string.           (* String() of the declared structs *)
Variable others : nat -> nat -> other.   (* of the [TOther] in field [j] of struct [sid] *)

(** reflect.Type.String (library); [o]: of the [TOther] in it *)
Fixpoint type_text (o : other) (t : gotype) : string :=
  match t with
  | TScalar k => kind_text k
  | TBytes => "[]uint8"
  | TOption k => "proto.Option[" ++ kind_text k ++ "]"
  | TSlice e => "[]" ++ type_text o e
  | TMap k v => "map[" ++ kind_text k ++ "]" ++ type_text o v
  | TPtr e => "*" ++ type_text o e
  | TMsg sid => "*" ++ name sid
  | TOther => o_text o
  end.
(** The [TOther] in field [j] of struct [k]; the value type of an entry is part
    of the type of the field of the map. *)
Definition other_in (k : skey) (o : other) (j : nat) : other :=
  match k with SNamed sid => others sid j | _ => o end.

(** walker.go:74, 339; 334; 86 *)
Definition unsupported (o : other) (t : gotype) : string := "unsupported type: " ++ type_text o t.
Definition nested (o : other) (t : gotype) : string := "nested message must be pointer:" ++ type_text o t.
Definition no_elem (o : other) (t : gotype) : string := "reflect: Elem of invalid type " ++ type_text o t.
(** walker.go:237 *)
Definition no_key (o : other) (t : gotype) : string := "reflect: Key of non-map type " ++ type_text o t.
(** A struct by value, walker.go:69 with 86, 334 *)
Definition by_value (o : other) (t : gotype) (required : bool) : string :=
  if required then nested o t else no_elem o t.

(** walker.go:29-75, 284-297, 299-340 *)
Fixpoint x_codec (fuel : nat) (o : other) (w : walker) (t : gotype) (zigzag required : bool) {struct fuel}
  : prog ((cref * walker) + string) :=
  match fuel with
  | O => NoFuel
  | S fuel =>
    match w_get w t with
    | Some c => ret (c, w)
    | None =>
      match t with
      | TScalar k => ret (CStatic (SC (kind_wk k zigzag) (if required then Required else Normal)), w)
      | TBytes => ret (CStatic SCBytes, w)
      | TSlice _ | TMap _ _ => throw (unsupported o t)
      | TOption _ => throw (by_value o t required)
      | TOther => throw (if o_struct o then by_value o t required else unsupported o t)
      | TMsg _ | TPtr _ =>
        match struct_ptr t with
        | Some k => x_structCodec fuel o w t k
        | None =>
          letx p := op_ newCell in
          let w := w_set w t p in
          letx (c, w) := x_codec fuel o w (Walker.elem_of t) zigzag required in
          letx _ := op_ (fill p (BPtr (Walker.elem_of t) c)) in
          ret (p, w)
        end
      end
    end
  end
(** walker.go:77-121 *)
with x_structCodec (fuel : nat) (o : other) (w : walker) (t : gotype) (k : skey) {struct fuel}
  : prog ((cref * walker) + string) :=
  match fuel with
  | O => NoFuel
  | S fuel =>
    letx loaded := op_ (codecLoad t) in
    match loaded with
    | Some c => ret (c, w)
    | None =>
      match w_get w t with
      | Some c => ret (c, w)
      | None =>
        letx c := op_ newCell in
        let w := w_set w t c in
        letx (i, w) := x_structInfo fuel o w k in
        letx _ := op_ (fill c (BStruct k i)) in
        letx actual := op_ (codecLoadOrStore t c) in
        ret (actual, w)
      end
    end
  end
(** walker.go:134-276 *)
with x_structInfo (fuel : nat) (o : other) (w : walker) (k : skey) {struct fuel} : prog ((iref * walker) + string) :=
  match fuel with
  | O => NoFuel
  | S fuel =>
    letx loaded := op_ (infoLoad k) in
    match loaded with
    | Some i => ret (i, w)
    | None =>
      match w_iget w k with
      | Some i => ret (i, w)
      | None =>
        letx i := op_ newInfo in
        let w := w_iset w k i in
        letx (fields, w) := x_fields fuel (other_in k o) w 0 (struct_fields D k) in
        letx _ := op_ (setFields i fields) in
        letx _ := op_ (setIndex i fields) in
        letx _ := op_ (infoStore k i) in
        ret (i, w)
      end
    end
  end
(** walker.go:146-262 *)
with x_fields (fuel : nat) (os : nat -> other) (w : walker) (idx : nat) (fs : list gofield) {struct fuel}
  : prog ((list hfield * walker) + string) :=
  match fuel with
  | O => NoFuel
  | S fuel =>
    match fs with
    | [] => ret ([], w)
    | f :: fs =>
      letx (x, w) :=
        match gf_exported f, gf_tag f with
        | true, Some tag =>
          let '(t, e) := parseStructTag tag in
          match e with
          | Some _ => throw (match tag_text tag with Some s => s | None => "" end)    (* walker.go:162-164 *)
          | None =>
            letx (c, w) := x_field fuel (os idx) w t f in
            ret (Some (mkfield idx (tag_wiretag t) c), w)
          end
        | _, _ => ret (None, w)
        end in
      letx (r, w) := x_fields fuel os w (S idx) fs in
      ret (match x with Some x => x :: r | None => r end, w)
    end
  end
(** walker.go:166-259 *)
with x_field (fuel : nat) (o : other) (w : walker) (t : structTag) (f : gofield) {struct fuel}
  : prog ((cref * walker) + string) :=
  match fuel with
  | O => NoFuel
  | S fuel =>
    let ty := gf_type f in
    match static_choice t ty with
    | Some s => ret (CStatic s, w)
    | None =>
      match baseTypeOf ty with
      | TSlice _ | TBytes =>
        match ty with
        | TBytes => ret (CStatic SCBytes, w)
        | _ =>
          letx (c, w) := x_codec fuel o w (Walker.elem_of ty) (t_zz t) true in
          op_ (sliceCodecOf ty c w)
        end
      | TMap _ _ =>
        match ty with
        | TMap key val =>
          let '(kt, _) := parseStructTag (gf_key f) in
          letx (kc, w) := x_codec fuel o w (TScalar key) (t_zz kt) true in
          let '(vt, _) := parseStructTag (gf_val f) in
          letx (vc, w) := x_codec fuel o w val (t_zz vt) true in
          x_mapCodec fuel o w key val (tag_wiretag t)
            (mkfield 0 (tag_wiretag kt) kc) (mkfield 1 (tag_wiretag vt) vc)
        | _ => throw (no_key o ty)
        end
      | _ => x_codec fuel o w ty (t_zz t) false
      end
    end
  end
(** map.go:20-28 with 101-106 *)
with x_mapCodec (fuel : nat) (o : other) (w : walker) (key : skind) (val : gotype) (tag : N)
  (kf vf : hfield) {struct fuel} : prog ((cref * walker) + string) :=
  match fuel with
  | O => NoFuel
  | S fuel =>
    letx m := op_ newCell in
    let w := w_set w (TMap key val) m in
    let e := SEntry key val (wiretag (f_meta kf)) (wiretag (f_meta vf)) in
    letx (i, w) := x_structInfo fuel o w e in
    letx _ := op_ (fill m (BMap tag kf vf e i)) in
    ret (m, w)
  end.

(** proto.go:111-125 *)
Definition x_cached (fuel : nat) (k : skey) : prog (iref + string) :=
  letx c := op_ (infoLoad k) in
  match c with
  | Some i => ret i
  | None =>
    letx (i, _) := x_structInfo fuel {| o_text := ""; o_struct := false |} {| w_codecs := []; w_infos := [] |} k in
    op_ (infoLoadOrStore k i)
  end.

(** What a call with an argument of type pointer to [k] panics with while it
    builds codecs. *)
Definition panic_text (k : skey) (s : gstate) : option string :=
  match fst (run (x_cached (walk_fuel D) k) s) with Done (inr e) => Some e | _ => None end.
End Text.
