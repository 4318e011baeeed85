(** Model of proto/walker.go, the codec construction of proto/slice.go:13-29 and
    proto/map.go:20-28,100-115, and the caches of proto/proto.go:108-125.

    A goroutine building codecs is a program that issues operations on shared
    memory: one operation per sync.Map call, per allocation, per store to a
    freshly allocated codec or structInfo. A sequential execution runs the
    operations one after the other ([run]); a concurrent one interleaves those
    of several goroutines ([Conc.v]). The three stores to a codec's function
    fields (e.g. walker.go:88,97,107) are one operation [Fill]. *)
From Coq Require Import String.
From Verif Require Import Base Wire GoType Leaf Codec Tag.

(** *codec and *structInfo pointers: package-level variables, or heap objects
    numbered in order of allocation. *)
Inductive cref := CStatic (s : scid) | CCell (c : nat).
Notation iref := nat.

Definition cref_eq_dec (a b : cref) : {a = b} + {a <> b}.
Proof. decide equality. apply scid_eq_dec. apply Nat.eq_dec. Defined.

Notation hbody := (cbody cref iref).
Notation hinfo := (sinfo cref).
Notation hfield := (sfield cref).

(** Shared memory: the heap objects and the three package-level caches
    (slice.go:11, proto.go:108-109). *)
Record gstate := {
  g_cells : list hbody;
  g_infos : list hinfo;
  g_infoCache : list (skey * iref);
  g_codecCache : list (gotype * cref);
  g_sliceMap : list (cref * cref)
}.

Definition g_empty : gstate :=
  {| g_cells := []; g_infos := []; g_infoCache := []; g_codecCache := []; g_sliceMap := [] |}.

Fixpoint assoc {K V} (dec : forall a b : K, {a = b} + {a <> b}) (k : K) (l : list (K * V)) : option V :=
  match l with
  | [] => None
  | (k', v) :: r => if dec k k' then Some v else assoc dec k r
  end.

(** The operations and what they return. *)
Inductive op :=
| InfoLoad (k : skey)                        (* structInfoCache.Load *)
| InfoStore (k : skey) (i : iref)            (* structInfoCache.Store *)
| InfoLoadOrStore (k : skey) (i : iref)
| CodecLoad (t : gotype)                     (* codecCache.Load *)
| CodecLoadOrStore (t : gotype) (c : cref)
| SliceLoad (c : cref)                       (* sliceMap.Load *)
| SliceLoadOrStore (c s : cref)
| NewCell                                    (* new(codec) *)
| Fill (c : cref) (b : hbody)                (* c.size, c.encode, c.decode = ... *)
| NewInfo                                    (* new(structInfo) *)
| SetFields (i : iref) (fs : list hfield)    (* info.fields = fs *)
| SetIndex (i : iref) (fs : list hfield)     (* info.fieldIndex = map of fs *)
| ReadCell (c : cref)                        (* the function fields of a codec, when it is called *)
| ReadInfo (i : iref).                       (* info.fields or info.fieldIndex *)

Definition resp (o : op) : Type :=
  match o with
  | InfoLoad _ => option iref
  | InfoStore _ _ => unit
  | InfoLoadOrStore _ _ => iref
  | CodecLoad _ => option cref
  | CodecLoadOrStore _ _ => cref
  | SliceLoad _ => option cref
  | SliceLoadOrStore _ _ => cref
  | NewCell => cref
  | Fill _ _ => unit
  | NewInfo => iref
  | SetFields _ _ => unit
  | SetIndex _ _ => unit
  | ReadCell _ => hbody
  | ReadInfo _ => hinfo
  end.

(** Programs. [Panic] is an explicit panic or a reflect panic; [NoFuel] is the
    recursion bound of the model running out (excluded by a theorem). *)
Inductive prog (A : Type) : Type :=
| Ret (a : A)
| Panic
| NoFuel
| Do (o : op) (k : resp o -> prog A).
Arguments Ret {A} a.
Arguments Panic {A}.
Arguments NoFuel {A}.
Arguments Do {A} o k.

Fixpoint pbind {A B} (p : prog A) (k : A -> prog B) : prog B :=
  match p with
  | Ret a => k a
  | Panic => Panic
  | NoFuel => NoFuel
  | Do o c => Do o (fun r => pbind (c r) k)
  end.
Definition do_ (o : op) : prog (resp o) := Do o (fun r => Ret r).
Definition infoLoad k : prog (option iref) := do_ (InfoLoad k).
Definition infoStore k i : prog unit := do_ (InfoStore k i).
Definition infoLoadOrStore k i : prog iref := do_ (InfoLoadOrStore k i).
Definition codecLoad t : prog (option cref) := do_ (CodecLoad t).
Definition codecLoadOrStore t c : prog cref := do_ (CodecLoadOrStore t c).
Definition sliceLoad c : prog (option cref) := do_ (SliceLoad c).
Definition sliceLoadOrStore c s : prog cref := do_ (SliceLoadOrStore c s).
Definition newCell : prog cref := do_ NewCell.
Definition fill c b : prog unit := do_ (Fill c b).
Definition newInfo : prog iref := do_ NewInfo.
Definition setFields i fs : prog unit := do_ (SetFields i fs).
Definition setIndex i fs : prog unit := do_ (SetIndex i fs).
Definition readCell c : prog hbody := do_ (ReadCell c).
Definition readInfo i : prog hinfo := do_ (ReadInfo i).
Notation "'let*' p := e 'in' k" := (pbind e (fun p => k))
  (at level 200, p pattern, e at level 100, k at level 200).

(** walker.go:19-22; newest binding first. *)
Record walker := { w_codecs : list (gotype * cref); w_infos : list (skey * iref) }.
Definition w_get (w : walker) (t : gotype) : option cref := assoc gotype_eq_dec t (w_codecs w).
Definition w_set (w : walker) (t : gotype) (c : cref) : walker :=
  {| w_codecs := (t, c) :: w_codecs w; w_infos := w_infos w |}.
Definition w_iget (w : walker) (k : skey) : option iref := assoc skey_eq_dec k (w_infos w).
Definition w_iset (w : walker) (k : skey) (i : iref) : walker :=
  {| w_codecs := w_codecs w; w_infos := (k, i) :: w_infos w |}.

(** A type whose Kind is Ptr and whose Elem is a struct (walker.go:285-287). *)
Definition struct_ptr (t : gotype) : option skey :=
  match t with
  | TMsg sid => Some (SNamed sid)
  | TPtr (TOption k) => Some (SOpt k)
  | _ => None
  end.

(** walker.go:37-61 and 305-326: the codec of a scalar kind. *)
Definition kind_wk (k : skind) (zigzag : bool) : wk :=
  match k with
  | KBool => WBool
  | KInt32 => if zigzag then WZigzag32 else WInt32
  | KInt64 => if zigzag then WZigzag64 else WInt64
  | KUint32 => WUint32
  | KUint64 => WUint64
  | KFloat32 => WFloat32
  | KFloat64 => WFloat64
  | KString => WString
  end.

(** walker.go:123-132 *)
Fixpoint baseTypeOf (t : gotype) : gotype :=
  match t with TPtr t => baseTypeOf t | _ => t end.

(** walker.go:166-193: codecs chosen by a fixed-width wire type; the second
    switch overrides the first. *)
Definition fixed_choice (wt : N) (t : gotype) : option scid :=
  if (wt =? wt_fixed32)%N then
    let c := match t with
             | TOption KFloat32 => Some (SC WFloat32 Optional)
             | TOption KUint32 => Some (SC WFixed32 Optional)
             | _ => None
             end in
    match baseTypeOf t with
    | TScalar KUint32 => Some (SC WFixed32 Normal)
    | TScalar KFloat32 => Some (SC WFloat32 Normal)
    | _ => c
    end
  else if (wt =? wt_fixed64)%N then
    let c := match t with
             | TOption KUint64 => Some (SC WFixed64 Optional)
             | TOption KFloat64 => Some (SC WFloat64 Optional)
             | _ => None
             end in
    match baseTypeOf t with
    | TScalar KUint64 => Some (SC WFixed64 Normal)
    | TScalar KFloat64 => Some (SC WFloat64 Normal)
    | _ => c
    end
  else None.

(** walker.go:194-215 *)
Definition option_choice (zigzag : bool) (t : gotype) : option scid :=
  match t with
  | TOption KBool => Some (SC WBool Optional)
  | TOption KInt32 => Some (SC (if zigzag then WZigzag32 else WInt32) Optional)
  | TOption KInt64 => Some (SC (if zigzag then WZigzag64 else WInt64) Optional)
  | TOption KUint32 => Some (SC WUint32 Optional)
  | TOption KUint64 => Some (SC WUint64 Optional)
  | TOption KString => Some (SC WString Optional)
  | _ => None
  end.

Definition static_choice (t : structTag) (ty : gotype) : option scid :=
  match fixed_choice (t_wire t) ty with
  | Some c => Some c
  | None => option_choice (t_zz t) ty
  end.

(** walker.go:165,260: wiretag and tagsize of a field. *)
Definition meta_of (wt : N) : fmeta := {| wiretag := wt; tagsize := sizeOfVarint wt |}.
Definition mkfield {R} (idx : nat) (wt : N) (c : R) : sfield R :=
  {| f_idx := idx; f_meta := meta_of wt; f_codec := c |}.

Section Walker.
Variable D : decls.

(** slice.go:13-29; [t] is the field's type, [t.Elem()] its element type. *)
Definition elem_of (t : gotype) : gotype :=
  match t with
  | TSlice e => e
  | TPtr e => e
  | TMap _ v => v
  | _ => t
  end.
Definition sliceCodecOf (t : gotype) (c : cref) (w : walker) : prog (cref * walker) :=
  let* loaded := sliceLoad c in
  match loaded with
  | Some s => Ret (s, w)
  | None =>
    match w_get w t with
    | Some s => Ret (s, w)
    | None =>
      let* s := newCell in
      let w := w_set w t s in
      let* _ := fill s (BSlice (elem_of t) c) in
      let* actual := sliceLoadOrStore c s in
      Ret (actual, w)
    end
  end.

(** [fuel] bounds the depth of the mutual recursion. *)
Fixpoint w_codec (fuel : nat) (w : walker) (t : gotype) (zigzag required : bool) {struct fuel}
  : prog (cref * walker) :=
  match fuel with
  | O => NoFuel
  | S fuel =>
    match w_get w t with                                       (* walker.go:30-32, 300-302 *)
    | Some c => Ret (c, w)
    | None =>
      match t with
      | TScalar k =>                                           (* walker.go:37-61, 305-326 *)
        Ret (CStatic (SC (kind_wk k zigzag) (if required then Required else Normal)), w)
      | TBytes => Ret (CStatic SCBytes, w)                     (* walker.go:62-67, 327-332 *)
      | TSlice _ | TMap _ _ => Panic                           (* walker.go:74, 339 *)
      | TOption _ | TOther => Panic                            (* walker.go:69 with 86 (Elem of a
                                                                  struct panics), 334, 74, 339 *)
      | TMsg _ | TPtr _ =>                                     (* walker.go:284-297 *)
        match struct_ptr t with
        | Some k => w_structCodec fuel w t k
        | None =>
          let* p := newCell in
          let w := w_set w t p in
          let* (c, w) := w_codec fuel w (elem_of t) zigzag required in
          let* _ := fill p (BPtr (elem_of t) c) in
          Ret (p, w)
        end
      end
    end
  end
(** walker.go:77-121; [k] is the struct type [t.Elem()]. *)
with w_structCodec (fuel : nat) (w : walker) (t : gotype) (k : skey) {struct fuel}
  : prog (cref * walker) :=
  match fuel with
  | O => NoFuel
  | S fuel =>
    let* loaded := codecLoad t in
    match loaded with
    | Some c => Ret (c, w)
    | None =>
      match w_get w t with
      | Some c => Ret (c, w)
      | None =>
        let* c := newCell in
        let w := w_set w t c in
        let* (i, w) := w_structInfo fuel w k in
        let* _ := fill c (BStruct k i) in
        let* actual := codecLoadOrStore t c in
        Ret (actual, w)
      end
    end
  end
(** walker.go:134-276 *)
with w_structInfo (fuel : nat) (w : walker) (k : skey) {struct fuel} : prog (iref * walker) :=
  match fuel with
  | O => NoFuel
  | S fuel =>
    let* loaded := infoLoad k in
    match loaded with
    | Some i => Ret (i, w)
    | None =>
      match w_iget w k with
      | Some i => Ret (i, w)
      | None =>
        let* i := newInfo in
        let w := w_iset w k i in
        let* (fields, w) := w_fields fuel w 0 (struct_fields D k) in
        let* _ := setFields i fields in
        let* _ := setIndex i fields in
        let* _ := infoStore k i in
        Ret (i, w)
      end
    end
  end
(** walker.go:146-262: the loop over the struct's fields, from number [idx]. *)
with w_fields (fuel : nat) (w : walker) (idx : nat) (fs : list gofield) {struct fuel}
  : prog (list hfield * walker) :=
  match fuel with
  | O => NoFuel
  | S fuel =>
    match fs with
    | [] => Ret ([], w)
    | f :: fs =>
      let* (o, w) :=
        match gf_exported f, gf_tag f with
        | true, Some tag =>
          let '(t, e) := parseStructTag tag in
          match e with
          | Some _ => Panic                                    (* walker.go:162-164 *)
          | None =>
            let* (c, w) := w_field fuel w t f in
            Ret (Some (mkfield idx (tag_wiretag t) c), w)
          end
        | _, _ => Ret (None, w)                                (* walker.go:148-155 *)
        end in
      let* (r, w) := w_fields fuel w (S idx) fs in
      Ret (match o with Some x => x :: r | None => r end, w)
    end
  end
(** walker.go:166-259: the codec of one field. *)
with w_field (fuel : nat) (w : walker) (t : structTag) (f : gofield) {struct fuel}
  : prog (cref * walker) :=
  match fuel with
  | O => NoFuel
  | S fuel =>
    let ty := gf_type f in
    match static_choice t ty with
    | Some s => Ret (CStatic s, w)
    | None =>
      match baseTypeOf ty with
      | TSlice _ | TBytes =>                                   (* walker.go:225-233 *)
        match ty with
        | TBytes => Ret (CStatic SCBytes, w)
        | _ =>
          let* (c, w) := w_codec fuel w (elem_of ty) (t_zz t) true in
          sliceCodecOf ty c w
        end
      | TMap _ _ =>                                            (* walker.go:235-254 *)
        match ty with
        | TMap key val =>
          let '(kt, _) := parseStructTag (gf_key f) in
          let* (kc, w) := w_codec fuel w (TScalar key) (t_zz kt) true in
          let '(vt, _) := parseStructTag (gf_val f) in
          let* (vc, w) := w_codec fuel w val (t_zz vt) true in
          w_mapCodec fuel w key val (tag_wiretag t)
            (mkfield 0 (tag_wiretag kt) kc) (mkfield 1 (tag_wiretag vt) vc)
        | _ => Panic                                           (* Key of a pointer type *)
        end
      | _ => w_codec fuel w ty (t_zz t) false                  (* walker.go:222-223, 256-257 *)
      end
    end
  end
(** map.go:20-28 with 101-106 *)
with w_mapCodec (fuel : nat) (w : walker) (key : skind) (val : gotype) (tag : N)
  (kf vf : hfield) {struct fuel} : prog (cref * walker) :=
  match fuel with
  | O => NoFuel
  | S fuel =>
    let* m := newCell in
    let w := w_set w (TMap key val) m in
    let e := SEntry key val (wiretag (f_meta kf)) (wiretag (f_meta vf)) in
    let* (i, w) := w_structInfo fuel w e in
    let* _ := fill m (BMap tag kf vf e i) in
    Ret (m, w)
  end.

(** proto.go:111-125 *)
Definition cachedStructInfoOf (fuel : nat) (k : skey) : prog iref :=
  let* c := infoLoad k in
  match c with
  | Some i => Ret i
  | None =>
    let* (i, _) := w_structInfo fuel {| w_codecs := []; w_infos := [] |} k in
    infoLoadOrStore k i
  end.

End Walker.

(** ** Execution of one operation on shared memory *)
Definition upd {A} (l : list A) (i : nat) (x : A) : list A := list_set l i x.

Definition g_with_cells (s : gstate) (c : list hbody) : gstate :=
  {| g_cells := c; g_infos := g_infos s; g_infoCache := g_infoCache s;
     g_codecCache := g_codecCache s; g_sliceMap := g_sliceMap s |}.
Definition g_with_infos (s : gstate) (c : list hinfo) : gstate :=
  {| g_cells := g_cells s; g_infos := c; g_infoCache := g_infoCache s;
     g_codecCache := g_codecCache s; g_sliceMap := g_sliceMap s |}.
Definition g_with_infoCache (s : gstate) c : gstate :=
  {| g_cells := g_cells s; g_infos := g_infos s; g_infoCache := c;
     g_codecCache := g_codecCache s; g_sliceMap := g_sliceMap s |}.
Definition g_with_codecCache (s : gstate) c : gstate :=
  {| g_cells := g_cells s; g_infos := g_infos s; g_infoCache := g_infoCache s;
     g_codecCache := c; g_sliceMap := g_sliceMap s |}.
Definition g_with_sliceMap (s : gstate) c : gstate :=
  {| g_cells := g_cells s; g_infos := g_infos s; g_infoCache := g_infoCache s;
     g_codecCache := g_codecCache s; g_sliceMap := c |}.

Definition i_empty : hinfo := {| i_fields := []; i_index := [] |}.

(** Dereferencing codec and info pointers in a given memory. *)
Definition hlook (s : gstate) (c : cref) : hbody :=
  match c with
  | CStatic x => BStatic x
  | CCell n => match nth_error (g_cells s) n with Some b => b | None => BNil end
  end.
Definition higet (s : gstate) (i : iref) : hinfo :=
  match nth_error (g_infos s) i with Some x => x | None => i_empty end.

Definition exec (o : op) (s : gstate) : resp o * gstate :=
  match o return resp o * gstate with
  | InfoLoad k => (assoc skey_eq_dec k (g_infoCache s), s)
  | InfoStore k i => (tt, g_with_infoCache s ((k, i) :: g_infoCache s))
  | InfoLoadOrStore k i =>
    match assoc skey_eq_dec k (g_infoCache s) with
    | Some j => (j, s)
    | None => (i, g_with_infoCache s ((k, i) :: g_infoCache s))
    end
  | CodecLoad t => (assoc gotype_eq_dec t (g_codecCache s), s)
  | CodecLoadOrStore t c =>
    match assoc gotype_eq_dec t (g_codecCache s) with
    | Some d => (d, s)
    | None => (c, g_with_codecCache s ((t, c) :: g_codecCache s))
    end
  | SliceLoad c => (assoc cref_eq_dec c (g_sliceMap s), s)
  | SliceLoadOrStore c d =>
    match assoc cref_eq_dec c (g_sliceMap s) with
    | Some d' => (d', s)
    | None => (d, g_with_sliceMap s ((c, d) :: g_sliceMap s))
    end
  | NewCell => (CCell (length (g_cells s)), g_with_cells s (g_cells s ++ [BNil]))
  | Fill c b =>
    (tt, match c with CCell c => g_with_cells s (upd (g_cells s) c b) | CStatic _ => s end)
  | NewInfo => (length (g_infos s), g_with_infos s (g_infos s ++ [i_empty]))
  | SetFields i fs =>
    (tt, match nth_error (g_infos s) i with
         | Some x => g_with_infos s (upd (g_infos s) i {| i_fields := fs; i_index := i_index x |})
         | None => s
         end)
  | SetIndex i fs =>
    (tt, match nth_error (g_infos s) i with
         | Some x => g_with_infos s (upd (g_infos s) i {| i_fields := i_fields x; i_index := fs |})
         | None => s
         end)
  | ReadCell c => (hlook s c, s)
  | ReadInfo i => (higet s i, s)
  end.

(** Sequential execution; effects before a panic stay. *)
Inductive outcome (A : Type) := Done (a : A) | Panicked | OutOfFuel.
Arguments Done {A} a.
Arguments Panicked {A}.
Arguments OutOfFuel {A}.
Fixpoint run {A} (p : prog A) (s : gstate) : outcome A * gstate :=
  match p with
  | Ret a => (Done a, s)
  | Panic => (Panicked, s)
  | NoFuel => (OutOfFuel, s)
  | Do o k => let '(r, s') := exec o s in run (k r) s'
  end.

(** ** Recursion bounds. [type_depth] counts the nesting of a type; the walker
    visits each struct type once, so a bound is the number of struct types times
    the longest chain of calls inside one. *)
Fixpoint type_depth (t : gotype) : nat :=
  match t with
  | TSlice t | TPtr t => S (type_depth t)
  | TMap _ v => S (type_depth v)
  | _ => 1
  end.
Definition fields_depth (fs : list gofield) : nat :=
  fold_right (fun f n => Nat.max (type_depth (gf_type f)) n) 0 fs.
Definition decls_depth (D : decls) : nat :=
  fold_right (fun fs n => Nat.max (fields_depth fs) n) 0 D.
Definition decls_width (D : decls) : nat :=
  fold_right (fun fs n => Nat.max (length fs) n) 0 D.
Definition walk_fuel (D : decls) : nat :=
  (length D + 1) * (decls_width D + 7 * decls_depth D + 30).
