(** Model of the composite codecs: proto/slice.go, proto/map.go, the closures
    of proto/walker.go, and structInfo.size/encode/decode of proto/struct.go.

    A *codec pointer is a reference [R], a *structInfo pointer a reference [I];
    [look] and [iget] dereference them. The definitions are generic in [R] and
    [I] so that they run both on the heap the walker builds (Walker.v) and on
    the pure resolution of a type (Resolve.v). *)
From Verif Require Import Base Wire GoType Leaf.
Local Open Scope Z_scope.

(** struct.go:16-21; [f_idx] stands for [offset]. *)
Record sfield (R : Type) := { f_idx : nat; f_meta : fmeta; f_codec : R }.
Arguments f_idx {R} _.
Arguments f_meta {R} _.
Arguments f_codec {R} _.

(** struct.go:11-14; [i_index] is the fieldIndex map given by its insertions in
    order: looking up takes the last insertion. The nil map is []. *)
Record sinfo (R : Type) := { i_fields : list (sfield R); i_index : list (sfield R) }.
Arguments i_fields {R} _.
Arguments i_index {R} _.

(** What a codec's three closures do: the package-level codecs, and the closures
    of walker.go:284-297 (pointer), slice.go:13-29, walker.go:77-121 (struct) and
    map.go:20-28. [BNil] is a codec whose function fields are still nil. *)
Inductive cbody (R I : Type) :=
| BNil
| BStatic (s : scid)
| BPtr (elem : gotype) (c : R)
| BSlice (elem : gotype) (c : R)
| BStruct (k : skey) (i : I)
| BMap (tag : N) (kf vf : sfield R) (entry : skey) (i : I).
Arguments BNil {R I}.
Arguments BStatic {R I} s.
Arguments BPtr {R I} elem c.
Arguments BSlice {R I} elem c.
Arguments BStruct {R I} k i.
Arguments BMap {R I} tag kf vf entry i.

(** struct.go:23-29 *)
Definition fieldNumber {R} (f : sfield R) : N := tag_number (wiretag (f_meta f)).
Definition wireType {R} (f : sfield R) : N := tag_type (wiretag (f_meta f)).

(** struct.go:65 [info.fieldIndex[fieldNumber]]; walker.go:269-272 builds it. *)
Definition lookup_field {R} (info : sinfo R) (n : N) : option (sfield R) :=
  find (fun f => (fieldNumber f =? n)%N) (rev (i_index info)).

(** struct.go:31-33: the field at an offset of the struct at [p]. *)
Definition get_field (p : val) (i : nat) : option val :=
  match p with VStruct fs => nth_error fs i | _ => None end.
Fixpoint list_set {A} (l : list A) (i : nat) (x : A) : list A :=
  match l, i with
  | [], _ => []
  | _ :: r, O => x :: r
  | y :: r, S i => y :: list_set r i x
  end.
Definition set_field (p : val) (i : nat) (x : val) : val :=
  match p with VStruct fs => VStruct (list_set fs i x) | _ => p end.

(** error.go:23-29; [int(f)], [int(t)]. *)
Definition fieldError (f t : N) (e : err) : err := UnmarshalFieldError (s64 f) (s64 t) e.

(** proto.go:80-83 *)
Definition wt_varint : N := 0%N.
Definition wt_fixed64 : N := 1%N.
Definition wt_varlen : N := 2%N.
Definition wt_fixed32 : N := 5%N.

(** struct.go:66-96: skipping a field that is not declared. Result: the new
    offset and the error. *)
Definition skip_unknown (b : bytes) (offset : Z) (wt : N) : res (Z * option err) :=
  match from_ b offset with
  | None => CR Bounds
  | Some tl =>
    let '(skip, e) :=
      if (wt =? wt_varint)%N then
        let '(_, skip, e) := decodeVarint tl in (skip, e)
      else if (wt =? wt_varlen)%N then
        let '(size, skip, e) := decodeVarint tl in
        match e with
        | Some e => (skip, Some e)
        | None =>
          if (u64 (zlen b - skip) <? size)%N then (skip, Some ErrUnexpectedEOF)
          else (skip + s64 size, None)
        end
      else if (wt =? wt_fixed32)%N then (4, None)
      else if (wt =? wt_fixed64)%N then (8, None)
      else (0, Some ErrWireTypeUnknown)
    in
    if offset + skip <=? zlen b then OK (offset + skip, e)
    else OK (zlen b, Some ErrUnexpectedEOF)
  end.

(** struct.go:103-139: delimiting the bytes of a declared field. *)
Inductive fdata := FData (d : bytes) | FErr (offset : Z) (e : err) | FCrash.
Definition field_data (b : bytes) (offset : Z) (wt : N) : fdata :=
  match from_ b offset with
  | None => FCrash
  | Some tl =>
    if (wt =? wt_varint)%N then
      let '(_, n, e) := decodeVarint tl in
      match e with
      | Some e => FErr offset e
      | None => match sub_ b offset (offset + n) with Some d => FData d | None => FCrash end
      end
    else if (wt =? wt_varlen)%N then
      let '(l, n, e) := decodeVarint tl in
      match e with
      | Some e => FErr (offset + n) e
      | None =>
        if (u64 (zlen b - (offset + n)) <? l)%N then FErr (zlen b) ErrUnexpectedEOF
        else match sub_ b offset (offset + n + s64 l) with Some d => FData d | None => FCrash end
      end
    else if (wt =? wt_fixed32)%N then
      if zlen b <? offset + 4 then FErr (zlen b) ErrUnexpectedEOF
      else match sub_ b offset (offset + 4) with Some d => FData d | None => FCrash end
    else if (wt =? wt_fixed64)%N then
      if zlen b <? offset + 8 then FErr (zlen b) ErrUnexpectedEOF
      else match sub_ b offset (offset + 8) with Some d => FData d | None => FCrash end
    else FErr offset ErrWireTypeUnknown
  end.

(** slice.go:90-99: new memory between len and cap after growing; called when
    len = cap. *)
Definition grow_spare (elem : gotype) (cap : nat) : list val :=
  let cap' := match (2 * cap)%nat with O => 10%nat | c => c end in
  repeat (zero elem) (cap' - cap).

(** Equality of map keys as Go's == on scalars. *)
Definition f32_nan (n : N) : bool := (2139095040 <? N.land n 2147483647)%N.
Definition f64_nan (n : N) : bool := (9218868437227405312 <? N.land n 9223372036854775807)%N.
Definition bytes_eqb (a b : bytes) : bool := if list_eq_dec N.eq_dec a b then true else false.
Definition key_eqb (a b : val) : bool :=
  match a, b with
  | VBool x, VBool y => Bool.eqb x y
  | VI32 x, VI32 y => x =? y
  | VI64 x, VI64 y => x =? y
  | VU32 x, VU32 y => (x =? y)%N
  | VU64 x, VU64 y => (x =? y)%N
  | VF32 x, VF32 y => negb (f32_nan x) && negb (f32_nan y) &&
      ((x =? y)%N || ((N.land x 2147483647 =? 0)%N && (N.land y 2147483647 =? 0)%N))
  | VF64 x, VF64 y => negb (f64_nan x) && negb (f64_nan y) &&
      ((x =? y)%N || ((N.land x 9223372036854775807 =? 0)%N && (N.land y 9223372036854775807 =? 0)%N))
  | VStr x, VStr y => bytes_eqb x y
  | _, _ => false
  end.

(** map.go:137-138 [MapAssign] and [Assign]: m[k] = v. *)
Fixpoint map_assign (l : list (val * val)) (k v : val) : list (val * val) :=
  match l with
  | [] => [(k, v)]
  | (k', v') :: r => if key_eqb k' k then (k, v) :: r else (k', v') :: map_assign r k v
  end.

Section Codec.
Context {R I : Type}.
Variable look : R -> cbody R I.
Variable iget : I -> sinfo R.
Variable D : decls.

(** struct.go:40-43 / 50-52: run a per-field function over the fields. *)
Fixpoint fields_size (sub : nat -> option (R -> fmeta -> res Z)) (fs : list (sfield R)) : res Z :=
  match fs with
  | [] => OK 0
  | f :: fs =>
    n <- match sub (f_idx f) with Some g => g (f_codec f) (f_meta f) | None => CR Confused end ;;
    m <- fields_size sub fs ;;
    OK (n + m)
  end.
Fixpoint fields_encode (sub : nat -> option (bytes -> R -> fmeta -> res bytes))
  (b : bytes) (fs : list (sfield R)) : res bytes :=
  match fs with
  | [] => OK b
  | f :: fs =>
    b <- match sub (f_idx f) with Some g => g b (f_codec f) (f_meta f) | None => CR Confused end ;;
    fields_encode sub b fs
  end.

(** slice.go:31-43: elements are summed. *)
Fixpoint sum_res (l : list (res Z)) : res Z :=
  match l with
  | [] => OK 0
  | r :: l => n <- r ;; m <- sum_res l ;; OK (n + m)
  end.
(** slice.go:45-56: elements are appended one after the other. *)
Fixpoint chain_res (b : bytes) (l : list (bytes -> res bytes)) : res bytes :=
  match l with
  | [] => OK b
  | g :: l => b <- g b ;; chain_res b l
  end.

(** [codec.size] *)
Fixpoint sz (v : val) (c : R) (f : fmeta) {struct v} : res Z :=
  match look c with
  | BNil => CR NilFunc
  | BStatic s => l_size (static s) v f
  | BPtr _ c' =>                                         (* walker.go:342-350 *)
    match v with
    | VPtr None => OK 0
    | VPtr (Some x) => sz x c' f
    | _ => CR Confused
    end
  | BSlice _ c' =>                                       (* slice.go:31-43 *)
    match v with
    | VSlice _ items _ => sum_res (map (fun x => sz x c' f) items)
    | _ => CR Confused
    end
  | BStruct _ i =>                                       (* walker.go:88-96 *)
    match v with
    | VPtr None => OK 0
    | VPtr (Some x) =>
      let subs := match x with VStruct fs => map (fun y => sz y) fs | _ => [] end in
      n <- fields_size (nth_error subs) (i_fields (iget i)) ;;
      OK (n + (sizeOfVarint (u64 n) + tagsize f))
    | _ => CR Confused
    end
  | BMap tag kf vf _ _ =>                                (* map.go:30-56 *)
    match v with
    | VMap m =>
      let mapTagSize := sizeOfVarint tag in
      n <- sum_res match m with None => [] | Some l => map (fun kv => match kv with (k, x) =>
             keySize <- sz k (f_codec kf) (f_meta kf) ;;
             valSize <- sz x (f_codec vf) (f_meta vf) ;;
             OK (mapTagSize + sizeOfVarint (u64 (keySize + valSize)) + keySize + valSize) end) l
             end ;;
      OK (if n =? 0 then mapTagSize + 1 else n)          (* zeroSize = 1 *)
    | _ => CR Confused
    end
  end.

(** structInfo.size, struct.go:35-44, on a non-nil struct pointer. *)
Definition struct_size (i : I) (x : val) : res Z :=
  fields_size (fun j => option_map (fun y => sz y) (get_field x j)) (i_fields (iget i)).

(** [codec.encode] *)
Fixpoint enc (v : val) (b : bytes) (c : R) (f : fmeta) {struct v} : res bytes :=
  match look c with
  | BNil => CR NilFunc
  | BStatic s => l_encode (static s) b v f
  | BPtr _ c' =>                                         (* walker.go:352-360 *)
    match v with
    | VPtr None => OK b
    | VPtr (Some x) => enc x b c' f
    | _ => CR Confused
    end
  | BSlice _ c' =>                                       (* slice.go:45-56 *)
    match v with
    | VSlice _ items _ => chain_res b (map (fun x b => enc x b c' f) items)
    | _ => CR Confused
    end
  | BStruct _ i =>                                       (* walker.go:97-106 *)
    match v with
    | VPtr None => OK b
    | VPtr (Some x) =>
      let subs := match x with VStruct fs => map (fun y => enc y) fs | _ => [] end in
      n <- struct_size i x ;;
      fields_encode (nth_error subs) (appendVarint (appendVarint b (wiretag f)) (u64 n))
        (i_fields (iget i))
    | _ => CR Confused
    end
  | BMap tag kf vf _ _ =>                                (* map.go:58-94 *)
    match v with
    | VMap m =>
      let mapTag := appendVarint [] tag in
      b' <- chain_res b match m with None => [] | Some l => map (fun kv b => match kv with (k, x) =>
             keySize <- sz k (f_codec kf) (f_meta kf) ;;
             valSize <- sz x (f_codec kf) (f_meta vf) ;;   (* map.go:80: keyCodec.size *)
             b <- enc k (appendVarint (b ++ mapTag) (u64 (keySize + valSize)))
                     (f_codec kf) (f_meta kf) ;;
             enc x b (f_codec vf) (f_meta vf) end) l
             end ;;
      OK (if zlen b' =? zlen b then b' ++ (mapTag ++ [0%N]) else b')
    | _ => CR Confused
    end
  end.

(** structInfo.encode, struct.go:46-54, on a non-nil struct pointer. *)
Definition struct_encode (i : I) (b : bytes) (x : val) : res bytes :=
  fields_encode (fun j => option_map (fun y => enc y) (get_field x j)) b (i_fields (iget i)).

(** [codec.decode] and structInfo.decode. [fuel] bounds the recursion depth. *)
Fixpoint dec (fuel : nat) (c : R) (b : bytes) (v : val) {struct fuel} : dres val :=
  match fuel with
  | O => DFuel
  | S fuel =>
    match look c with
    | BNil => DCrash NilFunc
    | BStatic s => l_decode (static s) b v
    | BPtr t c' =>                                       (* walker.go:362-371 *)
      match v with
      | VPtr o =>
        let x := match o with Some x => x | None => zero t end in
        dmap (fun x => VPtr (Some x)) (dec fuel c' b x)
      | _ => DCrash Confused
      end
    | BSlice t c' =>                                     (* slice.go:58-75 *)
      match v with
      | VSlice nn items spare =>
        let grown := match spare with [] => true | _ => false end in
        let spare := match spare with [] => grow_spare t (length items) | _ => spare end in
        match spare with
        | [] => DCrash Bounds
        | slot :: spare =>
          match dec fuel c' b slot with
          | DRet x n None => DRet (VSlice (nn || grown) (items ++ [x]) spare) n None
          | DRet x n (Some e) => DRet (VSlice (nn || grown) items (x :: spare)) n (Some e)
          | r => r
          end
        end
      | _ => DCrash Confused
      end
    | BStruct k i =>                                     (* walker.go:107-118 *)
      match v with
      | VPtr o =>
        let x := match o with Some x => x | None => zero_struct D k end in
        let '(_, n, e) := decodeVarint b in
        match e with
        | Some e => DRet (VPtr (Some x)) n (Some e)
        | None =>
          match from_ b n with
          | None => DCrash Bounds
          | Some b' =>
            match decs fuel i b' 0 x with
            | DRet x l e => DRet (VPtr (Some x)) (n + l) e
            | r => r
            end
          end
        end
      | _ => DCrash Confused
      end
    | BMap _ _ _ k i =>                                  (* map.go:117-143 *)
      match v with
      | VMap m =>
        let m := match m with Some l => l | None => [] end in
        if zlen b =? 0 then DRet (VMap (Some m)) 0 None
        else
          let s := zero_struct D k in  (* the pool only holds zeroed entries, map.go:140-141 *)
          let '(_, nl, e) := decodeVarint b in
          match e with
          | Some e => DRet (VMap (Some m)) 0 (Some e)
          | None =>
            match from_ b nl with
            | None => DCrash Bounds
            | Some b' =>
              match decs fuel i b' 0 s with
              | DRet (VStruct [key; x]) n None => DRet (VMap (Some (map_assign m key x))) (n + nl) None
              | DRet _ n None => DCrash Confused
              | DRet _ n (Some e) => DRet (VMap (Some m)) (n + nl) (Some e)
              | r => r
              end
            end
          end
      | _ => DCrash Confused
      end
    end
  end
(** structInfo.decode, struct.go:56-149, from [offset] on; [x] is the struct. *)
with decs (fuel : nat) (i : I) (b : bytes) (offset : Z) (x : val) {struct fuel} : dres val :=
  match fuel with
  | O => DFuel
  | S fuel =>
    if offset <? zlen b then
      match from_ b offset with
      | None => DCrash Bounds
      | Some tl =>
        let '(fn, wt, n, e) := decodeTag tl in
        let offset := offset + n in
        match e with
        | Some e => DRet x offset (Some e)
        | None =>
          match lookup_field (iget i) fn with
          | None =>
            match skip_unknown b offset wt with
            | CR c => DCrash c
            | OK (offset, Some e) => DRet x offset (Some (fieldError fn wt e))
            | OK (offset, None) => decs fuel i b offset x
            end
          | Some f =>
            if negb (wt =? wireType f)%N then
              DRet x offset (Some (fieldError fn wt (ErrExpectedWireType (wireType f))))
            else
              match field_data b offset wt with
              | FCrash => DCrash Bounds
              | FErr offset e => DRet x offset (Some (fieldError fn wt e))
              | FData data =>
                match get_field x (f_idx f) with
                | None => DCrash Confused
                | Some y =>
                  match dec fuel (f_codec f) data y with
                  | DRet y n e =>
                    let x := set_field x (f_idx f) y in
                    let offset := offset + n in
                    match e with
                    | Some e => DRet x offset (Some (fieldError fn wt e))
                    | None => decs fuel i b offset x
                    end
                  | r => r
                  end
                end
              end
          end
        end
      end
    else DRet x offset None
  end.

End Codec.
