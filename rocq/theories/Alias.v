(** Decoding on a memory of byte arrays: which arrays Unmarshal reads, writes
    and keeps references to.

    In Codec.v a []byte or a string is the list of its bytes. Here it is a
    slice of an array, so that two slices can share memory: the input buffer,
    the byte slices and the strings of a message all live in one memory, and
    every read goes through that memory at the time of the read. Everything else
    (structs, pointers, element arrays of repeated fields, maps) stays a tree,
    as in GoType.v. *)
From Verif Require Import Base Wire GoType Leaf Codec Walker Api.
Local Open Scope Z_scope.

(** The byte arrays allocated so far; an address is an index. Nothing is freed. *)
Definition mem := list bytes.

(** A Go slice header of type []byte; for a string, [cp] is [ln]. *)
Record slice := { ar : nat; off : nat; ln : nat; cp : nat }.

Definition array (M : mem) (a : nat) : bytes := nth a M [].
(** The elements of a slice. *)
Definition content (M : mem) (s : slice) : bytes := firstn (ln s) (skipn (off s) (array M (ar s))).

(** A message whose byte slices and strings are references into the memory.
    [MLeaf] holds a value without references (bool, numbers). *)
Inductive mval :=
| MLeaf (v : val)
| MStr (s : slice)
| MBytes (o : option slice)
| MOpt (some : bool) (x : mval)
| MSlice (nonnil : bool) (items spare : list mval)
| MMap (m : option (list (mval * mval)))
| MPtr (o : option mval)
| MStruct (fs : list mval).

(** The message of GoType.v that a program sees. *)
Fixpoint denote (M : mem) (v : mval) : val :=
  match v with
  | MLeaf v => v
  | MStr s => VStr (content M s)
  | MBytes o => VBytes (option_map (content M) o)
  | MOpt f x => VOpt f (denote M x)
  | MSlice nn items spare => VSlice nn (map (denote M) items) (map (denote M) spare)
  | MMap m => VMap (match m with
      | Some l => Some (map (fun kv => match kv with (k, x) => (denote M k, denote M x) end) l)
      | None => None end)
  | MPtr o => VPtr (match o with Some x => Some (denote M x) | None => None end)
  | MStruct fs => VStruct (map (denote M) fs)
  end.

(** make / append with a new array: a new address. *)
Definition alloc (M : mem) (a : bytes) : nat * mem := (length M, M ++ [a]).
(** copy of [d] into array [a] from index [o] on (memmove: [d] was read before). *)
Definition write (M : mem) (a o : nat) (d : bytes) : mem :=
  list_set M a (firstn o (array M a) ++ d ++ skipn (o + length d) (array M a)).

(** The empty string and the zero values of GoType.v. *)
Definition empty_slice : slice := {| ar := 0; off := 0; ln := 0; cp := 0 |}.
Definition mzero_k (k : skind) : mval :=
  match k with KString => MStr empty_slice | k => MLeaf (zero_k k) end.
Definition mzero (t : gotype) : mval :=
  match t with
  | TScalar k => mzero_k k
  | TBytes => MBytes None
  | TOption k => MOpt false (mzero_k k)
  | TSlice _ => MSlice false [] []
  | TMap _ _ => MMap None
  | TPtr _ | TMsg _ => MPtr None
  | TOther => MLeaf (VOther 0)
  end.
Definition mzero_struct (D : decls) (k : skey) : mval :=
  match k with
  | SNamed sid =>
    match nth_error D sid with
    | Some fs => MStruct (map (fun f => mzero (gf_type f)) fs)
    | None => MStruct []
    end
  | SEntry k v _ _ => MStruct [mzero_k k; mzero v]
  | SOpt k => mzero (TOption k)
  end.

(** b[n:] and b[n:n+l] as slices; the bounds are checked on the contents. *)
Definition sl_sub (b : slice) (n : Z) (l : nat) : slice :=
  {| ar := ar b; off := off b + Z.to_nat n; ln := l; cp := cp b - Z.to_nat n |}.
Definition sl_from (b : slice) (n : Z) : slice := sl_sub b n (ln b - Z.to_nat n).

(** struct.go:31-33 *)
Definition m_get (p : mval) (i : nat) : option mval :=
  match p with MStruct fs => nth_error fs i | _ => None end.
Definition m_set (p : mval) (i : nat) (x : mval) : mval :=
  match p with MStruct fs => MStruct (list_set fs i x) | _ => p end.

(** map.go:137-138: m[k] = v; keys are compared by contents. *)
Fixpoint m_assign (M : mem) (l : list (mval * mval)) (k v : mval) : list (mval * mval) :=
  match l with
  | [] => [(k, v)]
  | (k', v') :: r =>
    if key_eqb (denote M k') (denote M k) then (k, v) :: r else (k', v') :: m_assign M r k v
  end.

Section Mem.
(** How much longer than needed append makes a new array: any amount. *)
Variable grow : nat -> nat.

(** normal_codec.go:66-74: [make] when the field is nil, then
    [append(( *pb)[:0], v...)]: in place when the capacity suffices. *)
Definition m_bytes (M : mem) (b : slice) (p : mval) : dres (mval * mem) :=
  match decodeVarlen (content M b) with
  | CR c => DCrash c
  | OK (v, n, e) =>
    match p with
    | MBytes o =>
      let d := match v with Some d => d | None => [] end in
      let '(s, M) :=
        match o with
        | Some s => (s, M)
        | None =>
          let '(a, M) := alloc M (repeat 0%N (length d)) in
          ({| ar := a; off := 0; ln := 0; cp := length d |}, M)
        end in
      if (length d <=? cp s)%nat then
        DRet (MBytes (Some {| ar := ar s; off := off s; ln := length d; cp := cp s |}),
              write M (ar s) (off s) d) n e
      else
        let '(a, M) := alloc M (d ++ repeat 0%N (grow (length d))) in
        DRet (MBytes (Some {| ar := a; off := 0; ln := length d; cp := length d + grow (length d) |}), M) n e
    | _ => DCrash Confused
    end
  end.

(** normal_codec.go:100-108: [string(v)] copies into new memory. *)
Definition m_string (M : mem) (b : slice) (p : mval) : dres (mval * mem) :=
  match decodeVarlen (content M b) with
  | CR c => DCrash c
  | OK (v, n, e) =>
    match p with
    | MStr _ =>
      if n =? 0 then DRet (MStr empty_slice, M) 0 e
      else
        match v with
        | None | Some [] => DRet (MStr empty_slice, M) n e
        | Some d =>
          let '(a, M) := alloc M d in
          DRet (MStr {| ar := a; off := 0; ln := length d; cp := length d |}, M) n e
        end
    | _ => DCrash Confused
    end
  end.

(** normal_codec.go:34-40 *)
Definition m_bool (M : mem) (b : slice) (p : mval) : dres (mval * mem) :=
  match content M b with
  | [] => DRet (p, M) 0 (Some ErrUnexpectedEOF)
  | _ =>
    match p with
    | MLeaf x => dmap (fun y => (MLeaf y, M)) (decodeBool (content M b) x)
    | _ => DCrash Confused
    end
  end.

(** The decode functions of normal_codec.go and required_codec.go; those of
    numbers (Leaf.v) keep no reference to their input. *)
Definition m_base (w : wk) (M : mem) (b : slice) (p : mval) : dres (mval * mem) :=
  match w with
  | WString => m_string M b p
  | WBool => m_bool M b p
  | _ =>
    match p with
    | MLeaf x => dmap (fun y => (MLeaf y, M)) (l_decode (static (SC w Normal)) (content M b) x)
    | _ => DCrash Confused
    end
  end.
(** option_codec.go:29-33 and the other decode...Option functions *)
Definition m_option (dec : mem -> slice -> mval -> dres (mval * mem)) (M : mem) (b : slice) (p : mval)
  : dres (mval * mem) :=
  match p with
  | MOpt _ x => dmap (fun r => (MOpt true (fst r), snd r)) (dec M b x)
  | _ => DCrash Confused
  end.
(** The package-level codecs. *)
Definition m_leaf (s : scid) : mem -> slice -> mval -> dres (mval * mem) :=
  match s with
  | SCBytes => m_bytes
  | SC w Optional => m_option (m_base w)
  | SC w _ => m_base w
  end.

Section Codec.
Context {R I : Type}.
Variable look : R -> cbody R I.
Variable iget : I -> sinfo R.
Variable D : decls.

(** [codec.decode] and structInfo.decode: Codec.v's [dec] and [decs], line by
    line, with the memory passed along. *)
Fixpoint mdec (fuel : nat) (c : R) (M : mem) (b : slice) (v : mval) {struct fuel} : dres (mval * mem) :=
  match fuel with
  | O => DFuel
  | S fuel =>
    match look c with
    | BNil => DCrash NilFunc
    | BStatic s => m_leaf s M b v
    | BPtr t c' =>                                       (* walker.go:362-371 *)
      match v with
      | MPtr o =>
        let x := match o with Some x => x | None => mzero t end in
        dmap (fun r => (MPtr (Some (fst r)), snd r)) (mdec fuel c' M b x)
      | _ => DCrash Confused
      end
    | BSlice t c' =>                                     (* slice.go:58-75 *)
      match v with
      | MSlice nn items spare =>
        let grown := match spare with [] => true | _ => false end in
        let spare := match spare with
          | [] => repeat (mzero t) (length (grow_spare t (length items)))
          | _ => spare end in
        match spare with
        | [] => DCrash Bounds
        | slot :: spare =>
          match mdec fuel c' M b slot with
          | DRet (x, M) n None => DRet (MSlice (nn || grown) (items ++ [x]) spare, M) n None
          | DRet (x, M) n (Some e) => DRet (MSlice (nn || grown) items (x :: spare), M) n (Some e)
          | r => r
          end
        end
      | _ => DCrash Confused
      end
    | BStruct k i =>                                     (* walker.go:107-118 *)
      match v with
      | MPtr o =>
        let x := match o with Some x => x | None => mzero_struct D k end in
        let '(_, n, e) := decodeVarint (content M b) in
        match e with
        | Some e => DRet (MPtr (Some x), M) n (Some e)
        | None =>
          match from_ (content M b) n with
          | None => DCrash Bounds
          | Some _ =>
            match mdecs fuel i M (sl_from b n) 0 x with
            | DRet (x, M) l e => DRet (MPtr (Some x), M) (n + l) e
            | r => r
            end
          end
        end
      | _ => DCrash Confused
      end
    | BMap _ _ _ k i =>                                  (* map.go:117-143 *)
      match v with
      | MMap m =>
        let m := match m with Some l => l | None => [] end in
        if zlen (content M b) =? 0 then DRet (MMap (Some m), M) 0 None
        else
          let s := mzero_struct D k in
          let '(_, nl, e) := decodeVarint (content M b) in
          match e with
          | Some e => DRet (MMap (Some m), M) 0 (Some e)
          | None =>
            match from_ (content M b) nl with
            | None => DCrash Bounds
            | Some _ =>
              match mdecs fuel i M (sl_from b nl) 0 s with
              | DRet (MStruct [key; x], M) n None =>
                DRet (MMap (Some (m_assign M m key x)), M) (n + nl) None
              | DRet (_, _) n None => DCrash Confused
              | DRet (_, M) n (Some e) => DRet (MMap (Some m), M) (n + nl) (Some e)
              | r => r
              end
            end
          end
      | _ => DCrash Confused
      end
    end
  end
(** structInfo.decode, struct.go:56-149 *)
with mdecs (fuel : nat) (i : I) (M : mem) (b : slice) (offset : Z) (x : mval) {struct fuel} : dres (mval * mem) :=
  match fuel with
  | O => DFuel
  | S fuel =>
    if offset <? zlen (content M b) then
      match from_ (content M b) offset with
      | None => DCrash Bounds
      | Some tl =>
        let '(fn, wt, n, e) := decodeTag tl in
        let offset := offset + n in
        match e with
        | Some e => DRet (x, M) offset (Some e)
        | None =>
          match lookup_field (iget i) fn with
          | None =>
            match skip_unknown (content M b) offset wt with
            | CR c => DCrash c
            | OK (offset, Some e) => DRet (x, M) offset (Some (fieldError fn wt e))
            | OK (offset, None) => mdecs fuel i M b offset x
            end
          | Some f =>
            if negb (wt =? wireType f)%N then
              DRet (x, M) offset (Some (fieldError fn wt (ErrExpectedWireType (wireType f))))
            else
              match field_data (content M b) offset wt with
              | FCrash => DCrash Bounds
              | FErr offset e => DRet (x, M) offset (Some (fieldError fn wt e))
              | FData data =>                            (* data := b[offset : offset+len(data)] *)
                match m_get x (f_idx f) with
                | None => DCrash Confused
                | Some y =>
                  match mdec fuel (f_codec f) M (sl_sub b offset (length data)) y with
                  | DRet (y, M) n e =>
                    let x := m_set x (f_idx f) y in
                    let offset := offset + n in
                    match e with
                    | Some e => DRet (x, M) offset (Some (fieldError fn wt e))
                    | None => mdecs fuel i M b offset x
                    end
                  | r => r
                  end
                end
              end
          end
        end
      end
    else DRet (x, M) offset None
  end.
End Codec.

(** proto.go:37-61 with a pointer to a struct: the result carries the message
    and the memory after the call. *)
Definition mUnmarshal (D : decls) (M : mem) (b : slice) (k : skey) (x : mval) (s : gstate)
  : api (mval * mem * option err) * gstate :=
  if zlen (content M b) =? 0 then (Returns (x, M, None), s)
  else
    with_info D k s (fun i s =>
      match mdecs (hlook s) (higet s) D (decode_fuel D (content M b)) i M b 0 x with
      | DRet (x, M') n (Some e) => Returns (x, M', Some e)
      | DRet (x, M') n None =>
        Returns (x, M', if n <? zlen (content M b) then Some ErrShortRead else None)
      | DCrash c => Panics c
      | DFuel => Diverges
      end).
End Mem.
