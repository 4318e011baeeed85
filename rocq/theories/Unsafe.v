(** Size, Marshal and Unmarshal on flat memory.

    In Codec.v a message is a tree. Here it is what the code works on: objects
    of bytes, addresses, and pointer arithmetic through unsafe.Pointer. Struct
    fields are found by adding their offset to an address (struct.go:31-33),
    slice elements by adding a multiple of the element size
    (runtime_reflect/slice.go:23-25), and every load and store names an address
    and a number of bytes. An access outside an object, or at a type the bytes
    there do not have, is the outcome [Confused].

    Messages can share memory and be cyclic here. The input of Unmarshal and the
    output of Marshal stay lists of bytes (Alias.v has the input in memory). *)
From Verif Require Import Base Wire GoType Leaf Codec Walker Api.

(** ** Memory *)

(** An address: an object and a byte offset into it. *)
Definition addr := (nat * nat)%type.
Definition shift (a : addr) (n : nat) : addr := (fst a, snd a + n).

(** A byte of memory: a number, the i-th byte of a pointer, or the i-th byte of
    a length or capacity. The nil pointer and length 0 are eight zero bytes.
    Lengths are not bounded by 2^63, as elsewhere in the model. *)
Inductive mv := MB (n : N) | MP (a : addr) (i : nat) | ML (n : nat) (i : nat).

(** Objects: memory; the bytes of a string, which nothing ever writes; and a map
    of the Go runtime, given by the objects that hold its keys and values, in
    the order of an iteration. *)
Inductive obj := OMem (c : list mv) | OStr (s : bytes) | OMap (l : list (nat * nat)).
Notation heap := (list obj).

Definition cell (H : heap) (b o : nat) : option mv :=
  match nth_error H b with Some (OMem c) => nth_error c o | _ => None end.
(** [n] bytes of memory. *)
Fixpoint cells (H : heap) (b o n : nat) : option (list mv) :=
  match n with
  | O => Some []
  | S n => match cell H b o, cells H b (S o) n with Some c, Some r => Some (c :: r) | _, _ => None end
  end.
Definition load (H : heap) (a : addr) (n : nat) : option (list mv) := cells H (fst a) (snd a) n.
Definition set_cell (H : heap) (b o : nat) (c : mv) : option heap :=
  match nth_error H b with
  | Some (OMem l) => if (o <? length l)%nat then Some (list_set H b (OMem (list_set l o c))) else None
  | _ => None
  end.
Fixpoint set_cells (H : heap) (b o : nat) (cs : list mv) : option heap :=
  match cs with
  | [] => Some H
  | c :: cs => match set_cell H b o c with Some H => set_cells H b (S o) cs | None => None end
  end.
Definition store (H : heap) (a : addr) (cs : list mv) : option heap := set_cells H (fst a) (snd a) cs.

(** runtime.newobject, runtime.newarray, reflect.New: a new object. *)
Definition alloc (H : heap) (x : obj) : nat * heap := (length H, H ++ [x]).
Definition zeros (n : nat) : list mv := repeat (MB 0) n.

(** Numbers in memory, little endian. *)
Definition byte (c : mv) : option N := match c with MB n => if (n <? 256)%N then Some n else None | _ => None end.
Fixpoint le (l : list mv) : option N :=
  match l with
  | [] => Some 0%N
  | c :: l => match byte c, le l with Some x, Some y => Some (x + 256 * y)%N | _, _ => None end
  end.
Fixpoint le_cells (k : nat) (n : N) : list mv :=
  match k with O => [] | S k => MB (n mod 256) :: le_cells k (n / 256) end.
Definition ld_n (H : heap) (a : addr) (k : nat) : option N :=
  match load H a k with Some l => le l | None => None end.

(** Pointers in memory. *)
Definition mv_eqb (x y : mv) : bool :=
  match x, y with
  | MB n, MB m => (n =? m)%N
  | MP a i, MP b j => (fst a =? fst b)%nat && (snd a =? snd b)%nat && (i =? j)%nat
  | ML n i, ML m j => (n =? m)%nat && (i =? j)%nat
  | _, _ => false
  end.
Fixpoint mvs_eqb (l m : list mv) : bool :=
  match l, m with
  | [], [] => true
  | x :: l, y :: m => mv_eqb x y && mvs_eqb l m
  | _, _ => false
  end.
Definition ptr_cells (p : option addr) : list mv :=
  match p with None => zeros 8 | Some a => map (MP a) (seq 0 8) end.
Definition ptr_of (l : list mv) : option (option addr) :=
  if mvs_eqb l (ptr_cells None) then Some None
  else match l with
       | MP a _ :: _ => if mvs_eqb l (ptr_cells (Some a)) then Some (Some a) else None
       | _ => None
       end.
Definition ld_ptr (H : heap) (a : addr) : option (option addr) :=
  match load H a 8 with Some l => ptr_of l | None => None end.

(** Lengths and capacities in memory. *)
Definition len_cells (n : nat) : list mv := match n with O => zeros 8 | _ => map (ML n) (seq 0 8) end.
Definition len_of (l : list mv) : option nat :=
  if mvs_eqb l (len_cells 0) then Some O
  else match l with
       | ML n _ :: _ => if mvs_eqb l (len_cells n) then Some n else None
       | _ => None
       end.
Definition ld_len (H : heap) (a : addr) : option nat :=
  match load H a 8 with Some l => len_of l | None => None end.

(** The bytes of a string or byte slice with data pointer [p]. *)
Fixpoint plain (l : list mv) : option bytes :=
  match l with
  | [] => Some []
  | c :: l => match byte c, plain l with Some x, Some y => Some (x :: y) | _, _ => None end
  end.
Definition data (H : heap) (p : option addr) (n : nat) : option bytes :=
  match n with
  | O => Some []
  | _ =>
    match p with
    | None => None
    | Some (b, o) =>
      match nth_error H b with
      | Some (OStr s) => if (o + n <=? length s)%nat then Some (firstn n (skipn o s)) else None
      | _ => match cells H b o n with Some l => plain l | None => None end
      end
    end
  end.

(** ** Layout of types as the gc compiler chooses it on 64-bit machines; the
    code asks reflect for it (walker.go:158, slice.go:77-81, map.go:111). *)
Definition round_up (a n : nat) : nat := if (a =? 0)%nat then n else ((n + a - 1) / a * a)%nat.
Definition kind_size (k : skind) : nat :=
  match k with
  | KBool => 1
  | KInt32 | KUint32 | KFloat32 => 4
  | KInt64 | KUint64 | KFloat64 => 8
  | KString => 16                                (* pointer, length *)
  end.
Definition kind_align (k : skind) : nat :=
  match k with KBool => 1 | KInt32 | KUint32 | KFloat32 => 4 | _ => 8 end.
(** option.go:7-10: the offset of the second field. *)
Definition opt_value (k : skind) : nat := round_up (kind_align k) 1.
Definition tsize (t : gotype) : nat :=
  match t with
  | TScalar k => kind_size k
  | TBytes | TSlice _ => 24                      (* pointer, length, capacity *)
  | TOption k => round_up (kind_align k) (opt_value k + kind_size k)
  | TMap _ _ | TPtr _ | TMsg _ => 8
  | TOther => 0                                  (* see [other] below *)
  end.
Definition talign (t : gotype) : nat :=
  match t with TScalar k | TOption k => kind_align k | TOther => 1 | _ => 8 end.

(** Offsets of consecutive fields, given sizes and alignments; and the end of
    the last one. *)
Fixpoint offsets (o : nat) (l : list (nat * nat)) : list nat :=
  match l with
  | [] => []
  | (s, a) :: l => let o := round_up a o in o :: offsets (o + s) l
  end.
Fixpoint fields_end (o : nat) (l : list (nat * nat)) : nat :=
  match l with [] => o | (s, a) :: l => fields_end (round_up a o + s) l end.

(** slice.go:83-88 *)
Definition align (a size : nat) : nat :=
  if negb (a =? 0)%nat && negb (size mod a =? 0)%nat then ((size / a) + 1) * a else size.
(** slice.go:77-81 *)
Definition alignedSize (t : gotype) : nat := align (talign t) (tsize t).
(** runtime_reflect/slice.go:23-25 *)
Definition index (p : option addr) (i elemSize : nat) : option addr :=
  match p with Some a => Some (shift a (i * elemSize)) | None => None end.

(** ** Loads and stores of scalars *)
(** [*( *T)(p)] for a scalar type T. *)
Definition ld_k (H : heap) (k : skind) (a : addr) : option val :=
  match k with
  | KBool => match ld_n H a 1 with Some 0%N => Some (VBool false) | Some 1%N => Some (VBool true) | _ => None end
  | KInt32 => option_map (fun n => VI32 (s32 (Z.of_N n))) (ld_n H a 4)
  | KInt64 => option_map (fun n => VI64 (s64 n)) (ld_n H a 8)
  | KUint32 => option_map VU32 (ld_n H a 4)
  | KUint64 => option_map VU64 (ld_n H a 8)
  | KFloat32 => option_map VF32 (ld_n H a 4)
  | KFloat64 => option_map VF64 (ld_n H a 8)
  | KString =>
    match ld_ptr H a, ld_len H (shift a 8) with
    | Some p, Some n => option_map VStr (data H p n)
    | _, _ => None
    end
  end.
(** The same for []byte. *)
Definition ld_bytes (H : heap) (a : addr) : option val :=
  match ld_ptr H a, ld_len H (shift a 8) with
  | Some None, Some _ => Some (VBytes None)
  | Some p, Some n => option_map (fun d => VBytes (Some d)) (data H p n)
  | _, _ => None
  end.
(** The bytes of a number of kind [k]; [None] for strings. *)
Definition k_cells (v : val) : option (list mv) :=
  match v with
  | VBool b => Some [MB (if b then 1 else 0)%N]
  | VI32 z => Some (le_cells 4 (u32 z))
  | VI64 z => Some (le_cells 8 (u64 z))
  | VU32 n | VF32 n => Some (le_cells 4 n)
  | VU64 n | VF64 n => Some (le_cells 8 n)
  | _ => None
  end.
(** A slice header, a string header. *)
Definition hdr (p : option addr) (len cap : nat) : list mv :=
  ptr_cells p ++ len_cells len ++ len_cells cap.
Definition str_hdr (p : option addr) (len : nat) : list mv := ptr_cells p ++ len_cells len.
(** [*( *T)(p) = v]; a new string gets memory of its own (normal_codec.go:106). *)
Definition st_k (H : heap) (a : addr) (v : val) : option heap :=
  match v with
  | VStr [] => store H a (str_hdr None 0)
  | VStr s => let '(x, H) := alloc H (OStr s) in store H a (str_hdr (Some (x, O)) (length s))
  | _ => match k_cells v with Some cs => store H a cs | None => None end
  end.

(** ** Codecs of scalars *)
(** The T of the [*( *T)(p)] in the functions of a package-level codec. *)
Definition mem_kind (w : wk) : skind :=
  match w with
  | WBool => KBool | WString => KString | WFloat32 => KFloat32 | WFloat64 => KFloat64
  | WInt32 | WZigzag32 => KInt32
  | WInt64 | WZigzag64 => KInt64
  | WUint32 | WFixed32 => KUint32
  | WUint64 | WFixed64 => KUint64
  end.
(** required_codec.go:12-14, 41-43, 53-55, 104-106, 129-131: these do not look
    at the value. *)
Definition const_size (w : wk) : bool :=
  match w with WBool | WFloat32 | WFloat64 | WFixed32 | WFixed64 => true | _ => false end.
(** normal_codec.go and required_codec.go: load, then what Leaf.v says. *)
Definition u_size_base (w : wk) (m : mode) (H : heap) (a : addr) (f : fmeta) : res Z :=
  match m, const_size w with
  | Required, true => l_size (static (SC w m)) (VOther 0) f
  | _, _ => v <- of_opt (ld_k H (mem_kind w) a) ;; l_size (static (SC w m)) v f
  end.
Definition u_encode_base (w : wk) (m : mode) (H : heap) (b : bytes) (a : addr) (f : fmeta) : res bytes :=
  v <- of_opt (ld_k H (mem_kind w) a) ;; l_encode (static (SC w m)) b v f.
(** option_codec.go: the flag, then the required function on the address of
    the value (option.go:46-48). *)
Definition u_size (s : scid) (H : heap) (a : addr) (f : fmeta) : res Z :=
  match s with
  | SCBytes => v <- of_opt (ld_bytes H a) ;; l_size (static s) v f
  | SC w Optional =>
    o <- of_opt (ld_k H KBool a) ;;
    match o with
    | VBool true => u_size_base w Required H (shift a (opt_value (mem_kind w))) f
    | _ => OK 0%Z
    end
  | SC w m => u_size_base w m H a f
  end.
Definition u_encode (s : scid) (H : heap) (b : bytes) (a : addr) (f : fmeta) : res bytes :=
  match s with
  | SCBytes => v <- of_opt (ld_bytes H a) ;; l_encode (static s) b v f
  | SC w Optional =>
    o <- of_opt (ld_k H KBool a) ;;
    match o with
    | VBool true => u_encode_base w Required H b (shift a (opt_value (mem_kind w))) f
    | _ => OK b
    end
  | SC w m => u_encode_base w m H b a f
  end.

Definition dopt {A} (o : option A) (n : Z) (e : option err) : dres A :=
  match o with Some x => DRet x n e | None => DCrash Confused end.
(** normal_codec.go: decode, then store; only decodeBool (34-40) can return
    without storing. *)
Definition u_decode_base (w : wk) (H : heap) (b : bytes) (a : addr) : dres heap :=
  match w, b with
  | WBool, [] => DRet H 0 (Some ErrUnexpectedEOF)
  | _, _ =>
    match l_decode (static (SC w Normal)) b (zero_k (mem_kind w)) with
    | DRet v n e => dopt (st_k H a v) n e
    | DCrash c => DCrash c
    | DFuel => DFuel
    end
  end.

Section Unsafe.
(** How much longer than needed append makes a new array: any amount. *)
Variable grow : nat -> nat.

(** normal_codec.go:66-74 *)
Definition u_decode_bytes (H : heap) (b : bytes) (a : addr) : dres heap :=
  match decodeVarlen b with
  | CR c => DCrash c
  | OK (v, n, e) =>
    let d := match v with Some d => d | None => [] end in
    match ld_ptr H a, ld_len H (shift a 16) with
    | Some p, Some c =>
      let '(p, cap, H) :=
        match p with
        | Some p => (p, c, H)
        | None => let '(x, H) := alloc H (OMem (zeros (length d))) in ((x, O), length d, H)
        end in
      if (length d <=? cap)%nat then
        match store H p (map MB d) with
        | Some H => dopt (store H a (hdr (Some p) (length d) cap)) n e
        | None => DCrash Confused
        end
      else
        let '(x, H) := alloc H (OMem (map MB d ++ zeros (grow (length d)))) in
        dopt (store H a (hdr (Some (x, O)) (length d) (length d + grow (length d)))) n e
    | _, _ => DCrash Confused
    end
  end.
Definition u_decode (s : scid) (H : heap) (b : bytes) (a : addr) : dres heap :=
  match s with
  | SCBytes => u_decode_bytes H b a
  | SC w Optional =>                                     (* option_codec.go:29-33 *)
    match store H a [MB 1] with
    | Some H => u_decode_base w H b (shift a (opt_value (mem_kind w)))
    | None => DCrash Confused
    end
  | SC w _ => u_decode_base w H b a
  end.

(** ** Composite codecs *)
(** A slice header at [a]. *)
Definition ld_hdr (H : heap) (a : addr) : option (option addr * nat * nat) :=
  match ld_ptr H a, ld_len H (shift a 8), ld_len H (shift a 16) with
  | Some p, Some l, Some c => Some (p, l, c)
  | _, _, _ => None
  end.

(** The pooled entries of all maps (map.go:107, 127, 141): entry type and address. *)
Record ust := { hp : heap; pl : list (skey * addr) }.
Definition with_hp (s : ust) (H : heap) : ust := {| hp := H; pl := pl s |}.

(** Which pooled entry sync.Pool.Get returns, if any: unspecified. *)
Variable pick : ust -> skey -> option nat.

Section Codec.
Context {R I : Type}.
Variable look : R -> cbody R I.
Variable iget : I -> sinfo R.
Variable D : decls.
(** Size and alignment of field number j of declared struct sid, if its type is
    [TOther]. *)
Variable other : nat -> nat -> nat * nat.

Definition type_layout (t : gotype) : nat * nat := (tsize t, talign t).
Fixpoint decl_layout (sid j : nat) (fs : list gofield) : list (nat * nat) :=
  match fs with
  | [] => []
  | f :: fs => match gf_type f with TOther => other sid j | t => type_layout t end :: decl_layout sid (S j) fs
  end.
(** Sizes and alignments of the fields of a struct type. *)
Definition layout (k : skey) : list (nat * nat) :=
  match k with
  | SNamed sid => match nth_error D sid with Some fs => decl_layout sid 0 fs | None => [] end
  | SEntry k v _ _ => [type_layout (TScalar k); type_layout v]
  | SOpt k => [(1, 1); type_layout (TScalar k)]
  end.
(** reflect.StructField.Offset, walker.go:158 and map.go:111. *)
Definition foffset (k : skey) (j : nat) : nat := nth j (offsets 0 (layout k)) 0.
(** reflect.Type.Size of a struct, without the padding byte after a final field
    of size zero. *)
Definition ssize (k : skey) : nat :=
  round_up (fold_right (fun l m => Nat.max (snd l) m) 1 (layout k)) (fields_end 0 (layout k)).

(** struct.go:31-33; [f_idx] stands for the field whose offset was stored. *)
Definition field_addr (k : skey) (a : addr) (f : sfield R) : addr := shift a (foffset k (f_idx f)).

Fixpoint sum_api (l : list (api Z)) : api Z :=
  match l with
  | [] => Returns 0%Z
  | x :: l => match x with
              | Returns n => match sum_api l with Returns m => Returns (n + m)%Z | r => r end
              | r => r
              end
  end.
Fixpoint chain_api (b : bytes) (l : list (bytes -> api bytes)) : api bytes :=
  match l with
  | [] => Returns b
  | g :: l => match g b with Returns b => chain_api b l | r => r end
  end.
Definition abind {A B} (x : api A) (k : A -> api B) : api B :=
  match x with Returns a => k a | Panics c => Panics c | Diverges => Diverges end.
Definition aopt {A B} (x : option A) (k : A -> api B) : api B :=
  match x with Some a => k a | None => Panics Confused end.
(** The entries of the map at [p]; MapIter (runtime_reflect/map.go:29-49). *)
Definition entries (H : heap) (p : option addr) : option (list (nat * nat)) :=
  match p with
  | None => Some []
  | Some (m, O) => match nth_error H m with Some (OMap l) => Some l | _ => None end
  | Some _ => None
  end.

(** [codec.size]. A cyclic message exhausts any [fuel]. *)
Fixpoint usz (fuel : nat) (c : R) (H : heap) (a : addr) (f : fmeta) {struct fuel} : api Z :=
  match fuel with
  | O => Diverges
  | S fuel =>
    match look c with
    | BNil => Panics NilFunc
    | BStatic s => api_res (u_size s H a f)
    | BPtr _ c' =>                                       (* walker.go:342-350 *)
      aopt (ld_ptr H a) (fun p => match p with None => Returns 0%Z | Some a => usz fuel c' H a f end)
    | BSlice t c' =>                                     (* slice.go:31-43 *)
      aopt (ld_hdr H a) (fun h => let '(p, len, _) := h in
        sum_api (map (fun i => aopt (index p i (alignedSize t)) (fun a => usz fuel c' H a f)) (seq 0 len)))
    | BStruct k i =>                                     (* walker.go:88-96 *)
      aopt (ld_ptr H a) (fun p => match p with
        | None => Returns 0%Z
        | Some a =>
          abind (usizes fuel k i H a) (fun n => Returns (n + (sizeOfVarint (u64 n) + tagsize f))%Z)
        end)
    | BMap tag kf vf _ _ =>                              (* map.go:30-56 *)
      aopt (ld_ptr H a) (fun p => aopt (entries H p) (fun l =>
        let mapTagSize := sizeOfVarint tag in
        abind (sum_api (map (fun kv =>
          abind (usz fuel (f_codec kf) H (fst kv, O) (f_meta kf)) (fun keySize =>
          abind (usz fuel (f_codec vf) H (snd kv, O) (f_meta vf)) (fun valSize =>
          Returns (mapTagSize + sizeOfVarint (u64 (keySize + valSize)) + keySize + valSize)%Z))) l))
        (fun n => Returns (if (n =? 0)%Z then mapTagSize + 1 else n)%Z)))
    end
  end
(** structInfo.size, struct.go:35-44, for the struct of type [k] at [a]. *)
with usizes (fuel : nat) (k : skey) (i : I) (H : heap) (a : addr) {struct fuel} : api Z :=
  match fuel with
  | O => Diverges
  | S fuel => sum_api (map (fun f => usz fuel (f_codec f) H (field_addr k a f) (f_meta f)) (i_fields (iget i)))
  end.

(** [codec.encode] *)
Fixpoint uenc (fuel : nat) (c : R) (H : heap) (b : bytes) (a : addr) (f : fmeta) {struct fuel} : api bytes :=
  match fuel with
  | O => Diverges
  | S fuel =>
    match look c with
    | BNil => Panics NilFunc
    | BStatic s => api_res (u_encode s H b a f)
    | BPtr _ c' =>                                       (* walker.go:352-360 *)
      aopt (ld_ptr H a) (fun p => match p with None => Returns b | Some a => uenc fuel c' H b a f end)
    | BSlice t c' =>                                     (* slice.go:45-56 *)
      aopt (ld_hdr H a) (fun h => let '(p, len, _) := h in
        chain_api b (map (fun i b => aopt (index p i (alignedSize t)) (fun a => uenc fuel c' H b a f)) (seq 0 len)))
    | BStruct k i =>                                     (* walker.go:97-106 *)
      aopt (ld_ptr H a) (fun p => match p with
        | None => Returns b
        | Some a =>
          abind (usizes fuel k i H a) (fun n =>
          uencs fuel k i H (appendVarint (appendVarint b (wiretag f)) (u64 n)) a)
        end)
    | BMap tag kf vf _ _ =>                              (* map.go:58-94 *)
      aopt (ld_ptr H a) (fun p => aopt (entries H p) (fun l =>
        let mapTag := appendVarint [] tag in
        abind (chain_api b (map (fun kv b =>
          abind (usz fuel (f_codec kf) H (fst kv, O) (f_meta kf)) (fun keySize =>
          abind (usz fuel (f_codec kf) H (snd kv, O) (f_meta vf)) (fun valSize =>    (* map.go:80 *)
          abind (uenc fuel (f_codec kf) H (appendVarint (b ++ mapTag) (u64 (keySize + valSize))) (fst kv, O) (f_meta kf)) (fun b =>
          uenc fuel (f_codec vf) H b (snd kv, O) (f_meta vf))))) l))
        (fun b' => Returns (if (zlen b' =? zlen b)%Z then b' ++ (mapTag ++ [0%N]) else b'))))
    end
  end
(** structInfo.encode, struct.go:46-54 *)
with uencs (fuel : nat) (k : skey) (i : I) (H : heap) (b : bytes) (a : addr) {struct fuel} : api bytes :=
  match fuel with
  | O => Diverges
  | S fuel => chain_api b (map (fun f b => uenc fuel (f_codec f) H b (field_addr k a f) (f_meta f)) (i_fields (iget i)))
  end.

(** typedmemmove (runtime_reflect/map.go:15-17) of [n] bytes. *)
Definition move (H : heap) (dst src : addr) (n : nat) : option heap :=
  match load H src n with Some cs => store H dst cs | None => None end.

(** slice.go:90-99: a new array with [cap] elements, the old ones copied. *)
Definition growSlice (t : gotype) (H : heap) (p : option addr) (len cap : nat) : option (addr * nat * heap) :=
  let cap' := match (2 * cap)%nat with O => 10%nat | c => c end in
  let '(x, H) := alloc H (OMem (zeros (cap' * tsize t))) in
  match len, p with
  | O, _ => Some ((x, O), cap', H)
  | _, Some a => option_map (fun H => ((x, O), cap', H)) (move H (x, O) a (len * tsize t))
  | _, None => None
  end.

(** runtime.mapassign: the address of the value for the key at [key]; the key
    is stored again if it is there already. *)
Fixpoint find_key (H : heap) (k : skind) (key : val) (l : list (nat * nat)) : option (option (nat * nat)) :=
  match l with
  | [] => Some None
  | (x, y) :: l =>
    match ld_k H k (x, O) with
    | None => None
    | Some v => if key_eqb v key then Some (Some (x, y)) else find_key H k key l
    end
  end.
Definition mapassign (k : skind) (t : gotype) (H : heap) (m : nat) (key : addr) : option (nat * heap) :=
  match nth_error H m, ld_k H k key, load H key (kind_size k) with
  | Some (OMap l), Some v, Some cs =>
    match find_key H k v l with
    | None => None
    | Some (Some (x, y)) => option_map (fun H => (y, H)) (store H (x, O) cs)
    | Some None =>
      let '(x, H) := alloc H (OMem cs) in
      let '(y, H) := alloc H (OMem (zeros (tsize t))) in
      Some (y, list_set H m (OMap (l ++ [(x, y)])))
    end
  | _, _, _ => None
  end.

(** map.go:127-130: an entry from the pool, or a new one. *)
Fixpoint remove_at {A} (j : nat) (l : list A) : list A :=
  match l, j with
  | [], _ => []
  | _ :: l, O => l
  | x :: l, S j => x :: remove_at j l
  end.
Definition get_entry (s : ust) (k : skey) : addr * ust :=
  let new := let '(x, H) := alloc (hp s) (OMem (zeros (ssize k))) in ((x, O), with_hp s H) in
  match pick s k with
  | Some j =>
    match nth_error (pl s) j with
    | Some (k', a) => if skey_eq_dec k k' then (a, {| hp := hp s; pl := remove_at j (pl s) |}) else new
    | None => new
    end
  | None => new
  end.

Definition lift (s : ust) (r : dres heap) : dres ust := dmap (with_hp s) r.
Definition dbind {A B} (x : option A) (k : A -> dres B) : dres B :=
  match x with Some a => k a | None => DCrash Confused end.

(** [codec.decode] *)
Fixpoint udec (fuel : nat) (c : R) (s : ust) (b : bytes) (a : addr) {struct fuel} : dres ust :=
  match fuel with
  | O => DFuel
  | S fuel =>
    match look c with
    | BNil => DCrash NilFunc
    | BStatic x => lift s (u_decode x (hp s) b a)
    | BPtr t c' =>                                       (* walker.go:362-371 *)
      dbind (ld_ptr (hp s) a) (fun p => match p with
        | Some a' => udec fuel c' s b a'
        | None =>
          let '(x, H) := alloc (hp s) (OMem (zeros (tsize t))) in
          dbind (store H a (ptr_cells (Some (x, O)))) (fun H => udec fuel c' (with_hp s H) b (x, O))
        end)
    | BSlice t c' =>                                     (* slice.go:58-75 *)
      dbind (ld_hdr (hp s) a) (fun h => let '(p, i, cap) := h in
        let grown :=
          if (i =? cap)%nat then
            match growSlice t (hp s) p i cap with
            | Some (d, cap', H) => option_map (fun H => (Some d, H)) (store H a (hdr (Some d) i cap'))
            | None => None
            end
          else Some (p, hp s) in
        dbind grown (fun g => let '(p, H) := g in
        dbind (index p i (alignedSize t)) (fun e =>
        match udec fuel c' (with_hp s H) b e with
        | DRet s n None =>
          dbind (store (hp s) (shift a 8) (len_cells (i + 1))) (fun H => DRet (with_hp s H) n None)
        | r => r
        end)))
    | BStruct k i =>                                     (* walker.go:107-118 *)
      dbind (ld_ptr (hp s) a) (fun p =>
        let v :=
          match p with
          | Some a' => Some (a', hp s)
          | None =>
            let '(x, H) := alloc (hp s) (OMem (zeros (ssize k))) in
            option_map (fun H => ((x, O), H)) (store H a (ptr_cells (Some (x, O))))
          end in
        dbind v (fun v => let '(a', H) := v in
        let s := with_hp s H in
        let '(_, n, e) := decodeVarint b in
        match e with
        | Some e => DRet s n (Some e)
        | None =>
          match from_ b n with
          | None => DCrash Bounds
          | Some b' =>
            match udecs fuel k i s b' 0 a' with
            | DRet s l e => DRet s (n + l) e
            | r => r
            end
          end
        end))
    | BMap _ _ _ k i =>                                  (* map.go:117-143 *)
      dbind (ld_ptr (hp s) a) (fun p =>
        let m :=
          match p with
          | Some _ => Some (hp s)
          | None => let '(x, H) := alloc (hp s) (OMap []) in store H a (ptr_cells (Some (x, O)))
          end in
        dbind m (fun H =>
        let s := with_hp s H in
        if (zlen b =? 0)%Z then DRet s 0 None
        else
          let '(en, s) := get_entry s k in
          let '(_, nl, e) := decodeVarint b in
          match e with
          | Some e => DRet s 0 (Some e)
          | None =>
            match from_ b nl with
            | None => DCrash Bounds
            | Some b' =>
              match udecs fuel k i s b' 0 en with
              | DRet s n e =>
                let H :=
                  match e, k with
                  | Some _, _ => Some (hp s)
                  | None, SEntry key val _ _ =>
                    match ld_ptr (hp s) a with
                    | Some (Some (m, O)) =>
                      match mapassign key val (hp s) m en with
                      | Some (v, H) => move H (v, O) (shift en (foffset k 1)) (tsize val)
                      | None => None
                      end
                    | _ => None
                    end
                  | None, _ => None
                  end in
                dbind H (fun H =>
                dbind (store H en (zeros (ssize k))) (fun H =>
                DRet {| hp := H; pl := (k, en) :: pl s |} (n + nl) e))
              | r => r
              end
            end
          end))
    end
  end
(** structInfo.decode, struct.go:56-149, from [offset] on, for the struct of
    type [k] at [a]. *)
with udecs (fuel : nat) (k : skey) (i : I) (s : ust) (b : bytes) (offset : Z) (a : addr) {struct fuel} : dres ust :=
  match fuel with
  | O => DFuel
  | S fuel =>
    if (offset <? zlen b)%Z then
      match from_ b offset with
      | None => DCrash Bounds
      | Some tl =>
        let '(fn, wt, n, e) := decodeTag tl in
        let offset := (offset + n)%Z in
        match e with
        | Some e => DRet s offset (Some e)
        | None =>
          match lookup_field (iget i) fn with
          | None =>
            match skip_unknown b offset wt with
            | CR c => DCrash c
            | OK (offset, Some e) => DRet s offset (Some (fieldError fn wt e))
            | OK (offset, None) => udecs fuel k i s b offset a
            end
          | Some f =>
            if negb (wt =? wireType f)%N then
              DRet s offset (Some (fieldError fn wt (ErrExpectedWireType (wireType f))))
            else
              match field_data b offset wt with
              | FCrash => DCrash Bounds
              | FErr offset e => DRet s offset (Some (fieldError fn wt e))
              | FData data =>
                match udec fuel (f_codec f) s data (field_addr k a f) with
                | DRet s n e =>
                  let offset := (offset + n)%Z in
                  match e with
                  | Some e => DRet s offset (Some (fieldError fn wt e))
                  | None => udecs fuel k i s b offset a
                  end
                | r => r
                end
              end
          end
        end
      end
    else DRet s offset None
  end.
End Codec.

(** ** proto.go:15-61 for a pointer to a struct of type [k] *)
Section Api.
Variable D : decls.
Variable other : nat -> nat -> nat * nat.
Definition uSize (fuel : nat) (k : skey) (H : heap) (a : addr) (s : gstate) : api Z * gstate :=
  with_info D k s (fun i s => usizes (hlook s) (higet s) D other fuel k i H a).
Definition uMarshal (fuel : nat) (k : skey) (H : heap) (a : addr) (s : gstate) : api (option bytes * option err) * gstate :=
  with_info D k s (fun i s =>
    abind (usizes (hlook s) (higet s) D other fuel k i H a) (fun _ =>
    abind (uencs (hlook s) (higet s) D other fuel k i H [] a) (fun b => Returns (Some b, None)))).
Definition uUnmarshal (b : bytes) (k : skey) (u : ust) (a : addr) (s : gstate) : api (ust * option err) * gstate :=
  if (zlen b =? 0)%Z then (Returns (u, None), s)
  else
    with_info D k s (fun i s =>
      match udecs (hlook s) (higet s) D other (decode_fuel D b) k i u b 0 a with
      | DRet u n (Some e) => Returns (u, Some e)
      | DRet u n None => Returns (u, if (n <? zlen b)%Z then Some ErrShortRead else None)
      | DCrash c => Panics c
      | DFuel => Diverges
      end).
End Api.
End Unsafe.
