(** Decoding with a counter: one unit for every call of a codec's decode function
    and for every round of the loop of structInfo.decode (struct.go:56-149), and
    one unit for every byte of memory allocated. The definitions of Codec.v are
    repeated with the counter; CostFacts.v proves that they compute the same. *)
From Verif Require Import Base Wire GoType Leaf Codec Tag Walker Api SpecCost.
Local Open Scope Z_scope.

(** The bytes that the leaf codecs copy out of the input: normal_codec.go:66-74
    (append to an empty slice) and normal_codec.go:100-108 (conversion to a
    string); option_codec.go:57-61 calls the latter. *)
Definition copied (s : scid) (b : bytes) : Z :=
  match s with
  | SCBytes | SC WString _ =>
    match decodeVarlen b with OK (Some d, _, _) => zlen d | _ => 0 end
  | _ => 0
  end.

(** A computation and what it costs. *)
Definition dcnt : Type := (Z * dres val)%type.
Definition spend (n : Z) (x : dcnt) : dcnt := let '(m, r) := x in (n + m, r).
Definition free (r : dres val) : dcnt := (0, r).
Definition dthen (x : dcnt) (k : dres val -> dcnt) : dcnt := let '(m, r) := x in spend m (k r).

Section Cost.
Context {R I : Type}.
Variable look : R -> cbody R I.
Variable iget : I -> sinfo R.
Variable D : decls.

(** [codec.decode] and structInfo.decode. Error values are not counted: there is
    at most one for each call. *)
Fixpoint cdec (fuel : nat) (c : R) (b : bytes) (v : val) {struct fuel} : dcnt :=
  match fuel with
  | O => free DFuel
  | S fuel =>
    spend 1 match look c with
    | BNil => free (DCrash NilFunc)
    | BStatic s => spend (copied s b) (free (l_decode (static s) b v))
    | BPtr t c' =>                                       (* walker.go:362-371: a new element when the pointer is nil *)
      match v with
      | VPtr o =>
        let x := match o with Some x => x | None => zero t end in
        spend match o with Some _ => 0 | None => mem (zero t) end
          (dthen (cdec fuel c' b x) (fun r => free (dmap (fun x => VPtr (Some x)) r)))
      | _ => free (DCrash Confused)
      end
    | BSlice t c' =>                                     (* slice.go:58-75; slice.go:90-99: a new array of twice the capacity when there is no room *)
      match v with
      | VSlice nn items spare =>
        let grown := match spare with [] => true | _ => false end in
        spend (if grown then (zlen items + zlen (grow_spare t (length items))) * mem (zero t) else 0)
        match match spare with [] => grow_spare t (length items) | _ => spare end with
        | [] => free (DCrash Bounds)
        | slot :: spare =>
          dthen (cdec fuel c' b slot) (fun r => free
            match r with
            | DRet x n None => DRet (VSlice (nn || grown) (items ++ [x]) spare) n None
            | DRet x n (Some e) => DRet (VSlice (nn || grown) items (x :: spare)) n (Some e)
            | r => r
            end)
        end
      | _ => free (DCrash Confused)
      end
    | BStruct k i =>                                     (* walker.go:107-118: a new struct when the pointer is nil *)
      match v with
      | VPtr o =>
        let x := match o with Some x => x | None => zero_struct D k end in
        spend match o with Some _ => 0 | None => mem (zero_struct D k) end
        (let '(_, n, e) := decodeVarint b in
        match e with
        | Some e => free (DRet (VPtr (Some x)) n (Some e))
        | None =>
          match from_ b n with
          | None => free (DCrash Bounds)
          | Some b' =>
            dthen (cdecs fuel i b' 0 x) (fun r => free
              match r with
              | DRet x l e => DRet (VPtr (Some x)) (n + l) e
              | r => r
              end)
          end
        end)
      | _ => free (DCrash Confused)
      end
    | BMap _ _ _ k i =>                                  (* map.go:117-143: a new map with room for 10 entries when the map is nil, *)
      match v with                                       (* an entry struct (as if the pool were empty) and an entry in the map *)
      | VMap m =>
        spend match m with Some _ => 0 | None => 10 * mem (zero_struct D k) end
        (let m := match m with Some l => l | None => [] end in
        if zlen b =? 0 then free (DRet (VMap (Some m)) 0 None)
        else
          spend (2 * mem (zero_struct D k))
          (let s := zero_struct D k in
          let '(_, nl, e) := decodeVarint b in
          match e with
          | Some e => free (DRet (VMap (Some m)) 0 (Some e))
          | None =>
            match from_ b nl with
            | None => free (DCrash Bounds)
            | Some b' =>
              dthen (cdecs fuel i b' 0 s) (fun r => free
                match r with
                | DRet (VStruct [key; x]) n None => DRet (VMap (Some (map_assign m key x))) (n + nl) None
                | DRet _ n None => DCrash Confused
                | DRet _ n (Some e) => DRet (VMap (Some m)) (n + nl) (Some e)
                | r => r
                end)
            end
          end))
      | _ => free (DCrash Confused)
      end
    end
  end
with cdecs (fuel : nat) (i : I) (b : bytes) (offset : Z) (x : val) {struct fuel} : dcnt :=
  match fuel with
  | O => free DFuel
  | S fuel =>
    spend 1
    (if offset <? zlen b then
      match from_ b offset with
      | None => free (DCrash Bounds)
      | Some tl =>
        let '(fn, wt, n, e) := decodeTag tl in
        let offset := offset + n in
        match e with
        | Some e => free (DRet x offset (Some e))
        | None =>
          match lookup_field (iget i) fn with
          | None =>
            match skip_unknown b offset wt with
            | CR c => free (DCrash c)
            | OK (offset, Some e) => free (DRet x offset (Some (fieldError fn wt e)))
            | OK (offset, None) => cdecs fuel i b offset x
            end
          | Some f =>
            if negb (wt =? wireType f)%N then
              free (DRet x offset (Some (fieldError fn wt (ErrExpectedWireType (wireType f)))))
            else
              match field_data b offset wt with
              | FCrash => free (DCrash Bounds)
              | FErr offset e => free (DRet x offset (Some (fieldError fn wt e)))
              | FData data =>
                match get_field x (f_idx f) with
                | None => free (DCrash Confused)
                | Some y =>
                  dthen (cdec fuel (f_codec f) data y) (fun r =>
                    match r with
                    | DRet y n e =>
                      let x := set_field x (f_idx f) y in
                      let offset := offset + n in
                      match e with
                      | Some e => free (DRet x offset (Some (fieldError fn wt e)))
                      | None => cdecs fuel i b offset x
                      end
                    | r => free r
                    end)
                end
              end
          end
        end
      end
    else free (DRet x offset None))
  end.
End Cost.

(** Unmarshal (proto.go:37-61) of [b] into a pointer to the struct [x] with the
    counter. What building the codecs of a type that is used for the first time
    costs is not counted. *)
Definition Unmarshal_counted (D : decls) (b : bytes) (k : skey) (x : val) (s : gstate) : Z * api (iface * option err) :=
  if zlen b =? 0 then (0, Returns (IPtr k (Some x), None))
  else
    match run (cachedStructInfoOf D (walk_fuel D) k) s with
    | (Done i, s') =>
      let '(n, r) := cdecs (hlook s') (higet s') D (decode_fuel D b) i b 0 x in
      (n, match r with
          | DRet x n (Some e) => Returns (IPtr k (Some x), Some e)
          | DRet x n None => Returns (IPtr k (Some x), if n <? zlen b then Some ErrShortRead else None)
          | DCrash c => Panics c
          | DFuel => Diverges
          end)
    | (Panicked, s') => (0, Panics Unsupported)
    | (OutOfFuel, s') => (0, Diverges)
    end.
Definition unmarshal_work (D : decls) (b : bytes) (k : skey) (x : val) (s : gstate) : Z := fst (Unmarshal_counted D b k x s).
