(** How deeply decoding recurses: the number of activations of structInfo.decode
    (struct.go:56-149) below the one that Unmarshal calls. *)
From Verif Require Import Base Wire GoType Leaf Codec Tag Walker Api.
Local Open Scope Z_scope.

Section Depth.
Context {R I : Type}.
Variable look : R -> cbody R I.
Variable iget : I -> sinfo R.
Variable D : decls.

(** The deepest nesting reached while [dec fuel c b v] / [decs fuel i b offset x]
    (Codec.v) runs: the same calls in the same order, counting. The call of a
    message or map codec reaches structInfo.decode when its length prefix is
    good (walker.go:107-118, map.go:117-143). *)
Fixpoint depth (fuel : nat) (c : R) (b : bytes) (v : val) {struct fuel} : nat :=
  match fuel with
  | O => O
  | S fuel =>
    match look c with
    | BNil | BStatic _ => O
    | BPtr t c' =>
      match v with
      | VPtr o => depth fuel c' b (match o with Some x => x | None => zero t end)
      | _ => O
      end
    | BSlice t c' =>
      match v with
      | VSlice _ items spare =>
        match (match spare with [] => grow_spare t (length items) | _ => spare end) with
        | [] => O
        | slot :: _ => depth fuel c' b slot
        end
      | _ => O
      end
    | BStruct k i =>
      match v with
      | VPtr o =>
        let '(_, n, e) := decodeVarint b in
        match e, from_ b n with
        | None, Some b' => S (depths fuel i b' 0 (match o with Some x => x | None => zero_struct D k end))
        | _, _ => O
        end
      | _ => O
      end
    | BMap _ _ _ k i =>
      match v with
      | VMap _ =>
        if zlen b =? 0 then O
        else
          let '(_, n, e) := decodeVarint b in
          match e, from_ b n with
          | None, Some b' => S (depths fuel i b' 0 (zero_struct D k))
          | _, _ => O
          end
      | _ => O
      end
    end
  end
with depths (fuel : nat) (i : I) (b : bytes) (offset : Z) (x : val) {struct fuel} : nat :=
  match fuel with
  | O => O
  | S fuel =>
    if offset <? zlen b then
      match from_ b offset with
      | None => O
      | Some tl =>
        let '(fn, wt, n, e) := decodeTag tl in
        let offset := offset + n in
        match e with
        | Some e => O
        | None =>
          match lookup_field (iget i) fn with
          | None =>
            match skip_unknown b offset wt with
            | OK (offset, None) => depths fuel i b offset x
            | _ => O
            end
          | Some f =>
            if negb (wt =? wireType f)%N then O
            else
              match field_data b offset wt with
              | FData data =>
                match get_field x (f_idx f) with
                | None => O
                | Some y =>
                  Nat.max (depth fuel (f_codec f) data y)
                    match dec look iget D fuel (f_codec f) data y with
                    | DRet y n None => depths fuel i b (offset + n) (set_field x (f_idx f) y)
                    | _ => O
                    end
                end
              | _ => O
              end
          end
        end
      end
    else O
  end.

(** The same decoder on a stack with room for [d] further activations of
    structInfo.decode; [None]: the stack overflows. Otherwise it is [dec] and
    [decs] of Codec.v, clause by clause. *)
Fixpoint bdec (d fuel : nat) (c : R) (b : bytes) (v : val) {struct fuel} : option (dres val) :=
  match fuel with
  | O => Some DFuel
  | S fuel =>
    match look c with
    | BNil => Some (DCrash NilFunc)
    | BStatic s => Some (l_decode (static s) b v)
    | BPtr t c' =>
      match v with
      | VPtr o =>
        option_map (dmap (fun x => VPtr (Some x))) (bdec d fuel c' b match o with Some x => x | None => zero t end)
      | _ => Some (DCrash Confused)
      end
    | BSlice t c' =>
      match v with
      | VSlice nn items spare =>
        let grown := match spare with [] => true | _ => false end in
        match (match spare with [] => grow_spare t (length items) | _ => spare end) with
        | [] => Some (DCrash Bounds)
        | slot :: spare =>
          option_map (fun r => match r with
          | DRet x n None => DRet (VSlice (nn || grown) (items ++ [x]) spare) n None
          | DRet x n (Some e) => DRet (VSlice (nn || grown) items (x :: spare)) n (Some e)
          | r => r
          end) (bdec d fuel c' b slot)
        end
      | _ => Some (DCrash Confused)
      end
    | BStruct k i =>
      match v with
      | VPtr o =>
        let x := match o with Some x => x | None => zero_struct D k end in
        let '(_, n, e) := decodeVarint b in
        match e, from_ b n, d with
        | Some e, _, _ => Some (DRet (VPtr (Some x)) n (Some e))
        | None, None, _ => Some (DCrash Bounds)
        | None, Some _, O => None
        | None, Some b', S d =>
          option_map (fun r => match r with
          | DRet x l e => DRet (VPtr (Some x)) (n + l) e
          | r => r
          end) (bdecs d fuel i b' 0 x)
        end
      | _ => Some (DCrash Confused)
      end
    | BMap _ _ _ k i =>
      match v with
      | VMap m =>
        let m := match m with Some l => l | None => [] end in
        if zlen b =? 0 then Some (DRet (VMap (Some m)) 0 None)
        else
          let '(_, nl, e) := decodeVarint b in
          match e, from_ b nl, d with
          | Some e, _, _ => Some (DRet (VMap (Some m)) 0 (Some e))
          | None, None, _ => Some (DCrash Bounds)
          | None, Some _, O => None
          | None, Some b', S d =>
            option_map (fun r => match r with
            | DRet (VStruct [key; x]) n None => DRet (VMap (Some (map_assign m key x))) (n + nl) None
            | DRet _ n None => DCrash Confused
            | DRet _ n (Some e) => DRet (VMap (Some m)) (n + nl) (Some e)
            | r => r
            end) (bdecs d fuel i b' 0 (zero_struct D k))
          end
      | _ => Some (DCrash Confused)
      end
    end
  end
with bdecs (d fuel : nat) (i : I) (b : bytes) (offset : Z) (x : val) {struct fuel} : option (dres val) :=
  match fuel with
  | O => Some DFuel
  | S fuel =>
    if offset <? zlen b then
      match from_ b offset with
      | None => Some (DCrash Bounds)
      | Some tl =>
        let '(fn, wt, n, e) := decodeTag tl in
        let offset := offset + n in
        match e with
        | Some e => Some (DRet x offset (Some e))
        | None =>
          match lookup_field (iget i) fn with
          | None =>
            match skip_unknown b offset wt with
            | CR c => Some (DCrash c)
            | OK (offset, Some e) => Some (DRet x offset (Some (fieldError fn wt e)))
            | OK (offset, None) => bdecs d fuel i b offset x
            end
          | Some f =>
            if negb (wt =? wireType f)%N then
              Some (DRet x offset (Some (fieldError fn wt (ErrExpectedWireType (wireType f)))))
            else
              match field_data b offset wt with
              | FCrash => Some (DCrash Bounds)
              | FErr offset e => Some (DRet x offset (Some (fieldError fn wt e)))
              | FData data =>
                match get_field x (f_idx f) with
                | None => Some (DCrash Confused)
                | Some y =>
                  match bdec d fuel (f_codec f) data y with
                  | Some (DRet y n e) =>
                    let x := set_field x (f_idx f) y in
                    let offset := offset + n in
                    match e with
                    | Some e => Some (DRet x offset (Some (fieldError fn wt e)))
                    | None => bdecs d fuel i b offset x
                    end
                  | r => r
                  end
                end
              end
          end
        end
      end
    else Some (DRet x offset None)
  end.
End Depth.

(** Unmarshal (proto.go:37-61) of [b] into a pointer to the struct [x]. *)
Definition unmarshal_depth (D : decls) (b : bytes) (k : skey) (x : val) (s : gstate) : nat :=
  if zlen b =? 0 then O
  else
    match run (cachedStructInfoOf D (walk_fuel D) k) s with
    | (Done i, s') => depths (hlook s') (higet s') D (decode_fuel D b) i b 0 x
    | _ => O
    end.
(** Unmarshal on a stack with room for [d] nested activations below the first. *)
Definition stack_unmarshal (d : nat) (D : decls) (b : bytes) (k : skey) (x : val) (s : gstate) : option (api (iface * option err) * gstate) :=
  if zlen b =? 0 then Some (Returns (IPtr k (Some x), None), s)
  else
    match run (cachedStructInfoOf D (walk_fuel D) k) s with
    | (Done i, s') =>
      option_map (fun r =>
        (match r with
         | DRet x n (Some e) => Returns (IPtr k (Some x), Some e)
         | DRet x n None => Returns (IPtr k (Some x), if n <? zlen b then Some ErrShortRead else None)
         | DCrash c => Panics c
         | DFuel => Diverges
         end, s'))
        (bdecs (hlook s') (higet s') D d (decode_fuel D b) i b 0 x)
    | (Panicked, s') => Some (Panics Unsupported, s')
    | (OutOfFuel, s') => Some (Diverges, s')
    end.
