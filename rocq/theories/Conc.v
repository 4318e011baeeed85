(** Several goroutines calling Size, Marshal and Unmarshal at the same time.

    The programs below are the functions of Codec.v and Api.v once more, with
    every look at shared memory as an operation of its own: calling a codec
    reads its function fields ([ReadCell]), and structInfo.size, encode and
    decode read info.fields or info.fieldIndex ([ReadInfo]). Between any two
    operations other goroutines may run. ConcFacts.v proves that executed alone
    each program is the function of Codec.v or Api.v it copies.

    Simplifications: an operation is atomic and memory sequentially consistent
    (Go promises this for programs without data races, see PropsRace.v); the messages passed to
    the calls are not shared between goroutines. *)
From Verif Require Import Base Wire GoType Leaf Codec Tag Walker Api.
Local Open Scope Z_scope.

Definition rbindp {A B} (p : prog (res A)) (k : A -> prog (res B)) : prog (res B) :=
  pbind p (fun r => match r with OK a => k a | CR c => Ret (CR c) end).
Notation "'let!' p := e 'in' k" := (rbindp e (fun p => k))
  (at level 200, p pattern, e at level 100, k at level 200).

(** struct.go:40-43, 50-52 *)
Fixpoint p_fields_size (sub : nat -> option (cref -> fmeta -> prog (res Z))) (fs : list hfield) : prog (res Z) :=
  match fs with
  | [] => Ret (OK 0)
  | f :: fs =>
    let! n := match sub (f_idx f) with Some g => g (f_codec f) (f_meta f) | None => Ret (CR Confused) end in
    let! m := p_fields_size sub fs in
    Ret (OK (n + m))
  end.
Fixpoint p_fields_encode (sub : nat -> option (bytes -> cref -> fmeta -> prog (res bytes)))
  (b : bytes) (fs : list hfield) : prog (res bytes) :=
  match fs with
  | [] => Ret (OK b)
  | f :: fs =>
    let! b := match sub (f_idx f) with Some g => g b (f_codec f) (f_meta f) | None => Ret (CR Confused) end in
    p_fields_encode sub b fs
  end.
(** slice.go:31-43 *)
Fixpoint p_sum (l : list (prog (res Z))) : prog (res Z) :=
  match l with
  | [] => Ret (OK 0)
  | r :: l => let! n := r in let! m := p_sum l in Ret (OK (n + m))
  end.
(** slice.go:45-56 *)
Fixpoint p_chain (b : bytes) (l : list (bytes -> prog (res bytes))) : prog (res bytes) :=
  match l with
  | [] => Ret (OK b)
  | g :: l => let! b := g b in p_chain b l
  end.

(** [codec.size]; as [sz]. *)
Fixpoint p_sz (v : val) (c : cref) (f : fmeta) {struct v} : prog (res Z) :=
  let* body := readCell c in
  match body with
  | BNil => Ret (CR NilFunc)
  | BStatic s => Ret (l_size (static s) v f)
  | BPtr _ c' =>                                         (* walker.go:342-350 *)
    match v with
    | VPtr None => Ret (OK 0)
    | VPtr (Some x) => p_sz x c' f
    | _ => Ret (CR Confused)
    end
  | BSlice _ c' =>                                       (* slice.go:31-43 *)
    match v with
    | VSlice _ items _ => p_sum (map (fun x => p_sz x c' f) items)
    | _ => Ret (CR Confused)
    end
  | BStruct _ i =>                                       (* walker.go:88-96 *)
    match v with
    | VPtr None => Ret (OK 0)
    | VPtr (Some x) =>
      let subs := match x with VStruct fs => map (fun y => p_sz y) fs | _ => [] end in
      let* info := readInfo i in
      let! n := p_fields_size (nth_error subs) (i_fields info) in
      Ret (OK (n + (sizeOfVarint (u64 n) + tagsize f)))
    | _ => Ret (CR Confused)
    end
  | BMap tag kf vf _ _ =>                                (* map.go:30-56 *)
    match v with
    | VMap m =>
      let mapTagSize := sizeOfVarint tag in
      let! n := p_sum match m with None => [] | Some l => map (fun kv => match kv with (k, x) =>
             let! keySize := p_sz k (f_codec kf) (f_meta kf) in
             let! valSize := p_sz x (f_codec vf) (f_meta vf) in
             Ret (OK (mapTagSize + sizeOfVarint (u64 (keySize + valSize)) + keySize + valSize)) end) l
             end in
      Ret (OK (if n =? 0 then mapTagSize + 1 else n))
    | _ => Ret (CR Confused)
    end
  end.

(** structInfo.size, struct.go:35-44 *)
Definition p_struct_size (i : iref) (x : val) : prog (res Z) :=
  let* info := readInfo i in
  p_fields_size (fun j => option_map (fun y => p_sz y) (get_field x j)) (i_fields info).

(** [codec.encode]; as [enc]. *)
Fixpoint p_enc (v : val) (b : bytes) (c : cref) (f : fmeta) {struct v} : prog (res bytes) :=
  let* body := readCell c in
  match body with
  | BNil => Ret (CR NilFunc)
  | BStatic s => Ret (l_encode (static s) b v f)
  | BPtr _ c' =>                                         (* walker.go:352-360 *)
    match v with
    | VPtr None => Ret (OK b)
    | VPtr (Some x) => p_enc x b c' f
    | _ => Ret (CR Confused)
    end
  | BSlice _ c' =>                                       (* slice.go:45-56 *)
    match v with
    | VSlice _ items _ => p_chain b (map (fun x b => p_enc x b c' f) items)
    | _ => Ret (CR Confused)
    end
  | BStruct _ i =>                                       (* walker.go:97-106 *)
    match v with
    | VPtr None => Ret (OK b)
    | VPtr (Some x) =>
      let subs := match x with VStruct fs => map (fun y => p_enc y) fs | _ => [] end in
      let! n := p_struct_size i x in
      let* info := readInfo i in
      p_fields_encode (nth_error subs) (appendVarint (appendVarint b (wiretag f)) (u64 n)) (i_fields info)
    | _ => Ret (CR Confused)
    end
  | BMap tag kf vf _ _ =>                                (* map.go:58-94 *)
    match v with
    | VMap m =>
      let mapTag := appendVarint [] tag in
      let! b' := p_chain b match m with None => [] | Some l => map (fun kv b => match kv with (k, x) =>
             let! keySize := p_sz k (f_codec kf) (f_meta kf) in
             let! valSize := p_sz x (f_codec kf) (f_meta vf) in   (* map.go:80 *)
             let! b := p_enc k (appendVarint (b ++ mapTag) (u64 (keySize + valSize))) (f_codec kf) (f_meta kf) in
             p_enc x b (f_codec vf) (f_meta vf) end) l
             end in
      Ret (OK (if zlen b' =? zlen b then b' ++ (mapTag ++ [0%N]) else b'))
    | _ => Ret (CR Confused)
    end
  end.

(** structInfo.encode, struct.go:46-54 *)
Definition p_struct_encode (i : iref) (b : bytes) (x : val) : prog (res bytes) :=
  let* info := readInfo i in
  p_fields_encode (fun j => option_map (fun y => p_enc y) (get_field x j)) b (i_fields info).

Section D.
Variable D : decls.

(** [codec.decode] and structInfo.decode; as [dec] and [decs]. The field index
    is read anew for every field (struct.go:65). *)
Fixpoint p_dec (fuel : nat) (c : cref) (b : bytes) (v : val) {struct fuel} : prog (dres val) :=
  match fuel with
  | O => Ret DFuel
  | S fuel =>
    let* body := readCell c in
    match body with
    | BNil => Ret (DCrash NilFunc)
    | BStatic s => Ret (l_decode (static s) b v)
    | BPtr t c' =>                                       (* walker.go:362-371 *)
      match v with
      | VPtr o =>
        let x := match o with Some x => x | None => zero t end in
        let* r := p_dec fuel c' b x in
        Ret (dmap (fun x => VPtr (Some x)) r)
      | _ => Ret (DCrash Confused)
      end
    | BSlice t c' =>                                     (* slice.go:58-75 *)
      match v with
      | VSlice nn items spare =>
        let grown := match spare with [] => true | _ => false end in
        let spare := match spare with [] => grow_spare t (length items) | _ => spare end in
        match spare with
        | [] => Ret (DCrash Bounds)
        | slot :: spare =>
          let* r := p_dec fuel c' b slot in
          Ret match r with
          | DRet x n None => DRet (VSlice (nn || grown) (items ++ [x]) spare) n None
          | DRet x n (Some e) => DRet (VSlice (nn || grown) items (x :: spare)) n (Some e)
          | r => r
          end
        end
      | _ => Ret (DCrash Confused)
      end
    | BStruct k i =>                                     (* walker.go:107-118 *)
      match v with
      | VPtr o =>
        let x := match o with Some x => x | None => zero_struct D k end in
        let '(_, n, e) := decodeVarint b in
        match e with
        | Some e => Ret (DRet (VPtr (Some x)) n (Some e))
        | None =>
          match from_ b n with
          | None => Ret (DCrash Bounds)
          | Some b' =>
            let* r := p_decs fuel i b' 0 x in
            Ret match r with
            | DRet x l e => DRet (VPtr (Some x)) (n + l) e
            | r => r
            end
          end
        end
      | _ => Ret (DCrash Confused)
      end
    | BMap _ _ _ k i =>                                  (* map.go:117-143 *)
      match v with
      | VMap m =>
        let m := match m with Some l => l | None => [] end in
        if zlen b =? 0 then Ret (DRet (VMap (Some m)) 0 None)
        else
          let s := zero_struct D k in
          let '(_, nl, e) := decodeVarint b in
          match e with
          | Some e => Ret (DRet (VMap (Some m)) 0 (Some e))
          | None =>
            match from_ b nl with
            | None => Ret (DCrash Bounds)
            | Some b' =>
              let* r := p_decs fuel i b' 0 s in
              Ret match r with
              | DRet (VStruct [key; x]) n None => DRet (VMap (Some (map_assign m key x))) (n + nl) None
              | DRet _ n None => DCrash Confused
              | DRet _ n (Some e) => DRet (VMap (Some m)) (n + nl) (Some e)
              | r => r
              end
            end
          end
      | _ => Ret (DCrash Confused)
      end
    end
  end
(** structInfo.decode, struct.go:56-149 *)
with p_decs (fuel : nat) (i : iref) (b : bytes) (offset : Z) (x : val) {struct fuel} : prog (dres val) :=
  match fuel with
  | O => Ret DFuel
  | S fuel =>
    if offset <? zlen b then
      match from_ b offset with
      | None => Ret (DCrash Bounds)
      | Some tl =>
        let '(fn, wt, n, e) := decodeTag tl in
        let offset := offset + n in
        match e with
        | Some e => Ret (DRet x offset (Some e))
        | None =>
          let* info := readInfo i in
          match lookup_field info fn with
          | None =>
            match skip_unknown b offset wt with
            | CR c => Ret (DCrash c)
            | OK (offset, Some e) => Ret (DRet x offset (Some (fieldError fn wt e)))
            | OK (offset, None) => p_decs fuel i b offset x
            end
          | Some f =>
            if negb (wt =? wireType f)%N then
              Ret (DRet x offset (Some (fieldError fn wt (ErrExpectedWireType (wireType f)))))
            else
              match field_data b offset wt with
              | FCrash => Ret (DCrash Bounds)
              | FErr offset e => Ret (DRet x offset (Some (fieldError fn wt e)))
              | FData data =>
                match get_field x (f_idx f) with
                | None => Ret (DCrash Confused)
                | Some y =>
                  let* r := p_dec fuel (f_codec f) data y in
                  match r with
                  | DRet y n e =>
                    let x := set_field x (f_idx f) y in
                    let offset := offset + n in
                    match e with
                    | Some e => Ret (DRet x offset (Some (fieldError fn wt e)))
                    | None => p_decs fuel i b offset x
                    end
                  | r => Ret r
                  end
                end
              end
          end
        end
      end
    else Ret (DRet x offset None)
  end.

(** ** The exported functions, proto.go:15-61 *)
Definition p_info (k : skey) : prog iref := cachedStructInfoOf D (walk_fuel D) k.

Definition p_info_size (i : iref) (p : option val) : prog (res Z) :=
  match p with None => Ret (OK 0) | Some x => p_struct_size i x end.
Definition p_info_encode (i : iref) (b : bytes) (p : option val) : prog (res bytes) :=
  match p with None => Ret (OK b) | Some x => p_struct_encode i b x end.

Definition p_Size (v : iface) : prog (api Z) :=
  match v with
  | INil => Ret (Panics NilDeref)
  | INonPtr => Ret (Panics Unsupported)
  | IPtrOther _ => Ret (Panics Unsupported)
  | IPtr k p =>
    let* i := p_info k in
    let* r := p_info_size i p in
    Ret (api_res r)
  end.

Definition p_Marshal (v : iface) : prog (api (option bytes * option err)) :=
  match v with
  | INil => Ret (Panics NilDeref)
  | INonPtr => Ret (Returns (None, Some ErrNotAPointer))
  | IPtrOther _ => Ret (Panics Unsupported)
  | IPtr k p =>
    let* i := p_info k in
    let* r := (let! n := p_info_size i p in
               let! b := p_info_encode i [] p in
               Ret (OK (Some b, None))) in
    Ret (api_res r)
  end.

Definition p_Unmarshal (b : bytes) (v : iface) : prog (api (iface * option err)) :=
  if zlen b =? 0 then Ret (Returns (v, None))
  else
    match v with
    | INil => Ret (Panics NilDeref)
    | INonPtr => Ret (Returns (v, Some InvalidUnmarshalError))
    | IPtrOther _ => Ret (Returns (v, Some InvalidUnmarshalError))
    | IPtr k None => Ret (Returns (v, Some InvalidUnmarshalError))
    | IPtr k (Some x) =>
      let* i := p_info k in
      let* r := p_decs (decode_fuel D b) i b 0 x in
      Ret match r with
      | DRet x n (Some e) => Returns (IPtr k (Some x), Some e)
      | DRet x n None =>
        Returns (IPtr k (Some x), if n <? zlen b then Some ErrShortRead else None)
      | DCrash c => Panics c
      | DFuel => Diverges
      end
    end.

(** ** Goroutines *)
Inductive call := CSize (v : iface) | CMarshal (v : iface) | CUnmarshal (b : bytes) (v : iface).
Inductive answer :=
| ASize (r : api Z)
| AMarshal (r : api (option bytes * option err))
| AUnmarshal (r : api (iface * option err)).

Definition p_call (c : call) : prog answer :=
  match c with
  | CSize v => let* r := p_Size v in Ret (ASize r)
  | CMarshal v => let* r := p_Marshal v in Ret (AMarshal r)
  | CUnmarshal b v => let* r := p_Unmarshal b v in Ret (AUnmarshal r)
  end.
(** The same call with the caches in state [s] and nothing else running. *)
Definition seq_call (c : call) (s : gstate) : answer * gstate :=
  match c with
  | CSize v => let '(r, s) := Size D v s in (ASize r, s)
  | CMarshal v => let '(r, s) := Marshal D v s in (AMarshal r, s)
  | CUnmarshal b v => let '(r, s) := Unmarshal D b v s in (AUnmarshal r, s)
  end.

(** A goroutine makes some calls one after the other. A walker panic (a type
    that is not supported) ends it: [Panic]. *)
Fixpoint p_calls (cs : list call) : prog (list answer) :=
  match cs with
  | [] => Ret []
  | c :: cs => let* a := p_call c in let* l := p_calls cs in Ret (a :: l)
  end.
End D.

(** One step of some goroutine, any number of steps. *)
Notation config := (list (prog (list answer)) * gstate)%type.
Inductive cstep : config -> config -> Prop :=
| cstep_do pre o k post s :
    cstep (pre ++ Do o k :: post, s) (pre ++ k (fst (exec o s)) :: post, snd (exec o s)).
Inductive csteps : config -> config -> Prop :=
| csteps_refl c : csteps c c
| csteps_step c1 c2 c3 : cstep c1 c2 -> csteps c2 c3 -> csteps c1 c3.
