(** Sizing and encoding with a counter: one unit for every call of a codec's size
    or encode function. The definitions of Codec.v are repeated with the counter;
    CallFacts.v proves that they compute the same. *)
From Verif Require Import Base Wire GoType Leaf Codec Tag Walker Api.
Local Open Scope Z_scope.

(** A computation, and how many calls it makes until it is done or crashes. *)
Definition cnt (A : Type) : Type := (Z * res A)%type.
Definition cret {A} (r : res A) : cnt A := (0, r).
Definition cbind {A B} (x : cnt A) (k : A -> cnt B) : cnt B :=
  match x with
  | (n, OK a) => let '(m, r) := k a in (n + m, r)
  | (n, CR c) => (n, CR c)
  end.
(** a call *)
Definition call {A} (x : cnt A) : cnt A := let '(n, r) := x in (1 + n, r).
Notation "x <~ e ;; k" := (cbind e (fun x => k)) (at level 61, e at next level, right associativity).

Section Calls.
Context {R I : Type}.
Variable look : R -> cbody R I.
Variable iget : I -> sinfo R.

(** struct.go:40-43 / 50-52 *)
Fixpoint cfields_size (sub : nat -> option (R -> fmeta -> cnt Z)) (fs : list (sfield R)) : cnt Z :=
  match fs with
  | [] => cret (OK 0)
  | f :: fs =>
    n <~ match sub (f_idx f) with Some g => g (f_codec f) (f_meta f) | None => cret (CR Confused) end ;;
    m <~ cfields_size sub fs ;;
    cret (OK (n + m))
  end.
Fixpoint cfields_encode (sub : nat -> option (bytes -> R -> fmeta -> cnt bytes)) (b : bytes) (fs : list (sfield R)) : cnt bytes :=
  match fs with
  | [] => cret (OK b)
  | f :: fs =>
    b <~ match sub (f_idx f) with Some g => g b (f_codec f) (f_meta f) | None => cret (CR Confused) end ;;
    cfields_encode sub b fs
  end.
(** slice.go:31-43 *)
Fixpoint csum (l : list (cnt Z)) : cnt Z :=
  match l with
  | [] => cret (OK 0)
  | r :: l => n <~ r ;; m <~ csum l ;; cret (OK (n + m))
  end.
(** slice.go:45-56 *)
Fixpoint cchain (b : bytes) (l : list (bytes -> cnt bytes)) : cnt bytes :=
  match l with
  | [] => cret (OK b)
  | g :: l => b <~ g b ;; cchain b l
  end.

(** [codec.size] *)
Fixpoint csz (v : val) (c : R) (f : fmeta) {struct v} : cnt Z :=
  call match look c with
  | BNil => cret (CR NilFunc)
  | BStatic s => cret (l_size (static s) v f)
  | BPtr _ c' =>                                         (* walker.go:342-350 *)
    match v with
    | VPtr None => cret (OK 0)
    | VPtr (Some x) => csz x c' f
    | _ => cret (CR Confused)
    end
  | BSlice _ c' =>                                       (* slice.go:31-43 *)
    match v with
    | VSlice _ items _ => csum (map (fun x => csz x c' f) items)
    | _ => cret (CR Confused)
    end
  | BStruct _ i =>                                       (* walker.go:88-96 *)
    match v with
    | VPtr None => cret (OK 0)
    | VPtr (Some x) =>
      let subs := match x with VStruct fs => map (fun y => csz y) fs | _ => [] end in
      n <~ cfields_size (nth_error subs) (i_fields (iget i)) ;;
      cret (OK (n + (sizeOfVarint (u64 n) + tagsize f)))
    | _ => cret (CR Confused)
    end
  | BMap tag kf vf _ _ =>                                (* map.go:30-56 *)
    match v with
    | VMap m =>
      let mapTagSize := sizeOfVarint tag in
      n <~ csum match m with None => [] | Some l => map (fun kv => match kv with (k, x) =>
             keySize <~ csz k (f_codec kf) (f_meta kf) ;;
             valSize <~ csz x (f_codec vf) (f_meta vf) ;;
             cret (OK (mapTagSize + sizeOfVarint (u64 (keySize + valSize)) + keySize + valSize)) end) l
             end ;;
      cret (OK (if n =? 0 then mapTagSize + 1 else n))
    | _ => cret (CR Confused)
    end
  end.
(** structInfo.size, struct.go:35-44, on a non-nil struct pointer. *)
Definition cstruct_size (i : I) (x : val) : cnt Z :=
  cfields_size (fun j => option_map (fun y => csz y) (get_field x j)) (i_fields (iget i)).

(** [codec.encode] *)
Fixpoint cenc (v : val) (b : bytes) (c : R) (f : fmeta) {struct v} : cnt bytes :=
  call match look c with
  | BNil => cret (CR NilFunc)
  | BStatic s => cret (l_encode (static s) b v f)
  | BPtr _ c' =>                                         (* walker.go:352-360 *)
    match v with
    | VPtr None => cret (OK b)
    | VPtr (Some x) => cenc x b c' f
    | _ => cret (CR Confused)
    end
  | BSlice _ c' =>                                       (* slice.go:45-56 *)
    match v with
    | VSlice _ items _ => cchain b (map (fun x b => cenc x b c' f) items)
    | _ => cret (CR Confused)
    end
  | BStruct _ i =>                                       (* walker.go:97-106 *)
    match v with
    | VPtr None => cret (OK b)
    | VPtr (Some x) =>
      let subs := match x with VStruct fs => map (fun y => cenc y) fs | _ => [] end in
      n <~ cstruct_size i x ;;
      cfields_encode (nth_error subs) (appendVarint (appendVarint b (wiretag f)) (u64 n)) (i_fields (iget i))
    | _ => cret (CR Confused)
    end
  | BMap tag kf vf _ _ =>                                (* map.go:58-94 *)
    match v with
    | VMap m =>
      let mapTag := appendVarint [] tag in
      b' <~ cchain b match m with None => [] | Some l => map (fun kv b => match kv with (k, x) =>
             keySize <~ csz k (f_codec kf) (f_meta kf) ;;
             valSize <~ csz x (f_codec kf) (f_meta vf) ;;  (* map.go:80: keyCodec.size *)
             b <~ cenc k (appendVarint (b ++ mapTag) (u64 (keySize + valSize))) (f_codec kf) (f_meta kf) ;;
             cenc x b (f_codec vf) (f_meta vf) end) l
             end ;;
      cret (OK (if zlen b' =? zlen b then b' ++ (mapTag ++ [0%N]) else b'))
    | _ => cret (CR Confused)
    end
  end.
(** structInfo.encode, struct.go:46-54, on a non-nil struct pointer. *)
Definition cstruct_encode (i : I) (b : bytes) (x : val) : cnt bytes :=
  cfields_encode (fun j => option_map (fun y => cenc y) (get_field x j)) b (i_fields (iget i)).
End Calls.

(** Size and Marshal (proto.go:15-23 and 25-35) of a pointer to the struct [x]
    with the counter. What building the codecs of a type that is used for the
    first time costs is not counted. *)
Definition with_count {A} (D : decls) (k : skey) (s : gstate) (f : iref -> gstate -> cnt A) : Z * api A :=
  match run (cachedStructInfoOf D (walk_fuel D) k) s with
  | (Done i, s') => let '(n, r) := f i s' in (n, api_res r)
  | (Panicked, s') => (0, Panics Unsupported)
  | (OutOfFuel, s') => (0, Diverges)
  end.
Definition Size_counted (D : decls) (k : skey) (x : val) (s : gstate) : Z * api Z :=
  with_count D k s (fun i s => cstruct_size (hlook s) (higet s) i x).
Definition Marshal_counted (D : decls) (k : skey) (x : val) (s : gstate) : Z * api (option bytes * option err) :=
  with_count D k s (fun i s =>
    n <~ cstruct_size (hlook s) (higet s) i x ;;
    b <~ cstruct_encode (hlook s) (higet s) i [] x ;;
    cret (OK (Some b, None))).
