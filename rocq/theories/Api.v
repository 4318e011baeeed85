(** Model of the exported functions of proto/proto.go:15-74. *)
From Verif Require Import Base Wire GoType Leaf Codec Tag Walker.
Local Open Scope Z_scope.

(** The dynamic values an interface{} argument can hold, as inspect
    (proto.go:68-74) sees them. A nil pointer of any type has [None]. *)
Inductive iface :=
| INil                                       (* untyped nil: reflect.TypeOf is nil *)
| INonPtr                                    (* Kind() != Ptr *)
| IPtrOther (isnil : bool)                   (* pointer to something else than a struct *)
| IPtr (k : skey) (p : option val).          (* pointer to a struct of type [k] *)

(** What a call does: return, or panic. [Diverges] is fuel exhaustion (excluded
    by theorems). *)
Inductive api (A : Type) := Returns (a : A) | Panics (c : crash) | Diverges.
Arguments Returns {A} a.
Arguments Panics {A} c.
Arguments Diverges {A}.

Definition api_res {A} (r : res A) : api A :=
  match r with OK a => Returns a | CR c => Panics c end.

Section Api.
Variable D : decls.

(** The recursion bound given to [dec]. *)
Definition decode_fuel (b : bytes) : nat := ((decls_depth D + 4) * S (length b))%nat.

Definition with_info {A} (k : skey) (s : gstate) (f : iref -> gstate -> api A) : api A * gstate :=
  match run (cachedStructInfoOf D (walk_fuel D) k) s with
  | (Done i, s') => (f i s', s')
  | (Panicked, s') => (Panics Unsupported, s')
  | (OutOfFuel, s') => (Diverges, s')
  end.

(** struct.go:35-38, 46-49: nil pointer. *)
Definition info_size (s : gstate) (i : iref) (p : option val) : res Z :=
  match p with None => OK 0 | Some x => struct_size (hlook s) (higet s) i x end.
Definition info_encode (s : gstate) (i : iref) (b : bytes) (p : option val) : res bytes :=
  match p with None => OK b | Some x => struct_encode (hlook s) (higet s) i b x end.

(** proto.go:15-23. A nil reflect.Type makes t.Kind() panic. *)
Definition Size (v : iface) (s : gstate) : api Z * gstate :=
  match v with
  | INil => (Panics NilDeref, s)
  | INonPtr => (Panics Unsupported, s)
  | IPtrOther _ => (Panics Unsupported, s)                (* NumField of a non-struct *)
  | IPtr k p => with_info k s (fun i s => api_res (info_size s i p))
  end.

(** proto.go:25-35 *)
Definition Marshal (v : iface) (s : gstate) : api (option bytes * option err) * gstate :=
  match v with
  | INil => (Panics NilDeref, s)
  | INonPtr => (Returns (None, Some ErrNotAPointer), s)
  | IPtrOther _ => (Panics Unsupported, s)
  | IPtr k p =>
    with_info k s (fun i s => api_res (
      n <- info_size s i p ;;               (* make([]byte, 0, n): n >= 0 *)
      b <- info_encode s i [] p ;;
      OK (Some b, None)))
  end.

(** proto.go:37-61; the result carries the argument after the call. *)
Definition Unmarshal (b : bytes) (v : iface) (s : gstate) : api (iface * option err) * gstate :=
  if zlen b =? 0 then (Returns (v, None), s)
  else
    match v with
    | INil => (Panics NilDeref, s)
    | INonPtr => (Returns (v, Some InvalidUnmarshalError), s)
    | IPtrOther _ => (Returns (v, Some InvalidUnmarshalError), s)
    | IPtr k None => (Returns (v, Some InvalidUnmarshalError), s)
    | IPtr k (Some x) =>
      with_info k s (fun i s =>
        match decs (hlook s) (higet s) D (decode_fuel b) i b 0 x with
        | DRet x n (Some e) => Returns (IPtr k (Some x), Some e)
        | DRet x n None =>
          Returns (IPtr k (Some x), if n <? zlen b then Some ErrShortRead else None)
        | DCrash c => Panics c
        | DFuel => Diverges
        end)
    end.

End Api.
