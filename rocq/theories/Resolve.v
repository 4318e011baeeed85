(** The codec a field declaration stands for, computed without caches or heap:
    what walker.go:29-340 yields when no lookup in w.codecs, codecCache or
    sliceMap returns anything but the codec that would have been built.
    Theorems relate it to the walker of Walker.v. [None] means the walker
    panics, or that its answer depends on what it has seen before. *)
From Coq Require Import String.
From Verif Require Import Base Wire GoType Leaf Codec Tag Walker.

(** Codecs as finite trees; struct codecs refer to their type by name. *)
Inductive pref :=
| PStatic (s : scid)
| PPtr (elem : gotype) (p : pref)
| PSlice (elem : gotype) (p : pref)
| PStruct (k : skey)
| PMap (tag ktag vtag : N) (key : skind) (val : gotype) (kp vp : pref).

Definition plook (p : pref) : cbody pref skey :=
  match p with
  | PStatic s => BStatic s
  | PPtr t p => BPtr t p
  | PSlice t p => BSlice t p
  | PStruct k => BStruct k k
  | PMap tag kt vt key val kp vp =>
    BMap tag (mkfield 0 kt kp) (mkfield 1 vt vp) (SEntry key val kt vt) (SEntry key val kt vt)
  end.

(** walker.go:29-75, 284-340 *)
Fixpoint pcodec (t : gotype) (zigzag required : bool) : option pref :=
  match t with
  | TScalar k => Some (PStatic (SC (kind_wk k zigzag) (if required then Required else Normal)))
  | TBytes => Some (PStatic SCBytes)
  | TMsg sid => Some (PStruct (SNamed sid))
  | TPtr t' =>
    match t' with
    | TOption k => Some (PStruct (SOpt k))
    | _ => option_map (PPtr t') (pcodec t' zigzag required)
    end
  | TSlice _ | TMap _ _ | TOption _ | TOther => None
  end.

(** walker.go:166-259 *)
Definition pfield (t : structTag) (f : gofield) : option pref :=
  let ty := gf_type f in
  match static_choice t ty with
  | Some s => Some (PStatic s)
  | None =>
    match ty with
    | TBytes => Some (PStatic SCBytes)
    | TSlice e => option_map (PSlice e) (pcodec e (t_zz t) true)
    | TMap key val =>
      let kt := fst (parseStructTag (gf_key f)) in
      let vt := fst (parseStructTag (gf_val f)) in
      match pcodec (TScalar key) (t_zz kt) true, pcodec val (t_zz vt) true with
      | Some kp, Some vp =>
        Some (PMap (tag_wiretag t) (tag_wiretag kt) (tag_wiretag vt) key val kp vp)
      | _, _ => None
      end
    | _ =>
      match baseTypeOf ty with
      | TSlice _ | TBytes | TMap _ _ => None
      | _ => pcodec ty (t_zz t) false
      end
    end
  end.

(** walker.go:146-262; [None] when some field cannot be resolved. *)
Fixpoint pfields (idx : nat) (fs : list gofield) : option (list (sfield pref)) :=
  match fs with
  | [] => Some []
  | f :: fs =>
    match pfields (S idx) fs with
    | None => None
    | Some r =>
      match gf_exported f, gf_tag f with
      | true, Some tag =>
        match parseStructTag tag with
        | (t, None) =>
          match pfield t f with
          | Some p => Some (mkfield idx (tag_wiretag t) p :: r)
          | None => None
          end
        | (_, Some _) => None
        end
      | _, _ => Some r
      end
    end
  end.

Definition pinfo (D : decls) (k : skey) : option (sinfo pref) :=
  option_map (fun fs => {| i_fields := fs; i_index := fs |}) (pfields 0 (struct_fields D k)).

Definition piget (D : decls) (k : skey) : sinfo pref :=
  match pinfo D k with Some i => i | None => {| i_fields := []; i_index := [] |} end.
