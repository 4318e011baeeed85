(** Which values inhabit a Go type, and which declarations make every codec
    read and write memory of the type it was made for. All checks are boolean,
    so that they can be evaluated on concrete declarations. *)
From Coq Require Import String.
From Verif Require Import Base Wire GoType Leaf Codec Tag Walker Resolve.

Definition gotype_eqb (a b : gotype) : bool := if gotype_eq_dec a b then true else false.
Definition skind_eqb (a b : skind) : bool := if skind_eq_dec a b then true else false.

(** ** Values of a type *)
Definition bytes_okb (b : bytes) : bool := forallb (fun c => (c <? 256)%N) b.
Definition in_i32 (z : Z) : bool := ((- Z31 <=? z) && (z <? Z31))%Z.
Definition in_i64 (z : Z) : bool := ((- Z63 <=? z) && (z <? Z63))%Z.

(** Keys of a Go map are pairwise different under ==. *)
Fixpoint keys_distinct (l : list (val * val)) : bool :=
  match l with
  | [] => true
  | (k, _) :: r => forallb (fun kv => negb (key_eqb k (fst kv))) r && keys_distinct r
  end.

Definition all2 {A B} (f : A -> B -> bool) :=
  fix all2 (l : list A) (m : list B) : bool :=
    match l, m with
    | [], [] => true
    | x :: l, y :: m => f x y && all2 l m
    | _, _ => false
    end.

Definition field_types (D : decls) (sid : nat) : list gotype :=
  match nth_error D sid with Some fs => map gf_type fs | None => [] end.

(** [wt D v t]: [v] is a value of type [t]. *)
Fixpoint wt (D : decls) (v : val) (t : gotype) {struct v} : bool :=
  match v, t with
  | VBool _, TScalar KBool => true
  | VI32 z, TScalar KInt32 => in_i32 z
  | VI64 z, TScalar KInt64 => in_i64 z
  | VU32 n, TScalar KUint32 => (n <? 4294967296)%N
  | VU64 n, TScalar KUint64 => (n <? M64)%N
  | VF32 n, TScalar KFloat32 => (n <? 4294967296)%N
  | VF64 n, TScalar KFloat64 => (n <? M64)%N
  | VStr b, TScalar KString => bytes_okb b
  | VBytes None, TBytes => true
  | VBytes (Some b), TBytes => bytes_okb b
  | VOpt _ x, TOption k => wt D x (TScalar k)
  | VSlice nonnil items spare, TSlice e =>
    (nonnil || match items, spare with [], [] => true | _, _ => false end) &&
    forallb (fun x => wt D x e) items && forallb (fun x => wt D x e) spare
  | VMap None, TMap _ _ => true
  | VMap (Some l), TMap k e =>
    forallb (fun kv => match kv with (a, x) => wt D a (TScalar k) && wt D x e end) l && keys_distinct l
  | VPtr None, TPtr _ => true
  | VPtr None, TMsg _ => true
  | VPtr (Some x), TPtr e => wt D x e
  | VPtr (Some (VStruct fs)), TMsg sid =>
    match nth_error D sid with
    | Some _ => all2 (wt D) fs (field_types D sid)
    | None => false
    end
  | VOther _, TOther => true
  | _, _ => false
  end.

(** A value of a struct type. *)
Definition wts (D : decls) (x : val) (k : skey) : bool :=
  match k with
  | SNamed sid => wt D (VPtr (Some x)) (TMsg sid)
  | SOpt k => wt D x (TOption k)
  | SEntry k v _ _ => match x with VStruct fs => all2 (wt D) fs [TScalar k; v] | _ => false end
  end.

(** ** Codecs that fit a type *)
Definition wk_kind (w : wk) : skind :=
  match w with
  | WBool => KBool
  | WString => KString
  | WFloat32 => KFloat32
  | WFloat64 => KFloat64
  | WInt32 | WZigzag32 => KInt32
  | WInt64 | WZigzag64 => KInt64
  | WUint32 | WFixed32 => KUint32
  | WUint64 | WFixed64 => KUint64
  end.
Definition static_fits (s : scid) (t : gotype) : bool :=
  match s with
  | SCBytes => gotype_eqb t TBytes
  | SC w Optional => gotype_eqb t (TOption (wk_kind w))
  | SC w _ => gotype_eqb t (TScalar (wk_kind w))
  end.

Section Fits.
Variable D : decls.

Fixpoint flat_fits (p : pref) (t : gotype) : bool :=
  match p, t with
  | PStatic s, _ => static_fits s t
  | PPtr e q, TPtr e' => gotype_eqb e e' && flat_fits q e
  | PStruct (SNamed sid), TMsg sid' => Nat.eqb sid sid' && Nat.ltb sid (length D)
  | PStruct (SOpt k), TPtr (TOption k') => skind_eqb k k'
  | _, _ => false
  end.

Definition entry_fits (k : skind) (v : gotype) (kt vt : N) : bool :=
  match pfields 0 (entry_fields k v kt vt) with
  | Some [fk; fv] => flat_fits (f_codec fk) (TScalar k) && flat_fits (f_codec fv) v
  | _ => false
  end.

Definition codec_fits (p : pref) (t : gotype) : bool :=
  match p, t with
  | PSlice e q, TSlice e' => gotype_eqb e e' && flat_fits q e
  | PMap tag kt vt key val kp vp, TMap key' val' =>
    skind_eqb key key' && gotype_eqb val val' &&
    flat_fits kp (TScalar key) && flat_fits vp val && entry_fits key val kt vt
  | _, _ => flat_fits p t
  end.

Definition field_fits (fs : list gofield) (f : sfield pref) : bool :=
  match nth_error fs (f_idx f) with
  | Some g => codec_fits (f_codec f) (gf_type g)
  | None => false
  end.
Definition struct_fits (fs : list gofield) : bool :=
  match pfields 0 fs with
  | Some l => forallb (field_fits fs) l
  | None => false
  end.
Definition decls_fit : bool := forallb struct_fits D.
End Fits.

(** Struct types an argument of the API can point to. *)
Definition user_key (D : decls) (k : skey) : bool :=
  match k with
  | SNamed sid => Nat.ltb sid (length D)
  | SOpt _ => true
  | SEntry _ _ _ _ => false
  end.

(** ** Coherence: the walker of one call remembers codecs by Go type alone
    (walker.go:19-22), so the answer is independent of what it has seen only
    if every use of a remembered type asks for the same codec. [visits] lists
    what is remembered: slices, pointers to non-structs. *)
Fixpoint pref_visits (t : gotype) (p : pref) : list (gotype * pref) :=
  match p, t with
  | PPtr e q, _ => (t, p) :: pref_visits e q
  | PSlice e q, _ => (t, p) :: pref_visits e q
  | PMap _ _ _ key val kp vp, _ => pref_visits val vp
  | _, _ => []
  end.
Definition fields_visits (fs : list gofield) (l : list (sfield pref)) : list (gotype * pref) :=
  flat_map (fun f => match nth_error fs (f_idx f) with
                     | Some g => pref_visits (gf_type g) (f_codec f)
                     | None => [] end) l.
Definition entry_visits (p : pref) : list (gotype * pref) :=
  match p with
  | PMap _ kt vt key val _ _ =>
    match pfields 0 (entry_fields key val kt vt) with
    | Some l => fields_visits (entry_fields key val kt vt) l
    | None => []
    end
  | _ => []
  end.
Definition struct_visits (fs : list gofield) : list (gotype * pref) :=
  match pfields 0 fs with
  | Some l => fields_visits fs l ++ flat_map (fun f => entry_visits (f_codec f)) l
  | None => []
  end.
Definition visits (D : decls) : list (gotype * pref) := flat_map struct_visits D.

Definition pref_eq_dec (a b : pref) : {a = b} + {a <> b}.
Proof.
  decide equality; try apply N.eq_dec; try apply skind_eq_dec; try apply gotype_eq_dec;
    try apply scid_eq_dec; apply skey_eq_dec.
Defined.
Definition functional (l : list (gotype * pref)) : bool :=
  forallb (fun x => forallb (fun y =>
    negb (gotype_eqb (fst x) (fst y)) || if pref_eq_dec (snd x) (snd y) then true else false) l) l.

(** The declarations the theorems about Marshal and Unmarshal are about. *)
Definition supported (D : decls) : bool := decls_fit D && functional (visits D).
