(** Iteration over maps in any order. Go does not fix the order in which MapIter
    (map.go:44, 73) visits the entries, and each loop over the same map may visit
    them in another order; the functions of Codec.v visit them in the order of
    the list. Here each visit of a map takes an order of its own: [nsz v c f n],
    [codec.size] may return [n]; [nenc v c f d], [codec.encode] may append [d]. *)
From Coq Require Import Permutation.
From Verif Require Import Base Wire GoType Leaf Codec Tag Walker Api.
Local Open Scope Z_scope.

(** Totals of a loop (n += ...). *)
Definition zsum (l : list Z) : Z := fold_right Z.add 0 l.
(** The entries of a map; a nil map has none. *)
Definition entries (m : option (list (val * val))) : list (val * val) := match m with Some l => l | None => [] end.

Section Order.
Context {R I : Type}.
Variable look : R -> cbody R I.
Variable iget : I -> sinfo R.

(** [codec.size]: normal_codec.go and the generated codecs ([ns_static]),
    walker.go:342-350, slice.go:31-43, walker.go:88-96, map.go:30-56. *)
Inductive nsz : val -> R -> fmeta -> Z -> Prop :=
| ns_static v c f s n : look c = BStatic s -> l_size (static s) v f = OK n -> nsz v c f n
| ns_nilptr c f t c' : look c = BPtr t c' -> nsz (VPtr None) c f 0
| ns_ptr x c f t c' n : look c = BPtr t c' -> nsz x c' f n -> nsz (VPtr (Some x)) c f n
| ns_slice nn items spare c f t c' ns : look c = BSlice t c' -> Forall2 (fun x n => nsz x c' f n) items ns ->
    nsz (VSlice nn items spare) c f (zsum ns)
| ns_nilmsg c f k i : look c = BStruct k i -> nsz (VPtr None) c f 0
| ns_msg x c f k i ns : look c = BStruct k i ->
    Forall2 (fun fl n => exists y, get_field x (f_idx fl) = Some y /\ nsz y (f_codec fl) (f_meta fl) n) (i_fields (iget i)) ns ->
    nsz (VPtr (Some x)) c f (zsum ns + (sizeOfVarint (u64 (zsum ns)) + tagsize f))
| ns_map m l c f tag kf vf e i ns : look c = BMap tag kf vf e i -> Permutation (entries m) l ->
    Forall2 (fun kv n => exists a b, nsz (fst kv) (f_codec kf) (f_meta kf) a /\ nsz (snd kv) (f_codec vf) (f_meta vf) b /\
      n = sizeOfVarint tag + sizeOfVarint (u64 (a + b)) + a + b) l ns ->
    nsz (VMap m) c f (if zsum ns =? 0 then sizeOfVarint tag + 1 else zsum ns).
(** structInfo.size, struct.go:35-44, on a non-nil struct pointer. *)
Definition nstruct_size (i : I) (x : val) (n : Z) : Prop :=
  exists ns, Forall2 (fun fl n => exists y, get_field x (f_idx fl) = Some y /\ nsz y (f_codec fl) (f_meta fl) n) (i_fields (iget i)) ns /\ n = zsum ns.

(** [codec.encode]: the generated codecs, walker.go:352-360, slice.go:45-56,
    walker.go:97-106, map.go:58-94 (line 80: the size of the value is asked of
    the codec of the key). *)
Inductive nenc : val -> R -> fmeta -> bytes -> Prop :=
| ne_static v c f s d : look c = BStatic s -> l_encode (static s) [] v f = OK d -> nenc v c f d
| ne_nilptr c f t c' : look c = BPtr t c' -> nenc (VPtr None) c f []
| ne_ptr x c f t c' d : look c = BPtr t c' -> nenc x c' f d -> nenc (VPtr (Some x)) c f d
| ne_slice nn items spare c f t c' ds : look c = BSlice t c' -> Forall2 (fun x d => nenc x c' f d) items ds ->
    nenc (VSlice nn items spare) c f (concat ds)
| ne_nilmsg c f k i : look c = BStruct k i -> nenc (VPtr None) c f []
| ne_msg x c f k i n ds : look c = BStruct k i -> nstruct_size i x n ->
    Forall2 (fun fl d => exists y, get_field x (f_idx fl) = Some y /\ nenc y (f_codec fl) (f_meta fl) d) (i_fields (iget i)) ds ->
    nenc (VPtr (Some x)) c f (appendVarint (appendVarint [] (wiretag f)) (u64 n) ++ concat ds)
| ne_map m l c f tag kf vf e i ds : look c = BMap tag kf vf e i -> Permutation (entries m) l ->
    Forall2 (fun kv d => exists a b p q, nsz (fst kv) (f_codec kf) (f_meta kf) a /\ nsz (snd kv) (f_codec kf) (f_meta vf) b /\
      nenc (fst kv) (f_codec kf) (f_meta kf) p /\ nenc (snd kv) (f_codec vf) (f_meta vf) q /\
      d = appendVarint (appendVarint [] tag) (u64 (a + b)) ++ p ++ q) l ds ->
    nenc (VMap m) c f (if zlen (concat ds) =? 0 then appendVarint [] tag ++ [0%N] else concat ds).
(** structInfo.encode, struct.go:46-54, on a non-nil struct pointer. *)
Definition nstruct_encode (i : I) (x : val) (d : bytes) : Prop :=
  exists ds, Forall2 (fun fl d => exists y, get_field x (f_idx fl) = Some y /\ nenc y (f_codec fl) (f_meta fl) d) (i_fields (iget i)) ds /\ d = concat ds.
End Order.

(** proto.go:15-23 and 25-35 on a non-nil pointer to a struct of type [k], in
    the state [s] of the caches: a result the call may have, and the state after
    it. *)
Definition nSize (D : decls) (k : skey) (x : val) (s : gstate) (n : Z) (s' : gstate) : Prop :=
  exists i, run (cachedStructInfoOf D (walk_fuel D) k) s = (Done i, s') /\ nstruct_size (hlook s') (higet s') i x n.
Definition nMarshal (D : decls) (k : skey) (x : val) (s : gstate) (b : bytes) (s' : gstate) : Prop :=
  exists i n, run (cachedStructInfoOf D (walk_fuel D) k) s = (Done i, s') /\ nstruct_size (hlook s') (higet s') i x n /\
    nstruct_encode (hlook s') (higet s') i x b.
