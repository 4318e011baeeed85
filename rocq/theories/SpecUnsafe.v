(** Messages in flat memory: which bytes represent a value of a Go type, which
    memory belongs to it, and what it means to leave other memory alone. *)
From Verif Require Import Base GoType Leaf Typing Unsafe.

(** ** Sets of bytes of memory *)
Definition cset := nat -> nat -> Prop.
Definition none : cset := fun _ _ => False.
Definition range (a : addr) (n : nat) : cset := fun b o => b = fst a /\ snd a <= o < snd a + n.
Definition whole (m : nat) : cset := fun b _ => b = m.
Definition union (A B : cset) : cset := fun b o => A b o \/ B b o.
Definition disjoint (A B : cset) : Prop := forall b o, A b o -> B b o -> False.
Definition subset (A B : cset) : Prop := forall b o, A b o -> B b o.
(** Memory that is not allocated yet. *)
Definition unborn (H : heap) : cset := fun b _ => length H <= b.

(** ** Values *)
(** The bytes at [a] are [cs]. *)
Definition holds (H : heap) (a : addr) (cs : list mv) : Prop := load H a (length cs) = Some cs.
Definition is_byte (c : mv) : Prop := exists n, (n < 256)%N /\ c = MB n.
(** [p] points to the bytes of a string. *)
Inductive text (H : heap) : option addr -> bytes -> Prop :=
| text_none p : text H p []
| text_some x o s n : nth_error H x = Some (OStr s) -> o + n <= length s -> text H (Some (x, o)) (firstn n (skipn o s)).

Section Rep.
Variable D : decls.
Variable other : nat -> nat -> nat * nat.

(** The fields of a struct at [a]: types and addresses. *)
Definition placed (k : skey) (a : addr) : list (gotype * addr) :=
  match k with
  | SNamed sid => combine (field_types D sid) (map (shift a) (offsets 0 (layout D other k)))
  | SEntry k' v _ _ => combine [TScalar k'; v] (map (shift a) (offsets 0 (layout D other k)))
  | SOpt k' => [(TOption k', a)]
  end.
(** The elements of an array at [a]. *)
Definition elems (e : gotype) (a : addr) (n : nat) : list (gotype * addr) :=
  map (fun i => (e, shift a (i * tsize e))) (seq 0 n).
(** The keys and values of a map. *)
Definition slots (k : skind) (e : gotype) (l : list (nat * nat)) : list (gotype * addr) :=
  flat_map (fun xy => [(TScalar k, (fst xy, 0)); (e, (snd xy, 0))]) l.
Definition flat (l : list (val * val)) : list val := flat_map (fun kx => [fst kx; snd kx]) l.

(** With [sep] the parts of a message do not overlap; without it they may, and
    the same message, slice or map can occur in several places. *)
Variable sep : bool.
Definition apart (A B : cset) : Prop := sep = true -> disjoint A B.

(** [rep H t a v S]: the [tsize t] bytes at [a] represent the value [v] of type
    [t]; [S] is the memory that belongs to [v] besides these bytes.
    [box H L vs S]: the same for several values; [S] includes their own bytes. *)
Inductive rep (H : heap) : gotype -> addr -> val -> cset -> Prop :=
| rep_num k a v cs : wt D v (TScalar k) = true -> k_cells v = Some cs -> holds H a cs -> rep H (TScalar k) a v none
| rep_str a p s : bytes_okb s = true -> text H p s -> holds H a (str_hdr p (length s)) ->
    rep H (TScalar KString) a (VStr s) none
| rep_bytes_nil a : holds H a (hdr None 0 0) -> rep H TBytes a (VBytes None) none
| rep_bytes a p d r : bytes_okb d = true -> holds H a (hdr (Some p) (length d) (length d + length r)) ->
    holds H p (map MB d ++ r) -> Forall is_byte r -> rep H TBytes a (VBytes (Some d)) (range p (length d + length r))
| rep_opt k a (f : bool) x S : holds H a [MB (if f then 1 else 0)%N] -> rep H (TScalar k) (shift a (opt_value k)) x S ->
    rep H (TOption k) a (VOpt f x) S
| rep_slice_nil e a : holds H a (hdr None 0 0) -> rep H (TSlice e) a (VSlice false [] []) none
| rep_slice e a p items spare S : holds H a (hdr (Some p) (length items) (length items + length spare)) ->
    box H (elems e p (length items + length spare)) (items ++ spare) S -> rep H (TSlice e) a (VSlice true items spare) S
| rep_map_nil k e a : holds H a (ptr_cells None) -> rep H (TMap k e) a (VMap None) none
| rep_map k e a m l kxs S : holds H a (ptr_cells (Some (m, 0))) -> nth_error H m = Some (OMap l) ->
    length l = length kxs -> box H (slots k e l) (flat kxs) S -> apart (whole m) S ->
    rep H (TMap k e) a (VMap (Some kxs)) (union (whole m) S)
| rep_ptr_nil e a : holds H a (ptr_cells None) -> rep H (TPtr e) a (VPtr None) none
| rep_ptr e a p x S : holds H a (ptr_cells (Some p)) -> box H [(e, p)] [x] S -> rep H (TPtr e) a (VPtr (Some x)) S
| rep_msg_nil sid a : holds H a (ptr_cells None) -> rep H (TMsg sid) a (VPtr None) none
| rep_msg sid a p xs S : sid < length D -> holds H a (ptr_cells (Some p)) -> box H (placed (SNamed sid) p) xs S ->
    rep H (TMsg sid) a (VPtr (Some (VStruct xs))) S
| rep_other a n : rep H TOther a (VOther n) none
with box (H : heap) : list (gotype * addr) -> list val -> cset -> Prop :=
| box_nil : box H [] [] none
| box_cons t a v S1 L vs S2 : rep H t a v S1 -> box H L vs S2 ->
    apart (range a (tsize t)) S1 -> apart (union (range a (tsize t)) S1) S2 ->
    box H ((t, a) :: L) (v :: vs) (union (union (range a (tsize t)) S1) S2).

(** The struct of type [k] at [a] has the value [x]; [S] is all its memory. *)
Definition rep_struct (H : heap) (k : skey) (a : addr) (x : val) (S : cset) : Prop :=
  match k with
  | SOpt _ => box H (placed k a) [x] S
  | _ => exists xs, x = VStruct xs /\ box H (placed k a) xs S
  end.
End Rep.

(** ** The pools of map entries: zeroed memory that belongs to nobody else. *)
Inductive pool (D : decls) (other : nat -> nat -> nat * nat) (H : heap) : list (skey * addr) -> cset -> Prop :=
| pool_nil : pool D other H [] none
| pool_cons k a l P : holds H a (zeros (ssize D other k)) -> pool D other H l P -> disjoint (range a (ssize D other k)) P ->
    pool D other H ((k, a) :: l) (union (range a (ssize D other k)) P).

(** ** What a byte of memory, or a map, is; and memory that stays the same. *)
Definition spot (H : heap) (b o : nat) : option (mv + list (nat * nat)) :=
  match nth_error H b with
  | Some (OMem c) => option_map inl (nth_error c o)
  | Some (OMap l) => Some (inr l)
  | _ => None
  end.
Definition same_on (S : cset) (H H' : heap) : Prop := forall b o, S b o -> spot H' b o = spot H b o.
(** Objects keep their kind and size; strings are never written. *)
Definition extends (H H' : heap) : Prop :=
  forall b, match nth_error H b with
            | None => True
            | Some (OMem c) => exists c', nth_error H' b = Some (OMem c') /\ length c' = length c
            | Some (OStr s) => nth_error H' b = Some (OStr s)
            | Some (OMap l) => exists l', nth_error H' b = Some (OMap l')
            end.
