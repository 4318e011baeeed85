(** Typed memory: what Go's type system guarantees about a heap, without any
    assumption on which parts of messages are shared or point back. *)
From Verif Require Import Base GoType Leaf Typing Unsafe SpecUnsafe.
Local Open Scope nat_scope.

(** What is where: values of Go types, single bytes of byte slices, maps, and
    map entries handled by the pools. *)
Record world := {
  wval : gotype -> addr -> Prop;
  wbyte : addr -> Prop;
  wmap : nat -> skind -> gotype -> Prop;
  wentry : skey -> addr -> Prop
}.

Section Typed.
Variable D : decls.
Variable other : nat -> nat -> nat * nat.

(** The fields of a struct of type [k] are at [a]. *)
Definition struct_at (W : world) (k : skey) (a : addr) : Prop :=
  forall t p, In (t, p) (placed D other k a) -> wval W t p.

(** The bytes at [a] are a value of type [t]; what it points to is as [W] says. *)
Definition shaped (W : world) (H : heap) (t : gotype) (a : addr) : Prop :=
  match t with
  | TScalar _ | TOption _ => exists v, rep D other true H t a v none
  | TBytes => exists p n c, holds H a (hdr p n c) /\ n <= c /\
      match p with None => c = 0 | Some p => forall i, i < c -> wbyte W (shift p i) end
  | TSlice e => exists p n c, holds H a (hdr p n c) /\ n <= c /\
      match p with None => c = 0 | Some p => forall i, i < c -> wval W e (shift p (i * tsize e)) end
  | TMap k e => exists p, holds H a (ptr_cells p) /\
      match p with None => True | Some p => snd p = 0 /\ wmap W (fst p) k e end
  | TPtr e => exists p, holds H a (ptr_cells p) /\ match p with None => True | Some p => wval W e p end
  | TMsg sid => exists p, holds H a (ptr_cells p) /\
      match p with None => True | Some p => struct_at W (SNamed sid) p end
  | TOther => True
  end.

(** Memory is as [W] says. Two values are the same or do not overlap. *)
Record typed (W : world) (H : heap) : Prop := {
  ty_val : forall t a, wval W t a -> shaped W H t a;
  ty_byte : forall a, wbyte W a -> exists n, (n < 256)%N /\ cell H (fst a) (snd a) = Some (MB n);
  ty_map : forall m k e, wmap W m k e -> exists l, nth_error H m = Some (OMap l) /\
    forall x y, In (x, y) l -> wval W (TScalar k) (x, 0) /\ wval W e (y, 0);
  ty_map_one : forall m k e k' e', wmap W m k e -> wmap W m k' e' -> k = k' /\ e = e';
  ty_entry : forall k a, wentry W k a -> struct_at W k a /\ exists l, load H a (ssize D other k) = Some l;
  ty_val_val : forall t a t' a', wval W t a -> wval W t' a' ->
    (t = t' /\ a = a') \/ disjoint (range a (tsize t)) (range a' (tsize t'));
  ty_val_byte : forall t a p, wval W t a -> wbyte W p -> ~ range a (tsize t) (fst p) (snd p);
  ty_entry_val : forall k a t p, wentry W k a -> wval W t p ->
    In (t, p) (placed D other k a) \/ disjoint (range a (ssize D other k)) (range p (tsize t));
  ty_entry_byte : forall k a p, wentry W k a -> wbyte W p -> ~ range a (ssize D other k) (fst p) (snd p)
}.
Definition pooled (W : world) (l : list (skey * addr)) : Prop := forall k a, In (k, a) l -> wentry W k a.

(** The memory [W] speaks about. *)
Definition cover (W : world) : cset := fun b o =>
  (exists t a, wval W t a /\ range a (tsize t) b o) \/ wbyte W (b, o) \/ (exists k e, wmap W b k e) \/
  (exists k a, wentry W k a /\ range a (ssize D other k) b o).
End Typed.

(** [W'] keeps what [W] says, and says more about memory not allocated in [H] only. *)
Record grows (H : heap) (W W' : world) : Prop := {
  gr_val : forall t a, wval W t a -> wval W' t a;
  gr_byte : forall a, wbyte W a -> wbyte W' a;
  gr_map : forall m k e, wmap W m k e -> wmap W' m k e;
  gr_entry : forall k a, wentry W k a -> wentry W' k a;
  gr_val_new : forall t a, wval W' t a -> wval W t a \/ length H <= fst a;
  gr_byte_new : forall a, wbyte W' a -> wbyte W a \/ length H <= fst a;
  gr_map_new : forall m k e, wmap W' m k e -> wmap W m k e \/ length H <= m;
  gr_entry_new : forall k a, wentry W' k a -> wentry W k a \/ length H <= fst a
}.
