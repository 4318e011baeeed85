(** Data races, as the Go memory model defines them, of the goroutines of Conc.v.

    An execution is recorded as the list of what its steps do to memory, with
    the number of the goroutine. *)
From Verif Require Import Base GoType Codec Walker Conc.

(** Ordinary memory: a codec (all function fields together) or a structInfo
    (both fields together). *)
Inductive loc := LCodec (c : cref) | LInfo (i : iref).
(** An entry of one of the three sync.Maps (slice.go:11, proto.go:108-109). *)
Inductive slot := MInfo (k : skey) | MCodec (t : gotype) | MSlice (c : cref).

(** An allocation counts as a write. Load reads a map entry, Store writes it,
    LoadOrStore does one or the other: "LoadOrStore is a write operation when it
    returns loaded set to false", documentation of sync.Map. *)
Inductive act := ARead (x : loc) | AWrite (x : loc) | AGet (m : slot) | APut (m : slot).

Definition get_or_put {A} (found : option A) (m : slot) : act :=
  match found with Some _ => AGet m | None => APut m end.
(** What the operation does when executed in state [s]. *)
Definition act_of (o : op) (s : gstate) : act :=
  match o with
  | InfoLoad k => AGet (MInfo k)                                           (* proto.go:112, walker.go:135 *)
  | InfoStore k _ => APut (MInfo k)                                        (* walker.go:274 *)
  | InfoLoadOrStore k _ => get_or_put (assoc skey_eq_dec k (g_infoCache s)) (MInfo k)       (* proto.go:123 *)
  | CodecLoad t => AGet (MCodec t)                                         (* walker.go:78 *)
  | CodecLoadOrStore t _ => get_or_put (assoc gotype_eq_dec t (g_codecCache s)) (MCodec t)  (* walker.go:119 *)
  | SliceLoad c => AGet (MSlice c)                                         (* slice.go:14 *)
  | SliceLoadOrStore c _ => get_or_put (assoc cref_eq_dec c (g_sliceMap s)) (MSlice c)      (* slice.go:27 *)
  | NewCell => AWrite (LCodec (CCell (length (g_cells s))))
  | Fill c _ => AWrite (LCodec c)
  | NewInfo => AWrite (LInfo (length (g_infos s)))
  | SetFields i _ | SetIndex i _ => AWrite (LInfo i)
  | ReadCell c => ARead (LCodec c)
  | ReadInfo i => ARead (LInfo i)
  end.

Notation event := (nat * act)%type.
(** The steps of Conc.v, recorded. *)
Inductive traced (c0 : config) : list event -> config -> Prop :=
| tr_start : traced c0 [] c0
| tr_step l pre o k post s :
    traced c0 l (pre ++ Do o k :: post, s) ->
    traced c0 (l ++ [(length pre, act_of o s)]) (pre ++ k (fst (exec o s)) :: post, snd (exec o s)).

(** The step at position [i] happens before that at [j]: same goroutine, or [j]
    reads the map entry that [i] wrote, or by a chain of these. *)
Inductive before (l : list event) : nat -> nat -> Prop :=
| b_order i j t a b : i < j -> nth_error l i = Some (t, a) -> nth_error l j = Some (t, b) -> before l i j
| b_sync i j t u m : i < j -> nth_error l i = Some (t, APut m) -> nth_error l j = Some (u, AGet m) ->
    (forall n v, i < n < j -> nth_error l n <> Some (v, APut m)) -> before l i j
| b_trans i j n : before l i j -> before l j n -> before l i n.

Definition accesses (a : act) (x : loc) : Prop := a = ARead x \/ a = AWrite x.
Definition writes (a : act) (x : loc) : Prop := a = AWrite x.

(** Two accesses to the same memory, at least one a write, neither before the other. *)
Definition race_between (l : list event) (i j : nat) : Prop :=
  exists t u a b x, nth_error l i = Some (t, a) /\ nth_error l j = Some (u, b) /\
    accesses a x /\ accesses b x /\ (writes a x \/ writes b x) /\
    i <> j /\ ~ before l i j /\ ~ before l j i.
Definition race_free (l : list event) : Prop := forall i j, ~ race_between l i j.
