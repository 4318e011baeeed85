(** Building codecs with a counter: one unit for every operation that [f] counts,
    while other goroutines use the same caches. *)
From Verif Require Import Base Wire GoType Leaf Codec Tag Walker Conc SpecFirst.
Local Open Scope nat_scope.

(** What is counted: every call of a sync.Map, every allocation, every store to
    a new codec or structInfo (Walker.v) *)
Definition every (o : op) (s : gstate) : nat := 1.
(** or what memory grows by. *)
Definition growing (o : op) (s : gstate) : nat := memory (snd (exec o s)) - memory s.

(** [amid f p s n r s']: started in memory [s], [p] has made operations that count
    for [n], has come to the result [r] ([None]: is still running), and memory is
    [s']. Before each next operation other goroutines may have changed memory in
    any way, except that no cached structInfo is ever taken away (proto.go:108-109,
    a sync.Map without calls of Delete). *)
Inductive amid {A} (f : op -> gstate -> nat) : prog A -> gstate -> nat -> option (outcome A) -> gstate -> Prop :=
| amid_running p s : amid f p s 0 None s
| amid_ret a s : amid f (Ret a) s 0 (Some (Done a)) s
| amid_panic s : amid f Panic s 0 (Some Panicked) s
| amid_nofuel s : amid f NoFuel s 0 (Some OutOfFuel) s
| amid_do o k s s1 n r s' :
  (forall q, cached (snd (exec o s)) q -> cached s1 q) ->
  amid f (k (fst (exec o s))) s1 n r s' ->
  amid f (Do o k) s (f o s + n) r s'.

(** How much a program without other goroutines counts. *)
Fixpoint count {A} (f : op -> gstate -> nat) (p : prog A) (s : gstate) : nat :=
  match p with
  | Do o k => f o s + count f (k (fst (exec o s))) (snd (exec o s))
  | _ => 0
  end.

(** Operations of the walker and of the caches, without those of running codecs. *)
Definition building (o : op) (s : gstate) : nat := match o with ReadCell _ | ReadInfo _ => 0 | _ => 1 end.
(** How much the goroutines of Conc.v count together on the way from one
    configuration to another. *)
Inductive spent (f : op -> gstate -> nat) : config -> nat -> config -> Prop :=
| spent_none c : spent f c 0 c
| spent_step pre o k post s n c :
  spent f (pre ++ k (fst (exec o s)) :: post, snd (exec o s)) n c ->
  spent f (pre ++ Do o k :: post, s) (f o s + n) c.
