(** Specification of reading a message written with one version of a schema into
    a message of another version that holds something. It generalises SpecVersions.v,
    where the message read into is empty, and SpecJoin.v, where there is one schema. *)
From Verif Require Import Base GoType SpecWire SpecTag SpecMsg SpecVersions SpecJoin.

(** Messages may have other numbers in the two versions; [same m m'] says that
    message [m'] of the reader is a version of the writer's message [m]. Which types
    a field may change to: [compatible] of SpecVersions.v, and a list of messages may
    become a single one, which is the merge of all. *)
Fixpoint accepts (same : nat -> nat -> bool) (f f' : fty) : bool :=
  match f, f' with
  | (FMessage m | FRepeated (FMessage m)), (FMessage m' | FRepeated (FMessage m')) => same m m'
  | FMap k e, FMap k' e' => (if sty_eq_dec k k' then true else false) && accepts same e e'
  | _, _ => match scalars f, scalars f' with Some s, Some s' => change s s' | _, _ => false end
  end.
Definition accepted (same : nat -> nat -> bool) (sch sch' : schema) : Prop := forall m m', same m m' = true ->
  forall n f f', In (Field n f) (msg sch m) -> In (Field n f') (msg sch' m') -> accepts same f f' = true.

(** A list with more elements. *)
Definition extended (x : val) (l : list val) : val :=
  match x, l with VSlice _ old _, _ :: _ => VSlice true (old ++ l) [] | _, _ => x end.
(** A field of type [f] that held [x] and gets the scalars [l]. *)
Definition takes_in (f : fty) (x : val) (l : list val) : val :=
  match f, l with
  | FRepeated e, _ => extended x (map (fun y => gets e [y]) l)
  | _, [] => x
  | _, _ => gets f l
  end.

Section Versions.
Variables sch sch' : schema.
(** A field of type [f'] that held [x], after reading [v] that was in a field of type [f]. *)
Fixpoint absorb (x v : val) (f f' : fty) {struct v} : val :=
  let into x m m' :=
    match v with
    | VPtr (Some (VStruct ys)) =>
      let fix fields xs fs' :=
        match xs, fs' with
        | x :: xs, Hidden _ :: fs' => x :: fields xs fs'
        | x :: xs, Field n f' :: fs' =>
          (let fix sent ys fs :=
             match ys, fs with
             | y :: ys, Field n' f :: fs => if (n' =? n)%N then absorb x y f f' else sent ys fs
             | _ :: ys, Hidden _ :: fs => sent ys fs
             | _, _ => x
             end in sent ys (msg sch m)) :: fields xs fs'
        | _, _ => []
        end in
      VPtr (Some (VStruct (fields (contents sch' x m') (msg sch' m'))))
    | _ => x
    end in
  match f, f', v with
  | FMessage m, FMessage m', _ => into x m m'
  | FMessage m, FRepeated (FMessage m'), VPtr (Some _) => extended x [into (VPtr None) m m']
  | FMessage m, _, _ => x
  | FRepeated (FMessage m), FMessage m', VSlice _ items _ =>
    fold_left (fun x y => absorb x y (FMessage m) (FMessage m')) items x
  | FRepeated (FMessage m), FRepeated (FMessage m'), VSlice _ items _ =>
    extended x (flat_map (fun y => if is_nil y then [] else [absorb (VPtr None) y (FMessage m) (FMessage m')]) items)
  | FMap _ e, FMap _ e', VMap (Some l) =>
    match x with
    | VMap m => VMap (Some (fold_left (fun l kv => match kv with (a, y) => put_entry l a (absorb (zero (go_type e')) y e e') end) l
        match m with Some old => old | None => [] end))
    | _ => x
    end
  | FMap _ _, _, _ => x
  | _, _, _ => takes_in f' x (sends f v)
  end.
(** What field [n] of type [f'] that held [x] holds then, if the message read had the values [ys]
    in the fields [fs], *)
Fixpoint sent (x : val) (n : N) (f' : fty) (ys : list val) (fs : list sfld) : val :=
  match ys, fs with
  | y :: ys, Field n' f :: fs => if (n' =? n)%N then absorb x y f f' else sent x n f' ys fs
  | _ :: ys, Hidden _ :: fs => sent x n f' ys fs
  | _, _ => x
  end.
(** and the whole message. *)
Fixpoint absorb_msg (xs ys : list val) (fs fs' : list sfld) : list val :=
  match xs, fs' with
  | x :: xs, Hidden _ :: fs' => x :: absorb_msg xs ys fs fs'
  | x :: xs, Field n f' :: fs' => sent x n f' ys fs :: absorb_msg xs ys fs fs'
  | _, _ => []
  end.
End Versions.
