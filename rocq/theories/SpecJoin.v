(** Specification of merging one message into another, as protobuf defines it:
    what is set in the second replaces what the first holds, elements of
    repeated fields are appended, entries of maps are added or replaced, and
    messages are merged in turn. *)
From Verif Require Import Base GoType SpecMsg.

Section Schema.
Variable sch : schema.
(** The contents of a message that a pointer points to; new ones if it is nil. *)
Definition contents (x : val) (m : nat) : list val :=
  match x with VPtr (Some (VStruct xs)) => xs | _ => zeros (msg sch m) end.
(** A field of type [f] that held [x], after [y] has been merged into it. *)
Fixpoint joined (x y : val) (f : fty) {struct y} : val :=
  match f, y with
  | FImplicit _, _ => if is_zero y then x else y
  | FOptional _, VOpt false _ => x
  | FPointer _, VPtr None => x
  | FBytes, VBytes None => x
  | FMessage _, VPtr None => x
  | FMessage m, VPtr (Some (VStruct ys)) =>
    let fix all xs ys fs {struct ys} :=
      match xs, ys, fs with
      | x :: xs, y :: ys, Field _ f :: fs => joined x y f :: all xs ys fs
      | x :: xs, _ :: ys, Hidden _ :: fs => x :: all xs ys fs
      | _, _, _ => []
      end in
    VPtr (Some (VStruct (all (contents x m) ys (msg sch m))))
  | FRepeated e, VSlice _ new _ =>
    match x, flat_map (fun y => if is_nil y then [] else [kept sch y e]) new with
    | VSlice _ old _, (_ :: _) as l => VSlice true (old ++ l) []
    | _, _ => x
    end
  | FMap _ e, VMap (Some l) =>
    match x with
    | VMap m => VMap (Some (fold_left (fun l kv => match kv with (a, y) => put_entry l a (kept sch y e) end) l
        match m with Some old => old | None => [] end))
    | _ => x
    end
  | FMap _ _, VMap None => x
  | _, _ => y
  end.
Fixpoint joined_msg (xs ys : list val) (fs : list sfld) {struct ys} : list val :=
  match xs, ys, fs with
  | x :: xs, y :: ys, Field _ f :: fs => joined x y f :: joined_msg xs ys fs
  | x :: xs, _ :: ys, Hidden _ :: fs => x :: joined_msg xs ys fs
  | _, _, _ => []
  end.
End Schema.
