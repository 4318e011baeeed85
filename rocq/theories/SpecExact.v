(** What Go code can see of a message: everything but the memory between the
    length and the capacity of a slice. Two values with the same [shown] part
    are equal for reflect.DeepEqual, and bit for bit (for DeepEqual a NaN differs
    from itself; here it is equal if its bits are). Contrast with [norm] of
    SpecMsg.v, which also forgets whether empty slices and maps are nil and
    what the memory behind an unset option holds. *)
From Verif Require Import Base GoType SpecMsg.

Fixpoint shown (v : val) : val :=
  match v with
  | VSlice nonnil items _ => VSlice nonnil (map shown items) []
  | VMap (Some l) => VMap (Some (map (fun kv => match kv with (k, x) => (k, shown x) end) l))
  | VPtr (Some x) => VPtr (Some (shown x))
  | VStruct xs => VStruct (map shown xs)
  | _ => v
  end.

(** A message as a fresh program would hold it: unset options are zero, slices
    and maps without elements are nil; likewise within the spare capacity of
    slices. *)
Definition zero_scalar (v : val) : bool :=
  match v with VOpt _ _ | VSlice _ _ _ | VMap _ | VPtr _ | VStruct _ | VBytes _ | VOther _ => false | _ => is_zero v end.
Fixpoint tidy (v : val) : bool :=
  match v with
  | VOpt false x => zero_scalar x
  | VSlice nonnil items spare =>
    match items with [] => negb nonnil && match spare with [] => true | _ => false end | _ => nonnil end &&
    forallb tidy items && forallb tidy spare
  | VMap (Some l) => negb match l with [] => true | _ => false end && forallb (fun kv => match kv with (_, x) => tidy x end) l
  | VPtr (Some x) => tidy x
  | VStruct xs => forallb tidy xs
  | _ => true
  end.

(** A message of which nothing is lost on the wire: fields that are not
    encoded are zero and repeated fields have no nil element. *)
Section Schema.
Variable sch : schema.
Fixpoint intact (v : val) (f : fty) {struct v} : Prop :=
  match f, v with
  | FMessage m, VPtr (Some (VStruct xs)) =>
    let fix all xs fs :=
      match xs, fs with
      | x :: xs, Field _ f :: fs => intact x f /\ all xs fs
      | x :: xs, Hidden t :: fs => x = zero t /\ all xs fs
      | [], [] => True
      | _, _ => False
      end in
    all xs (msg sch m)
  | FRepeated e, VSlice _ items _ =>
    let fix all items := match items with [] => True | x :: items => is_nil x = false /\ intact x e /\ all items end in
    all items
  | FMap k e, VMap (Some l) =>
    let fix all l := match l with [] => True | (_, x) :: l => intact x e /\ all l end in
    all l
  | _, _ => True
  end.
Fixpoint intact_msg (xs : list val) (fs : list sfld) : Prop :=
  match xs, fs with
  | x :: xs, Field _ f :: fs => intact x f /\ intact_msg xs fs
  | x :: xs, Hidden t :: fs => x = zero t /\ intact_msg xs fs
  | [], [] => True
  | _, _ => False
  end.
End Schema.

(** Schemas of singular fields only, none a pointer to a scalar: then every
    part of a message is shown and is encoded. *)
Definition singular (f : sfld) : bool :=
  match f with
  | Field _ (FImplicit _ | FOptional _ | FBytes | FMessage _) => true
  | _ => false
  end.
Definition all_singular (sch : schema) : bool := forallb (forallb singular) sch.
