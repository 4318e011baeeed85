(** What the descriptors call for as the answer to one call, whoever makes it. *)
From Verif Require Import Base GoType Walker Api Conc Typing SpecConc SpecWire SpecMsg SpecProto SpecOut SpecIn MsgApi.
Local Open Scope N_scope.

(** The answer [a] to the call [c] in a program with struct types [D] made from
    descriptors of schema [sch]; no claim for calls without a well-formed message. *)
Definition called_for (D : decls) (sch : schema) (c : call) (a : answer) : Prop :=
  match c with
  | CSize (IPtr (SNamed m) (Some (VStruct xs))) =>
    wts D (VStruct xs) (SNamed m) = true ->
    let o := output_msg sch xs (msg sch m) in (fst o < 2^63) ->
    a = ASize (Returns (Z.of_N (fst o)))
  | CMarshal (IPtr (SNamed m) (Some (VStruct xs))) =>
    wts D (VStruct xs) (SNamed m) = true ->
    let o := output_msg sch xs (msg sch m) in (fst o < 2^63) ->
    a = AMarshal (match snd o with Some b => Returns (Some b, None) | None => Panics Confused end)
  | CUnmarshal b (IPtr (SNamed m) (Some (VStruct ys))) =>
    wts D (VStruct ys) (SNamed m) = true -> forallb fresh ys = true -> bytes_okb b = true -> (zlen b < 2^63)%Z ->
    match merge_any sch (S (length b)) (msg sch m) ys b with
    | MOk zs => exists ys', a = AUnmarshal (Returns (ptr m ys', None)) /\ map norm ys' = map norm zs
    | MBad => exists x e, a = AUnmarshal (Returns (IPtr (SNamed m) (Some x), Some e))
    | MFuel => False
    end
  | _ => True
  end.

(** Message [m] has a field, list or map of messages [m']. *)
Fixpoint message_in (f : fty) : option nat :=
  match f with
  | FMessage m => Some m
  | FRepeated e | FMap _ e => message_in e
  | _ => None
  end.
Definition part_of (sch : schema) (m' m : nat) : Prop := exists n f, In (Field n f) (msg sch m) /\ message_in f = Some m'.
(** Going from a message to its parts ends. *)
Definition ends (sch : schema) (c : call) : Prop :=
  match arg_type c with Some (SNamed m) => Acc (part_of sch) m | _ => True end.
