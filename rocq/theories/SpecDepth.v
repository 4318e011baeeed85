(** Deeply nested inputs for recursive message types. *)
From Verif Require Import Base GoType SpecWire SpecMsg.

Section Spec.
Variable sch : schema.
(** The message type reached from message [m] through the fields numbered [p]:
    message fields or repeated message fields. *)
Fixpoint follow (m : nat) (p : list N) : option nat :=
  match p with
  | [] => Some m
  | n :: p =>
    match find_field 0 (msg sch m) n with
    | Some (_, FMessage m') | Some (_, FRepeated (FMessage m')) => follow m' p
    | _ => None
    end
  end.
End Spec.
(** The input with one message in the other along [p]. *)
Fixpoint nest (p : list N) : list N :=
  match p with
  | [] => []
  | n :: p => ser [(n, PLen (nest p))]
  end.
Fixpoint repeat_path (n : nat) (p : list N) : list N :=
  match n with O => [] | S n => p ++ repeat_path n p end.
