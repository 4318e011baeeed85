(** Calls made one after the other, and what they answer for messages whose
    lists of one Go type are not all of one protobuf type: as for a schema in
    which some of these lists have the other protobuf type. *)
From Verif Require Import Base GoType Typing SpecWire SpecMsg SpecOut SpecIn Walker Api.
Local Open Scope N_scope.

(** ** Calls *)
Inductive request := AskSize (v : iface) | AskMarshal (v : iface) | AskUnmarshal (b : list N) (v : iface).
Inductive answer :=
| IsSize (a : api Z)
| IsMarshal (a : api (option (list N) * option err))
| IsUnmarshal (a : api (iface * option err)).
Definition request_arg (r : request) : iface := match r with AskSize v | AskMarshal v | AskUnmarshal _ v => v end.
Definition ask (D : decls) (r : request) (s : gstate) : answer * gstate :=
  match r with
  | AskSize v => (IsSize (fst (Size D v s)), snd (Size D v s))
  | AskMarshal v => (IsMarshal (fst (Marshal D v s)), snd (Marshal D v s))
  | AskUnmarshal b v => (IsUnmarshal (fst (Unmarshal D b v s)), snd (Unmarshal D b v s))
  end.
Fixpoint answers (D : decls) (rs : list request) (s : gstate) : list answer :=
  match rs with
  | [] => []
  | r :: rs => fst (ask D r s) :: answers D rs (snd (ask D r s))
  end.

(** ** Schemas up to the encoding of lists of integers *)
Definition other (s : sty) : sty :=
  match s with Y_int32 => Y_sint32 | Y_sint32 => Y_int32 | Y_int64 => Y_sint64 | Y_sint64 => Y_int64 | _ => s end.
(** [b] is [a], or [a] read as the other type, which another list of the schema has. *)
Definition alike_field (sch : schema) (a b : sfld) : Prop :=
  a = b \/ exists n s, a = Field n (FRepeated (FAlways s)) /\ b = Field n (FRepeated (FAlways (other s))) /\
    In (FRepeated (FAlways (other s))) (fields_of sch).
Definition alike (sch sch' : schema) : Prop := Forall2 (Forall2 (alike_field sch)) sch sch'.

(** No list of sfixed32 beside one of sint32, nor of sfixed64 beside sint64. *)
Definition sty_eq_dec (a b : sty) : {a = b} + {a <> b}.
Proof. decide equality. Defined.
Definition lists_of (sch : schema) (s : sty) : bool :=
  existsb (fun f => match f with FRepeated (FAlways t) => if sty_eq_dec t s then true else false | _ => false end) (fields_of sch).
Definition separate (sch : schema) : bool :=
  negb (lists_of sch Y_sint32 && lists_of sch Y_sfixed32) && negb (lists_of sch Y_sint64 && lists_of sch Y_sfixed64).

(** ** Answers for messages of a schema: [output_msg] and [merge_any] of
    SpecOut.v and SpecIn.v. Nothing is said about other arguments, or values
    that are not of the type. *)
Definition right_answer (D : decls) (sch : schema) (r : request) (a : answer) : Prop :=
  match r, a with
  | AskSize (IPtr (SNamed m) (Some (VStruct xs))), IsSize x =>
    let o := output_msg sch xs (msg sch m) in
    wts D (VStruct xs) (SNamed m) = true -> fst o < 2^63 -> x = Returns (Z.of_N (fst o))
  | AskMarshal (IPtr (SNamed m) (Some (VStruct xs))), IsMarshal x =>
    let o := output_msg sch xs (msg sch m) in
    wts D (VStruct xs) (SNamed m) = true -> fst o < 2^63 ->
    x = match snd o with Some b => Returns (Some b, None) | None => Panics Confused end
  | AskUnmarshal b (IPtr (SNamed m) (Some (VStruct ys))), IsUnmarshal x =>
    wts D (VStruct ys) (SNamed m) = true -> forallb fresh ys = true -> bytes_okb b = true -> (zlen b < 2^63)%Z ->
    forall zs, map norm ys = map norm zs ->
    match merge_any sch (S (length b)) (msg sch m) zs b with
    | MOk zs => exists ys', x = Returns (IPtr (SNamed m) (Some (VStruct ys')), None) /\ map norm ys' = map norm zs /\
                  forallb fresh ys' = true /\ wts D (VStruct ys') (SNamed m) = true
    | MBad => exists y e, x = Returns (IPtr (SNamed m) (Some y), Some e)
    | MFuel => False
    end
  | AskSize _, IsSize _ | AskMarshal _, IsMarshal _ | AskUnmarshal _ _, IsUnmarshal _ => True
  | _, _ => False
  end.

(** ** Writing and reading in one program *)
Definition state_after (D : decls) (rs : list request) (s : gstate) : gstate := fold_left (fun s r => snd (ask D r s)) rs s.
(** The message meets no deviation, however its lists are encoded. *)
Definition writable (sch : schema) (m : nat) (xs : list val) : Prop := forall sch', alike sch sch' ->
  encodable_msg sch' xs (msg sch' m) = true /\ (zlen (ser (message sch' xs (msg sch' m))) < 2^63)%Z.
