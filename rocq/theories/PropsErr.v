(** Property theorems about errors of Unmarshal. *)
From Coq Require Import String.
From Verif Require Import Base GoType Leaf Codec Walker Api Resolve WalkSeq Typing SpecWire Sample RefuteMsg SpecTrace ErrText SpecErrText ErrTextFacts TraceFacts.
Local Open Scope N_scope.

(** C18. Every error, at every level of nesting, belongs to a record of the
    input, for all declarations, states, targets and inputs. *)
Theorem error_traced : forall D s k b x x' e, reachable D s -> user_key D k = true -> (zlen b < 2^63)%Z ->
  fst (Unmarshal D b (IPtr k (Some x)) s) = Returns (IPtr k (Some x'), Some e) -> traced b e.
Proof. exact trace_all_proof. Qed.
Print Assumptions error_traced.
Example error_traced_ex : let t := IPtr (SNamed 0) (Some (VStruct kid)) in
  match fst (Unmarshal sampleD [82; 2; 16; 128] t g_empty) with
  | Returns (_, e) => e = Some (UnmarshalFieldError 10 2 (UnmarshalFieldError 2 0 ErrUnexpectedEOF))
  | _ => False
  end.
Proof. vm_compute. reflexivity. Qed.

(** C50. Every error of Unmarshal for its input is a path of fields and a
    cause; ... *)
Theorem error_located : forall D s k b x x' e, reachable D s -> user_key D k = true -> (zlen b < 2^63)%Z ->
  fst (Unmarshal D b (IPtr k (Some x)) s) = Returns (IPtr k (Some x'), Some e) -> exists path c, e = located path c.
Proof. exact unmarshal_located_proof. Qed.
Print Assumptions error_located.
(** ... its text determines both; ... *)
Theorem error_text_exact : forall p c p' c', error_text (located p c) = error_text (located p' c') -> p = p' /\ c = c'.
Proof. exact text_distinct_proof. Qed.
Print Assumptions error_text_exact.
(** ... the text names every field of the path and the cause; ... *)
Theorem error_has_text : forall p c, error_text (located p c) = Some (message p c).
Proof. exact text_message_proof. Qed.
Print Assumptions error_has_text.
(** ... and errors.Is finds the cause whatever the path. *)
Theorem errors_is_exact : forall p c c', match c' with C_expected _ => False | _ => True end ->
  errors_is (located p c) (cause_error c') = true <-> c = c'.
Proof. exact is_located. Qed.
Print Assumptions errors_is_exact.
Example error_text_ex : error_text (located [(10, 2); (2, 0)]%Z C_eof) = Some "field number 10 with wire type 2: field number 2 with wire type 0: unexpected EOF"%string /\
  error_text (located [(10, 2)]%Z (C_expected 0)) = Some "field number 10 with wire type 2: expected wire type 0"%string /\
  errors_is (located [(10, 2); (2, 0)]%Z C_eof) ErrUnexpectedEOF = true.
Proof. vm_compute. repeat split. Qed.
