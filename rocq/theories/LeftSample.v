(** A number that was neither there nor sent. *)
From Coq Require Import String.
From Verif Require Import Base Wire GoType Leaf Codec Tag Walker Api Resolve Typing SpecWire SpecTag SpecMsg SpecLib SpecFailed SpecProto SpecOut SpecIn SpecLeft
  WalkSeq MsgApi ProtoGen ProtoThms OutSample.
Local Open Scope N_scope.

(** message S { sfixed32 a = 1; } *)
Definition soleF : descriptors := [{| m_entry := false; m_oneofs := []; m_fields := [plain_field 1 Sfixed32Kind] |}].
Lemma failed_number_proof : exists F xs b ys e,
  valid F = true /\ usable F = true /\ msg (schema_of F) 0 = [Field 1 (FImplicit Y_sfixed32); Hidden TOther] /\
  xs = [VI32 7; VOther 0] /\ merge (schema_of F) (S (List.length b)) (msg (schema_of F) 0) xs b = MOk [VI32 (-1); VOther 0] /\
  fst (Unmarshal (generate F) b (ptr 0 xs) g_empty) = Returns (ptr 0 ys, Some e) /\ ys = [VI32 268435455; VOther 0].
Proof.
  exists soleF, [VI32 7; VOther 0], [13; 255; 255; 255; 255], [VI32 268435455; VOther 0], (UnmarshalFieldError 1 5 ErrUnexpectedEOF). vm_compute. repeat split.
Qed.
