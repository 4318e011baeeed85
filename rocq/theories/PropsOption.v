(** Property theorems about the option codecs and their generator. *)
From Coq Require Import String.
From Verif Require Import Base Wire GoType Leaf Codec Tag Walker Resolve Typing GenReq GenReqFacts GenOpt GenOptFacts.
Local Open Scope string_scope.

(** C49. The template expanded for the twelve kinds is the text of
    option_codec.go; ... *)
Theorem option_generated : expand decoders = option_file.
Proof. exact option_generated_proof. Qed.
Print Assumptions option_generated.
(** ... the functions in that text, run on memory of type Option of the kind,
    compute the codecs of the model; ... *)
Theorem option_text_meaning : forall w, omeans option_file required_file (kind_name w ++ "OptionCodec") (kind_of w) (static (SC w Optional)).
Proof. exact option_means. Qed.
Print Assumptions option_text_meaning.
(** ... which are the required codecs where the option is set, and nothing
    where it is not; decoding sets the option. *)
Theorem option_exact : forall w s v b f,
  l_size (static (SC w Optional)) (VOpt s v) f = (if s then l_size (static (SC w Required)) v f else OK 0%Z) /\
  l_encode (static (SC w Optional)) b (VOpt s v) f = (if s then l_encode (static (SC w Required)) b v f else OK b) /\
  l_decode (static (SC w Optional)) b (VOpt s v) = dmap (VOpt true) (l_decode (static (SC w Normal)) b v).
Proof. exact option_exact_proof. Qed.
Print Assumptions option_exact.
Example option_ex :
  l_encode (static (SC WInt32 Optional)) [] (VOpt true (VI32 0)) (meta_of 8) = OK [8; 0]%N /\
  l_encode (static (SC WInt32 Optional)) [] (VOpt false (VI32 9)) (meta_of 8) = OK [] /\
  l_decode (static (SC WInt32 Optional)) [0]%N (VOpt false (VI32 9)) = DRet (VOpt true (VI32 0)) 1 None.
Proof. vm_compute. repeat split. Qed.
(** The methods of Option, for every type of value; [z] is its zero value. *)
Theorem option_laws : forall T (z d v : T) (o : goption T),
  IsSome (Some_ v) = true /\ IsSome (None_ z) = false /\ IsNone o = negb (IsSome o) /\
  Leaf.Unwrap z (Some_ v) = v /\ Leaf.Unwrap z (None_ z) = z /\ UnwrapOr (Some_ v) d = v /\ UnwrapOr (None_ z) d = d /\
  (IsSome o = true -> o = Some_ (Leaf.Unwrap z o)).
Proof. exact option_laws_proof. Qed.
Print Assumptions option_laws.
