(** Property theorems about the codecs of scalar fields and the generator of
    the required ones. [static (SC w Normal)] is the codec of normal_codec.go
    for the kind [w], [static (SC w Required)] the one of required_codec.go. *)
From Coq Require Import String.
From Verif Require Import Base Wire GoType Leaf Codec Tag Walker Resolve Typing SpecWire SpecMsg MsgEnc GenReq GenReqFacts.
Local Open Scope N_scope.

(** C38. The transformation applied to the text of normal_codec.go gives the
    text of required_codec.go, ... *)
Theorem required_generated : transform normal_file = required_file.
Proof. exact generated_proof. Qed.
Print Assumptions required_generated.
(** ... the two texts compute the functions of the model, ... *)
Theorem normal_text_meaning : forall w, means normal_file (kind_name w ++ "Codec") (static (SC w Normal)).
Proof. exact normal_means. Qed.
Print Assumptions normal_text_meaning.
Theorem required_text_meaning : forall w, means required_file (kind_name w ++ "RequiredCodec") (static (SC w Required)).
Proof. exact required_means. Qed.
Print Assumptions required_text_meaning.
(** ... and the transformation of any function body keeps what it computes in
    every state where the conditions of its top-level ifs hold. *)
Theorem transformation_sound : forall l s, guards l s -> exec (transformFuncBody l) s = exec l s.
Proof. exact transform_sound. Qed.
Print Assumptions transformation_sound.
Example transformation_sound_ex :
  let body := [SDef (ELoad LI32); SIf None (ENonzero EVar) [SSet (ECall2 "appendVarint" EBuf (ECall "uint64" EVar))] []; SRet EBuf] in
  guards body {| e_p := VI32 300; e_f := meta_of 8; e_v := None; e_b := [7] |} /\
  run_encode (transformFuncBody body) [7] (VI32 300) (meta_of 8) = OK [7; 172; 2] /\
  run_encode (transformFuncBody body) [7] (VI32 0) (meta_of 8) = OK [7; 0] /\ run_encode body [7] (VI32 0) (meta_of 8) = OK [7].
Proof. vm_compute. repeat split. Qed.
(** The two kinds of codec agree on values that are not zero, bit for bit; on
    zero the normal ones do nothing; they read alike. *)
Theorem required_agrees : forall w D v f b, wt D v (TScalar (kind_of w)) = true ->
  l_size (static (SC w Normal)) v f = (if is_zero v then OK 0%Z else l_size (static (SC w Required)) v f) /\
  l_encode (static (SC w Normal)) b v f = (if is_zero v then OK b else l_encode (static (SC w Required)) b v f) /\
  l_decode (static (SC w Normal)) = l_decode (static (SC w Required)).
Proof. exact normal_required_proof. Qed.
Print Assumptions required_agrees.
Example required_agrees_ex : wt [] (VF32 2147483648) (TScalar (kind_of WFloat32)) = true /\
  l_encode (static (SC WFloat32 Normal)) [] (VF32 2147483648) (meta_of 13) = OK [13; 0; 0; 0; 128] /\
  l_encode (static (SC WFloat32 Required)) [] (VF32 0) (meta_of 13) = OK [13; 0; 0; 0; 0].
Proof. vm_compute. repeat split. Qed.

(** C09, for every codec under every tag [t]: nothing for the zero value, else
    the tag and the payload of the value, from which it is read back bit for
    bit. *)
Theorem suppression_exact : forall w D v t b, t < 2^64 -> wt D v (TScalar (kind_of w)) = true -> scalar_small v ->
  let out := if is_zero v then [] else (vint t ++ ser_payload (pay (sty_of w) v))%list in
  l_encode (static (SC w Normal)) b v (meta_of t) = OK (b ++ out)%list /\ l_size (static (SC w Normal)) v (meta_of t) = OK (zlen out).
Proof. exact zero_written_proof. Qed.
Print Assumptions suppression_exact.
Theorem value_restored : forall w D v old, wt D v (TScalar (kind_of w)) = true -> wt D old (TScalar (kind_of w)) = true ->
  let p := ser_payload (pay (sty_of w) v) in (zlen p < 2^63)%Z -> l_decode (static (SC w Normal)) p old = DRet v (zlen p) None.
Proof. exact restored_proof. Qed.
Print Assumptions value_restored.
Example suppression_ex :
  l_encode (static (SC WFloat64 Normal)) [] (VF64 9223372036854775808) (meta_of 9) = OK [9; 0; 0; 0; 0; 0; 0; 0; 128] /\
  l_encode (static (SC WFloat64 Normal)) [] (VF64 9218868437227405313) (meta_of 9) = OK [9; 1; 0; 0; 0; 0; 0; 240; 127] /\
  l_encode (static (SC WFloat64 Normal)) [] (VF64 0) (meta_of 9) = OK [] /\
  l_decode (static (SC WFloat64 Normal)) [1; 0; 0; 0; 0; 0; 240; 127] (VF64 0) = DRet (VF64 9218868437227405313) 8 None.
Proof. vm_compute. repeat split. Qed.
