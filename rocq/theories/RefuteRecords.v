(** The order of records matters for bool, whose varint is read as one byte. *)
From Coq Require Import String.
From Verif Require Import Base Wire GoType Leaf Codec Tag Walker Api Typing WalkInv WalkSeq SpecWire SpecTag SpecMsg SpecExact SpecRecords Sample RefuteMsg MsgApi.
Local Open Scope N_scope.

(** [8; 129; 16] is a record of field 1, [26; 2; 1; 0] one of field 3, which is not in the schema.
    After the first two bytes of the former the code takes 16 for a tag: in the first order the value is 26, in the second it is missing. *)
Lemma order_matters_proof : exists D sch m xs l l', covers D sch = true /\ wts D (VStruct xs) (SNamed m) = true /\
  forallb fresh xs = true /\ forallb tidy xs = true /\ records_only l /\ records_only l' /\ same_order l l' /\ bytes_okb (concat l) = true /\
  (exists ys, fst (Unmarshal D (concat l) (ptr m xs) g_empty) = Returns (ptr m ys, None)) /\
  (exists ys e, fst (Unmarshal D (concat l') (ptr m xs) g_empty) = Returns (ptr m ys, Some e)).
Proof.
  exists boolintD, boolint, 0%nat, [VBool false; VI32 0], [[8; 129; 16]; [26; 2; 1; 0]], [[26; 2; 1; 0]; [8; 129; 16]].
  split; [reflexivity|]. split; [reflexivity|]. split; [reflexivity|]. split; [reflexivity|].
  split; [repeat constructor; discriminate|]. split; [repeat constructor; discriminate|].
  split; [unfold same_order; intros n; unfold of_field; cbn [filter]; repeat match goal with |- context[record_of ?c] => let v := eval vm_compute in (record_of c) in change (record_of c) with v end; cbv iota; destruct (N.eqb_spec 1 n) as [E|?]; destruct (N.eqb_spec 3 n) as [E'|?]; [rewrite <- E in E'; discriminate E'| | |]; reflexivity|].
  split; [reflexivity|]. split; repeat eexists; vm_compute; reflexivity.
Qed.
