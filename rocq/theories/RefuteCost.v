(** A full slice doubles: the target counts, not only the input. *)
From Coq Require Import String ZifyBool ZifyNat ZifyN.
From Verif Require Import Base Wire GoType Leaf Codec Tag Walker Api Typing SpecCost Cost DecodeFacts CostFacts Sample WalkSeq.
Local Open Scope Z_scope.

(** type M struct { A []int32 `protobuf:"varint,1,rep"` } *)
Definition listD : decls := [[sfield "varint,1,rep" (TSlice (TScalar KInt32))]].
Lemma list_append a l : fst (Unmarshal listD [8; 1]%N (IPtr (SNamed 0) (Some (VStruct [VSlice true (a :: l) []]))) g_empty) =
  Returns (IPtr (SNamed 0) (Some (VStruct [VSlice true ((a :: l) ++ [VI32 1]) (repeat (VI32 0) (length l))])), None).
Proof.
  unfold Unmarshal. change (zlen [8; 1]%N =? 0) with false. cbv iota. unfold with_info.
  destruct (run (cachedStructInfoOf listD (walk_fuel listD) (SNamed 0)) g_empty) as [r s'] eqn:E. vm_compute in E. inversion E; subst. clear E. cbn [fst].
  change (decode_fuel listD [8; 1]%N) with 18%nat.
  rewrite decs_S. lazy -[dec decs].
  rewrite dec_S. lazy -[dec decs grow_spare length app].
  destruct (grow_spare_len (TScalar KInt32) (length (a :: l))) as (m & -> & Hm). cbn [length] in Hm. injection Hm as ->.
  lazy. reflexivity.
Qed.
Lemma mem_list l : total (map mem (l ++ [VI32 1])) = total (map mem l) + 8.
Proof. rewrite map_app, total_app. reflexivity. Qed.
Lemma additive_refuted_proof : exists D k, forall K, exists b x y,
  fst (Unmarshal D b (IPtr k (Some x)) g_empty) = Returns (IPtr k (Some y), None) /\ mem y > mem x + K * zlen b.
Proof.
  exists listD, (SNamed 0). intros K. set (n := Z.to_nat K).
  do 3 eexists. split; [apply (list_append (VI32 7) (repeat (VI32 7) n))|].
  cbn [mem map app]. rewrite !total_cons. change (total []) with 0. rewrite mem_list, List.repeat_length, !map_repeat_, !total_repeat. cbn [mem]. change (zlen [8; 1]%N) with 2. subst n. lia.
Qed.
