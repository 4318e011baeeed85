From Verif Require Import Base Wire GoType Leaf Codec Tag Walker Api Resolve Typing SpecReject SpecClean WalkSeq
  Sample RefuteConc CleanThms.
Local Open Scope N_scope.

(** C24, C22. Whatever calls came before, and even if they panicked: a call with a
    struct type that is not broken gives what it gives in a fresh process. Only
    broken types can be affected by an earlier panic. Holds for all declarations
    in which no Go type is asked for with two different codecs and no field is
    accepted or rejected depending on what the walker has seen; values need not be
    well typed and inputs can be anything. *)
Theorem rejected_isolated_partial : forall D, tame D = true -> coherent D = true ->
  forall s k p, reachable D s -> user_key D k = true -> (forall m, k = SNamed m -> ~ broken D m) ->
  fst (Size D (IPtr k p) s) = fst (Size D (IPtr k p) g_empty) /\
  fst (Marshal D (IPtr k p) s) = fst (Marshal D (IPtr k p) g_empty) /\
  forall b, fst (Unmarshal D b (IPtr k p) s) = fst (Unmarshal D b (IPtr k p) g_empty).
Proof. exact isolated_clean. Qed.
Print Assumptions rejected_isolated_partial.
Example rejected_isolated_ex :
  tame mixedD = true /\ coherent mixedD = true /\ supported mixedD = false /\ ~ broken mixedD 2 /\
  (let s := snd (Marshal mixedD (IPtr (SNamed 0) (Some bad)) g_empty) in
   fst (Marshal mixedD (IPtr (SNamed 0) (Some bad)) g_empty) = Panics Unsupported /\
   fst (Marshal mixedD (IPtr (SNamed 2) (Some fine_val)) s) = Returns (Some [10; 4; 18; 0; 24; 7; 18; 4; 8; 3; 16; 1], None)).
Proof.
  split; [vm_compute; reflexivity|]. split; [vm_compute; reflexivity|]. split; [vm_compute; reflexivity|]. split; [|cbv zeta; split; vm_compute; reflexivity].
  assert (G : forall m, broken mixedD m -> m <> 2%nat); [|intros H; exact (G _ H eq_refl)].
  induction 1 as [m fs f Em Hf Hh|m fs f m' Em Hf Ht Hm Hb IH]; intros ->; vm_compute in Em; inversion Em; subst fs.
  - destruct Hf as [<-|[<-|[<-|[]]]]; vm_compute in Hh; discriminate.
  - apply IH. destruct Hf as [<-|[<-|[<-|[]]]]; try (vm_compute in Hm; discriminate). cbn in Hm. apply Nat.eqb_eq. exact Hm.
Qed.

(** C24. As long as no call has panicked, a broken type is rejected by all three
    functions, for all declarations. *)
Theorem broken_rejected_first : forall D m s p b x, (m < length D)%nat -> broken D m -> quiet D s -> b <> [] ->
  fst (Size D (IPtr (SNamed m) p) s) = Panics Unsupported /\
  fst (Marshal D (IPtr (SNamed m) p) s) = Panics Unsupported /\
  fst (Unmarshal D b (IPtr (SNamed m) (Some x)) s) = Panics Unsupported.
Proof. exact CleanFirst.broken_first_proof. Qed.
Print Assumptions broken_rejected_first.
Example broken_rejected_ex : broken mixedD 1 /\ quiet mixedD (snd (Marshal mixedD (IPtr (SNamed 2) (Some fine_val)) g_empty)) /\
  g_infoCache (snd (Marshal mixedD (IPtr (SNamed 2) (Some fine_val)) g_empty)) <> [].
Proof.
  split; [|split].
  - eapply broken_ref with (m' := 0%nat); [reflexivity|left; reflexivity|reflexivity|reflexivity|].
    eapply broken_field; [reflexivity|right; left; reflexivity|reflexivity].
  - apply quiet_marshal; [constructor|reflexivity|]. vm_compute. exact Logic.I.
  - vm_compute. discriminate.
Qed.

(** C24, C40. Which struct types are accepted, as long as no call has panicked: those
    that are not broken, and no others. *)
Theorem accepted_iff_not_broken : forall D, tame D = true -> coherent D = true -> forall s m, quiet D s -> (m < length D)%nat ->
  (broken D m -> fst (Size D (IPtr (SNamed m) None) s) = Panics Unsupported) /\
  (~ broken D m -> fst (Size D (IPtr (SNamed m) None) s) = Returns 0%Z).
Proof. exact accepted_clean. Qed.
Print Assumptions accepted_iff_not_broken.
Example accepted_iff_ex : fst (Size mixedD (IPtr (SNamed 1) None) g_empty) = Panics Unsupported /\
  fst (Size mixedD (IPtr (SNamed 2) None) g_empty) = Returns 0%Z.
Proof. vm_compute. split; reflexivity. Qed.

(** C22. The declarations the other theorems are about are a special case: supported
    ones are tame and coherent, and none of them is broken. *)
Theorem supported_is_clean : forall D, supported D = true -> tame D = true /\ coherent D = true /\ forall m, ~ broken D m.
Proof. exact supported_clean. Qed.
Print Assumptions supported_is_clean.
Example supported_is_clean_ex : supported nodeD = true /\ nodeD <> [].
Proof. split; [reflexivity|discriminate]. Qed.
