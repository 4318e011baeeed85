(** Size, Marshal and Unmarshal on supported declarations, in any reachable
    state of the caches. *)
From Coq Require Import ZifyBool ZifyNat ZifyN.
From Verif Require Import Base Wire GoType Leaf Codec Tag Walker Api Resolve Typing CodecSim SpecWire SpecTag SpecMsg
  WireFacts DecodeFacts GenFacts TypingFacts WalkInv WalkSpec WalkFuel WalkSeq EncFacts MsgResolve MsgDec.
Local Open Scope Z_scope.
Ltac Zify.zify_post_hook ::= Z.div_mod_to_equations.

Section Api.
Variable D : decls.
Hypothesis HP : supported D = true.
Let HF : decls_fit D = true := HD_fit D HP.

(** ** The result of Unmarshal does not depend on the caches *)
Definition unm (k : skey) (r : lres) : api (iface * option err) :=
  match r with
  | LOk x => Returns (IPtr k (Some x), None)
  | LErr x e => Returns (IPtr k (Some x), Some e)
  | LCrash c => Panics c
  | LFuel => Diverges
  end.
Lemma unmarshal_fst s k b x : reachable D s -> user_key D k = true -> wts D x k = true -> bytes_okb b = true -> small b ->
  fst (Unmarshal D b (IPtr k (Some x)) s) = unm k (pdecode D k b x) /\
  ((exists x', pdecode D k b x = LOk x' /\ wts D x' k = true) \/ (exists x' e, pdecode D k b x = LErr x' e /\ wts D x' k = true)).
Proof.
  intros Hr Hk Hx Hb Hs. destruct (unmarshal_pure D HP s k b x (reachable_SInv D HP s Hr) Hk Hx Hb Hs) as (s' & _ & [(x' & P & W & E)|(x' & e & P & W & E)]);
    rewrite E, P; cbn [unm fst]; eauto 8.
Qed.
(** Any fuel that suffices gives the same. *)
Lemma pdecode_fuel f k b x r : user_key D k = true -> wts D x k = true -> bytes_okb b = true -> small b ->
  ldecs plook (piget D) D f k b x = r -> r <> LFuel -> pdecode D k b x = r.
Proof.
  intros Hk Hx Hb Hs E Hr. unfold pdecode.
  assert (F : (1 + length b * (decls_depth D + 4) <= decode_fuel D b)%nat) by (unfold decode_fuel; lia).
  assert (P : ldecs plook (piget D) D (decode_fuel D b) k b x <> LFuel).
  { destruct (ldecs_total D HF k b x (decode_fuel D b) (user_key_ok D k Hk) Hx Hb Hs F) as [(x' & L & _)|(x' & e & L & _)]; rewrite L; discriminate. }
  destruct (Nat.le_ge_cases f (decode_fuel D b)).
  - rewrite (ldecs_mono plook (piget D) D f (decode_fuel D b) k b x); congruence.
  - rewrite <- (ldecs_mono plook (piget D) D (decode_fuel D b) f k b x); congruence.
Qed.

(** ** C12 *)
Lemma unmarshal_total_proof s k b x : reachable D s -> user_key D k = true -> wts D x k = true -> bytes_okb b = true -> zlen b < Z63 ->
  exists x' e, fst (Unmarshal D b (IPtr k (Some x)) s) = Returns (IPtr k (Some x'), e) /\ wts D x' k = true.
Proof.
  intros Hr Hk Hx Hb Hs. destruct (unmarshal_fst s k b x Hr Hk Hx Hb Hs) as [-> [(x' & -> & W)|(x' & e & -> & W)]]; cbn [unm]; eauto.
Qed.

(** ** C14 *)
Lemma concat_merge_proof s1 s2 s3 k a b x x1 : reachable D s1 -> reachable D s2 -> reachable D s3 ->
  user_key D k = true -> wts D x k = true -> bytes_okb (a ++ b) = true -> zlen (a ++ b) < Z63 ->
  fst (Unmarshal D a (IPtr k (Some x)) s1) = Returns (IPtr k (Some x1), None) ->
  fst (Unmarshal D (a ++ b) (IPtr k (Some x)) s2) = fst (Unmarshal D b (IPtr k (Some x1)) s3).
Proof.
  intros R1 R2 R3 Hk Hx Hb Hs H. rewrite bytes_okb_app in Hb. apply andb_true_iff in Hb as Hb'. destruct Hb' as [Ha Hbb].
  pose proof (small_app_l a b Hs) as Sa. pose proof (small_app_r a b Hs) as Sb.
  destruct (unmarshal_fst s1 k a x R1 Hk Hx Ha Sa) as [E1 P1]. rewrite H in E1.
  destruct P1 as [(x' & P1 & W1)|(x' & e & P1 & W1)]; rewrite P1 in E1; cbn [unm] in E1; inversion E1; subst x'.
  rewrite <- bytes_okb_app in Hb.
  destruct (unmarshal_fst s2 k (a ++ b) x R2 Hk Hx Hb Hs) as [-> _].
  destruct (unmarshal_fst s3 k b x1 R3 Hk W1 Hbb Sb) as [-> P3]. f_equal.
  eapply pdecode_fuel; try eassumption; [|destruct P3 as [(? & -> & _)|(? & ? & -> & _)]; discriminate].
  unfold pdecode at 1 in P1. eapply ldecs_app; [exact Sa|exact P1|unfold pdecode; reflexivity|]. destruct P3 as [(? & -> & _)|(? & ? & -> & _)]; discriminate.
Qed.

(** ** C13 *)
Lemma truncation_proof s1 s2 s3 k p q x x' : reachable D s1 -> reachable D s2 -> reachable D s3 ->
  user_key D k = true -> wts D x k = true -> bytes_okb (p ++ q) = true -> zlen (p ++ q) < Z63 ->
  fst (Unmarshal D (p ++ q) (IPtr k (Some x)) s1) = Returns (IPtr k (Some x'), None) ->
  (exists x1, fst (Unmarshal D p (IPtr k (Some x)) s2) = Returns (IPtr k (Some x1), None) /\
              fst (Unmarshal D q (IPtr k (Some x1)) s3) = Returns (IPtr k (Some x'), None)) \/
  (exists x1 e, fst (Unmarshal D p (IPtr k (Some x)) s2) = Returns (IPtr k (Some x1), Some e) /\ err_cause e = ErrUnexpectedEOF).
Proof.
  intros R1 R2 R3 Hk Hx Hb Hs H. rewrite bytes_okb_app in Hb. apply andb_true_iff in Hb as Hb'. destruct Hb' as [Ha Hbb].
  rewrite <- bytes_okb_app in Hb.
  pose proof (small_app_l p q Hs) as Sa. pose proof (small_app_r p q Hs) as Sb.
  destruct (unmarshal_fst s1 k (p ++ q) x R1 Hk Hx Hb Hs) as [E1 P1]. rewrite H in E1.
  destruct P1 as [(x0 & P1 & W1)|(x0 & e & P1 & W1)]; rewrite P1 in E1; cbn [unm] in E1; inversion E1; subst x0.
  destruct (unmarshal_fst s2 k p x R2 Hk Hx Ha Sa) as [-> P2].
  unfold pdecode in P1. destruct (ldecs_trunc _ _ _ _ _ _ _ _ _ Sa P1) as [(x1 & A & B)|(x1 & e & A & B)].
  - left. apply pdecode_fuel in A; try assumption; [|discriminate]. exists x1. rewrite A. split; [reflexivity|].
    assert (Wx : wts D x1 k = true) by (destruct P2 as [(x2 & P2 & W2)|(x2 & e2 & P2 & W2)]; congruence).
    destruct (unmarshal_fst s3 k q x1 R3 Hk Wx Hbb Sb) as [-> _].
    apply pdecode_fuel in B; try assumption; [|discriminate]. rewrite B. reflexivity.
  - right. apply pdecode_fuel in A; try assumption; [|discriminate]. exists x1, e. rewrite A. split; [reflexivity|exact B].
Qed.

(** ** C18 *)
Lemma error_structure_proof s k b x x' e : reachable D s -> user_key D k = true -> wts D x k = true -> bytes_okb b = true -> zlen b < Z63 ->
  fst (Unmarshal D b (IPtr k (Some x)) s) = Returns (IPtr k (Some x'), Some e) ->
  cause_ok e /\
  (e = ErrUnexpectedEOF \/ e = ErrVarintOverflow \/
   exists tag e', occurs b tag /\ e = UnmarshalFieldError (Z.of_N (tag / 8)) (Z.of_N (tag mod 8)) e').
Proof.
  intros R Hk Hx Hb Hs H. destruct (unmarshal_fst s k b x R Hk Hx Hb Hs) as [E P]. rewrite H in E.
  destruct P as [(x0 & P & W)|(x0 & e0 & P & W)]; rewrite P in E; cbn [unm] in E; inversion E; subst x0 e0.
  unfold pdecode in P. split; [eapply (proj2 (err_causes plook (piget D) D (decode_fuel D b))); eassumption|].
  destruct (ldecs_err_pos _ _ _ _ _ _ _ _ _ Hs P) as (p & q & Eb & Q). destruct (read_varint q) as [v n r| |] eqn:Er; [|auto..].
  right. right. destruct Q as (e' & Q). exists v, e'. split; [exists p, q, n, r; auto|].
  rewrite Q. unfold fieldError. apply read_varint_ok in Er. destruct Er as [Hv _]. change (2^64)%N with 18446744073709551616%N in Hv.
  unfold s64. f_equal; destruct (_ <? _)%Z eqn:E2; unfold Z63, Z64 in *; lia.
Qed.

(** ** C22 *)
Lemma history_proof s1 s2 v b : reachable D s1 -> reachable D s2 -> iface_ok D v = true ->
  match v with IPtr k (Some x) => wts D x k = true | _ => True end -> bytes_okb b = true -> zlen b < Z63 ->
  fst (Size D v s1) = fst (Size D v s2) /\ fst (Marshal D v s1) = fst (Marshal D v s2) /\
  fst (Unmarshal D b v s1) = fst (Unmarshal D b v s2).
Proof.
  intros R1 R2 Hv Hx Hb Hs.
  assert (U0 : forall v, (match v with IPtr k (Some x) => False | _ => True end) -> fst (Unmarshal D b v s1) = fst (Unmarshal D b v s2)).
  { intros [| | |k [x|]] F; try contradiction; unfold Unmarshal; destruct (zlen b =? 0); reflexivity. }
  destruct v as [| | |k o]; try (split; [reflexivity|]; split; [reflexivity|]; apply U0; exact Logic.I).
  cbn [iface_ok] in Hv. pose proof (reachable_SInv D HP s1 R1) as I1. pose proof (reachable_SInv D HP s2 R2) as I2.
  destruct (size_pure D HP s1 k o I1 Hv) as (? & _ & ->). destruct (size_pure D HP s2 k o I2 Hv) as (? & _ & ->).
  destruct (marshal_pure D HP s1 k o I1 Hv) as (? & _ & ->). destruct (marshal_pure D HP s2 k o I2 Hv) as (? & _ & ->).
  split; [reflexivity|]. split; [reflexivity|]. destruct o as [y|]; [|apply U0; exact Logic.I].
  destruct (unmarshal_fst s1 k b y R1 Hv Hx Hb Hs) as [-> _]. destruct (unmarshal_fst s2 k b y R2 Hv Hx Hb Hs) as [-> _]. reflexivity.
Qed.

(** ** C06 *)
Lemma size_exact_proof s1 s2 k x : reachable D s1 -> reachable D s2 -> user_key D k = true -> wts D x k = true -> homogeneous D = true ->
  exists b, fst (Marshal D (IPtr k (Some x)) s1) = Returns (Some b, None) /\ fst (Size D (IPtr k (Some x)) s2) = Returns (zlen b).
Proof.
  intros R1 R2 Hk Hx HH. pose proof (reachable_SInv D HP s1 R1) as I1. pose proof (reachable_SInv D HP s2 R2) as I2.
  destruct (marshal_pure D HP s1 k (Some x) I1 Hk) as (? & _ & ->). destruct (size_pure D HP s2 k (Some x) I2 Hk) as (? & _ & ->).
  assert (A : agrees D x k = true) by (apply homogeneous_agrees; auto using user_key_ok; intros a b c d ->; discriminate).
  destruct (struct_enc_sized D HF k x (user_key_ok D k Hk) Hx A) as (t & E1 & E2). rewrite E1, E2. cbn. eauto.
Qed.
(** Without the condition on maps, Size still returns. *)
Lemma size_returns_proof s k x : reachable D s -> user_key D k = true -> wts D x k = true ->
  exists n, fst (Size D (IPtr k (Some x)) s) = Returns n.
Proof.
  intros R Hk Hx. destruct (size_pure D HP s k (Some x) (reachable_SInv D HP s R) Hk) as (? & _ & ->).
  destruct (struct_size_fine D HF k x (user_key_ok D k Hk) Hx) as (n & ->). cbn. eauto.
Qed.
End Api.

(** ** C19 *)
Lemma api_arguments_proof D s b :
  Marshal D INonPtr s = (Returns (None, Some ErrNotAPointer), s) /\
  (forall k, supported D = true -> reachable D s -> user_key D k = true ->
     fst (Marshal D (IPtr k None) s) = Returns (Some [], None) /\ fst (Size D (IPtr k None) s) = Returns 0%Z) /\
  (b <> [] -> forall v, match v with INil | IPtr _ (Some _) => False | _ => True end ->
     Unmarshal D b v s = (Returns (v, Some InvalidUnmarshalError), s)) /\
  (forall v, Unmarshal D [] v s = (Returns (v, None), s)).
Proof.
  split; [reflexivity|]. split; [|split; [|reflexivity]].
  - intros k HP R Hk. pose proof (reachable_SInv D HP s R) as I.
    destruct (marshal_pure D HP s k None I Hk) as (? & _ & ->). destruct (size_pure D HP s k None I Hk) as (? & _ & ->). split; reflexivity.
  - intros Hb v Hv. unfold Unmarshal. destruct b as [|c b]; [contradiction|]. change (zlen (c :: b) =? 0) with false.
    destruct v as [| | |k [x|]]; try contradiction; reflexivity.
Qed.
Lemma api_arguments_refuted_proof D s b : b <> [] ->
  fst (Unmarshal D b INil s) = Panics NilDeref /\ fst (Marshal D INil s) = Panics NilDeref /\ fst (Size D INonPtr s) = Panics Unsupported.
Proof. intros Hb. unfold Unmarshal. destruct b as [|c b]; [contradiction|]. repeat split. Qed.

(** ** C41 *)
Lemma walk_terminates_proof D s k : match k with SEntry _ _ _ _ => False | _ => True end ->
  fst (run (cachedStructInfoOf D (walk_fuel D) k) s) <> OutOfFuel.
Proof. intros Hk. eapply nof_run. apply cached_nof. destruct k; try contradiction; reflexivity. Qed.
