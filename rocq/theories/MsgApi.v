(** Marshal, Size and Unmarshal on messages of a schema. *)
From Coq Require Import ZifyBool ZifyNat ZifyN.
From Verif Require Import Base Wire GoType Leaf Codec Tag Walker Api Resolve Typing CodecSim SpecWire SpecTag SpecMsg SpecLib
  WireFacts DecodeFacts GenFacts TypingFacts WalkInv WalkSpec WalkSeq EncFacts MsgResolve MsgEnc MsgDec MsgRound MsgFit.
Local Open Scope Z_scope.
Ltac Zify.zify_post_hook ::= Z.div_mod_to_equations.

(** A pointer to message number [m] with contents [xs]. *)
Notation ptr m xs := (IPtr (SNamed m) (Some (VStruct xs))).

Lemma covers_facts D sch : covers D sch = true ->
  implements D sch = true /\ schema_ok sch = true /\ in_scope sch = true /\ supported D = true.
Proof.
  unfold covers. intros H. rewrite !andb_true_iff in H. destruct H as [[[A B] C] E].
  repeat (split; [assumption|]). apply (schema_supported D sch); assumption.
Qed.
Lemma wts_msg D m xs : wts D (VStruct xs) (SNamed m) = true -> user_key D (SNamed m) = true /\ all2 (wt D) xs (field_types D m) = true.
Proof.
  intros H. destruct (wts_struct D (VStruct xs) (SNamed m)) as (xs' & E & W); [discriminate|exact H|]. inversion E; subst xs'.
  split; [|exact W]. cbn [wts wt] in H. cbn [user_key]. apply Nat.ltb_lt. apply nth_error_Some. destruct (nth_error D m); [discriminate|discriminate].
Qed.

Section Api.
Variables (D : decls) (sch : schema).
Hypothesis HV : covers D sch = true.
Let HI := proj1 (covers_facts D sch HV).
Let HS := proj1 (proj2 (covers_facts D sch HV)).
Let HC := proj1 (proj2 (proj2 (covers_facts D sch HV))).
Let HP := proj2 (proj2 (proj2 (covers_facts D sch HV))).

Theorem marshal_spec s m xs : reachable D s -> wts D (VStruct xs) (SNamed m) = true ->
  encodable_msg sch xs (msg sch m) = true -> zlen (ser (message sch xs (msg sch m))) < Z63 ->
  fst (Size D (ptr m xs) s) = Returns (zlen (ser (message sch xs (msg sch m)))) /\
  fst (Marshal D (ptr m xs) s) = Returns (Some (ser (message sch xs (msg sch m))), None).
Proof.
  intros Hr Hw He Hsm. apply wts_msg in Hw. destruct Hw as [Hk Hw]. pose proof (reachable_SInv D HP s Hr) as HR.
  destruct (struct_enc_spec D sch HI HS HC m xs [] Hw He Hsm) as [E1 E2].
  destruct (size_pure D HP s (SNamed m) (Some (VStruct xs)) HR Hk) as (s1 & _ & A1).
  destruct (marshal_pure D HP s (SNamed m) (Some (VStruct xs)) HR Hk) as (s2 & _ & A2).
  rewrite A1, A2, E1, E2. split; reflexivity.
Qed.

Theorem unmarshal_lib s m ys zs b : reachable D s -> wts D (VStruct ys) (SNamed m) = true -> forallb fresh ys = true ->
  map norm ys = map norm zs -> bytes_okb b = true -> zlen b < Z63 ->
  match merge_lib sch (S (length b)) (msg sch m) zs b with
  | MOk zs => exists ys', fst (Unmarshal D b (ptr m ys) s) = Returns (ptr m ys', None) /\ map norm ys' = map norm zs /\
                forallb fresh ys' = true /\ wts D (VStruct ys') (SNamed m) = true
  | MBad => exists x e, fst (Unmarshal D b (ptr m ys) s) = Returns (IPtr (SNamed m) (Some x), Some e)
  | MFuel => False
  end.
Proof.
  intros Hr Hw Hf Hn Hb Hs. pose proof (wts_msg _ _ _ Hw) as [Hk Hw']. pose proof (reachable_SInv D HP s Hr) as HR.
  assert (HF : decls_fit D = true) by (apply schema_fits with (sch := sch); assumption).
  destruct (unmarshal_pure D HP s (SNamed m) b (VStruct ys) HR Hk Hw Hb Hs) as (s' & _ & U).
  assert (K : key_fs D sch (SNamed m) (msg sch m)) by (split; [apply user_key_ok; exact Hk|left; eauto]).
  pose proof (merges_all D sch HI HS HC HF (S (length b)) (SNamed m) (msg sch m) b ys zs (decode_fuel D b) K (Nat.lt_succ_diag_r _) Hb Hs Hw Hf Hn) as M.
  fold (pdecode D (SNamed m) b (VStruct ys)) in M.
  destruct U as [(x' & P & W & E)|(x' & e & P & W & E)]; rewrite P in M; rewrite E; destruct M as [M|M]; try discriminate M.
  - destruct (merge_lib _ _ _ _ _) as [zs'| |]; [|destruct M as (? & ? & M); discriminate|exact M].
    destruct M as (ys' & M & N & F). inversion M; subst x'. exists ys'. cbn [fst]. auto.
  - destruct (merge_lib _ _ _ _ _) as [zs'| |]; [destruct M as (? & M & _); discriminate| |exact M]. exists x', e. reflexivity.
Qed.
Theorem unmarshal_spec s m ys zs b : reachable D s -> wts D (VStruct ys) (SNamed m) = true -> forallb fresh ys = true ->
  map norm ys = map norm zs -> bytes_okb b = true -> zlen b < Z63 -> plain sch (S (length b)) (msg sch m) b = true ->
  match merge sch (S (length b)) (msg sch m) zs b with
  | MOk zs => exists ys', fst (Unmarshal D b (ptr m ys) s) = Returns (ptr m ys', None) /\ map norm ys' = map norm zs /\
                forallb fresh ys' = true /\ wts D (VStruct ys') (SNamed m) = true
  | MBad => exists x e, fst (Unmarshal D b (ptr m ys) s) = Returns (IPtr (SNamed m) (Some x), Some e)
  | MFuel => False
  end.
Proof.
  intros Hr Hw Hf Hn Hb Hs Hp. rewrite <- lib_plain by exact Hp. apply unmarshal_lib; assumption.
Qed.

(** ** Marshal, then Unmarshal into a zero message *)
Lemma zeros_wts m : user_key D (SNamed m) = true -> wts D (VStruct (zeros (msg sch m))) (SNamed m) = true.
Proof.
  intros Hk. rewrite <- (zero_struct_of D sch HI). apply zero_struct_wts. apply user_key_ok. exact Hk.
Qed.
Lemma zeros_fresh fs : forallb fresh (zeros fs) = true.
Proof.
  unfold zeros. apply forallb_forall. intros x Hx. apply in_map_iff in Hx. destruct Hx as (f & <- & _).
  destruct (fld_type f) as [[]| |[]| | | | |]; reflexivity.
Qed.

Theorem roundtrip s1 s2 m xs : reachable D s1 -> reachable D s2 -> wts D (VStruct xs) (SNamed m) = true ->
  encodable_msg sch xs (msg sch m) = true -> zlen (ser (message sch xs (msg sch m))) < Z63 ->
  exists b ys, fst (Marshal D (ptr m xs) s1) = Returns (Some b, None) /\
    fst (Unmarshal D b (ptr m (zeros (msg sch m))) s2) = Returns (ptr m ys, None) /\
    map norm ys = map norm (kept_msg sch xs (msg sch m)) /\ wts D (VStruct ys) (SNamed m) = true.
Proof.
  intros Hr1 Hr2 Hw He Hsm. pose proof (wts_msg _ _ _ Hw) as [Hk Hw'].
  destruct (marshal_spec s1 m xs Hr1 Hw He Hsm) as [_ M].
  destruct (merge_message sch D HI HS HC m xs Hw' He Hsm) as (zs & G & N & P & B).
  pose proof (unmarshal_spec s2 m (zeros (msg sch m)) (zeros (msg sch m)) _ Hr2 (zeros_wts m Hk) (zeros_fresh _) eq_refl B Hsm P) as U.
  unfold mg in G. rewrite G in U. destruct U as (ys & U & Ny & _ & Wy). eauto 8 using eq_trans.
Qed.
End Api.
