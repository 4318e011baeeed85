(** Marshal with one version of a schema, Unmarshal with another. *)
From Coq Require Import ZifyBool ZifyNat ZifyN.
From Verif Require Import Base Wire GoType Leaf Codec Tag Walker Api Resolve Typing CodecSim SpecWire SpecTag SpecMsg SpecLib SpecExact SpecVersions
  WireFacts DecodeFacts GenFacts TypingFacts WalkInv WalkSpec WalkSeq EncFacts MsgResolve MsgEnc MsgDec MsgRound MsgFit MsgApi TidyFacts ExactThms MsgVersions.
Local Open Scope Z_scope.
Ltac Zify.zify_post_hook ::= Z.div_mod_to_equations.

Theorem versions_proof D sch D' sch' : covers D sch = true -> covers D' sch' = true -> understood sch sch' ->
  forall s s' m xs, reachable D s -> reachable D' s' -> (m < length D')%nat -> wts D (VStruct xs) (SNamed m) = true ->
  encodable_msg sch xs (msg sch m) = true -> zlen (ser (message sch xs (msg sch m))) < 2^63 ->
  exists b ys, fst (Marshal D (ptr m xs) s) = Returns (Some b, None) /\
    fst (Unmarshal D' b (ptr m (zeros (msg sch' m))) s') = Returns (ptr m ys, None) /\
    map shown ys = map norm (translate_msg sch sch' xs (msg sch m) (msg sch' m)) /\ wts D' (VStruct ys) (SNamed m) = true.
Proof.
  intros HV HV' HU s s' m xs Hr Hr' Hm Hw He Hsm.
  destruct (covers_facts _ _ HV) as (HI & HS & HC & _). destruct (covers_facts _ _ HV') as (_ & HS' & HC' & _).
  pose proof (wts_msg _ _ _ Hw) as [Hk Hw'].
  assert (Hk' : user_key D' (SNamed m) = true) by (apply Nat.ltb_lt; exact Hm).
  destruct (marshal_spec D sch HV s m xs Hr Hw He Hsm) as [_ M].
  destruct (merge_versions sch sch' D HI HS HC HS' HC' HU m xs Hw' He Hsm) as (zs & G & N & P & B).
  pose proof (unmarshal_exact_proof D' sch' HV' s' m (zeros (msg sch' m)) (zeros (msg sch' m)) _ Hr' (zeros_wts D' sch' HV' m Hk') (zeros_fresh _) (zeros_tidy _) eq_refl B Hsm P) as U.
  unfold mg in G. rewrite G in U. destruct U as (ys & U & Ny & _ & _ & Wy). eauto 8 using eq_trans.
Qed.

Lemma unknown_proof D sch D' sch' : covers D sch = true -> covers D' sch' = true -> understood sch sch' ->
  forall s s' m xs b ys, reachable D s -> reachable D' s' -> (m < length D')%nat -> wts D (VStruct xs) (SNamed m) = true ->
  encodable_msg sch xs (msg sch m) = true -> zlen (ser (message sch xs (msg sch m))) < 2^63 ->
  fst (Marshal D (ptr m xs) s) = Returns (Some b, None) ->
  fst (Unmarshal D' b (ptr m (zeros (msg sch' m))) s') = Returns (ptr m ys, None) ->
  forall j n f', nth_error (msg sch' m) j = Some (Field n f') ->
    (forall i f x, nth_error (msg sch m) i = Some (Field n f) -> nth_error xs i = Some x ->
      option_map shown (nth_error ys j) = Some (norm (translate sch sch' x f f'))) /\
    (~ In n (numbers (msg sch m)) -> option_map shown (nth_error ys j) = Some (norm (zero (go_type f')))).
Proof.
  intros HV HV' HU s s' m xs b ys Hr Hr' Hm Hw He Hsm M U j n f' Hj.
  destruct (versions_proof D sch D' sch' HV HV' HU s s' m xs Hr Hr' Hm Hw He Hsm) as (b2 & ys2 & M2 & U2 & N & _).
  rewrite M2 in M. inversion M; subst b2. rewrite U2 in U. inversion U; subst ys2. clear M U.
  assert (E : option_map shown (nth_error ys j) = Some (norm (pick sch sch' n f' xs (msg sch m)))).
  { rewrite <- nth_error_map, N. unfold translate_msg. rewrite !nth_error_map, Hj. reflexivity. }
  split.
  - intros i f x Hi Hx. rewrite E. f_equal. f_equal.
    destruct (covers_facts _ _ HV) as (_ & HS & _ & _). destruct (schema_ok_msg sch HS m) as (_ & Hnd & _).
    clear - Hnd Hi Hx. revert i xs Hnd Hi Hx. generalize (msg sch m). induction l as [|g l IH]; intros i xs Hnd Hi Hx; [destruct i; discriminate|].
    destruct i as [|i]; destruct xs as [|y xs]; try discriminate; cbn [nth_error] in Hi, Hx.
    + inversion Hi; inversion Hx; subst. cbn [pick]. rewrite N.eqb_refl. reflexivity.
    + destruct g as [t|n' g]; cbn [pick].
      * apply (IH i); assumption.
      * cbn [numbers nodup_N] in Hnd. apply andb_true_iff in Hnd. destruct Hnd as [H1 H2]. destruct (N.eqb_spec n' n) as [->|]; [|apply (IH i); assumption].
        exfalso. apply negb_true_iff in H1. assert (existsb (N.eqb n) (numbers l) = true); [|congruence].
        apply existsb_exists. exists n. split; [eapply nth_numbers; exact Hi|apply N.eqb_refl].
  - intros Hn. rewrite E, pick_none by exact Hn. reflexivity.
Qed.

Theorem relay_proof D sch D' sch' : covers D sch = true -> covers D' sch' = true -> understood sch sch' -> understood sch' sch ->
  forall s s' s2' s2 m xs b ys, reachable D s -> reachable D' s' -> reachable D' s2' -> reachable D s2 -> (m < length D')%nat -> wts D (VStruct xs) (SNamed m) = true ->
  encodable_msg sch xs (msg sch m) = true -> zlen (ser (message sch xs (msg sch m))) < 2^63 ->
  fst (Marshal D (ptr m xs) s) = Returns (Some b, None) ->
  fst (Unmarshal D' b (ptr m (zeros (msg sch' m))) s') = Returns (ptr m ys, None) ->
  encodable_msg sch' ys (msg sch' m) = true -> zlen (ser (message sch' ys (msg sch' m))) < 2^63 ->
  exists b' zs, fst (Marshal D' (ptr m ys) s2') = Returns (Some b', None) /\
    fst (Unmarshal D b' (ptr m (zeros (msg sch m))) s2) = Returns (ptr m zs, None) /\
    forall j n f, nth_error (msg sch m) j = Some (Field n f) ->
    (forall i f' y, nth_error (msg sch' m) i = Some (Field n f') -> nth_error ys i = Some y ->
      option_map shown (nth_error zs j) = Some (norm (translate sch' sch y f' f))) /\
    (~ In n (numbers (msg sch' m)) -> option_map shown (nth_error zs j) = Some (norm (zero (go_type f)))).
Proof.
  intros HV HV' HU HU' s s' s2' s2 m xs b ys R1 R2 R3 R4 Hm Hw He Hsm M U He' Hsm'.
  destruct (versions_proof D sch D' sch' HV HV' HU s s' m xs R1 R2 Hm Hw He Hsm) as (b2 & ys2 & M2 & U2 & _ & Wy).
  rewrite M2 in M. inversion M; subst b2. rewrite U2 in U. inversion U; subst ys2. clear M U.
  pose proof (wts_msg _ _ _ Hw) as [Hk _]. apply Nat.ltb_lt in Hk.
  destruct (versions_proof D' sch' D sch HV' HV HU' s2' s2 m ys R3 R4 Hk Wy He' Hsm') as (b' & zs & M3 & U3 & _ & _).
  exists b', zs. split; [exact M3|]. split; [exact U3|].
  exact (unknown_proof D' sch' D sch HV' HV HU' s2' s2 m ys b' zs R3 R4 Hk Wy He' Hsm' M3 U3).
Qed.

(** ** Numbers *)
Theorem become_proof D s s' v : change s s' = true -> wt D v (TScalar (go_kind s)) = true ->
  wt D (become s' v) (TScalar (go_kind s')) = true /\
  ((exists w, wt D w (TScalar (go_kind s')) = true /\ number w = number v) -> number (become s' v) = number v) /\
  (go_kind s = go_kind s' -> become s' v = v).
Proof.
  intros Hc Hw. assert (Hn : not_sfixed s = true) by (destruct s, s'; try discriminate Hc; reflexivity).
  split; [|split].
  - destruct s'; cbn [become go_kind wt];
      try (unfold in_i32, in_i64, Z31, Z63 in *; change (2^31) with 2147483648; change (2^32) with 4294967296; change (2^63) with 9223372036854775808;
           change (2^64) with 18446744073709551616; lia);
      try (unfold M64; change (2^32)%N with 4294967296%N; change (2^64)%N with 18446744073709551616%N; change (2^32) with 4294967296; change (2^64) with 18446744073709551616; lia);
      try (destruct s; try discriminate Hc; exact Hw).
    destruct s; try discriminate Hc; cbn [go_kind] in Hw; wtd v; cbn [number wt] in *; unfold in_i32, in_i64, Z31, Z63 in *; lia.
  - intros (w & Ww & Nw). clear Hc Hw Hn.
    destruct s'; cbn [go_kind] in Ww; wtd w; cbn [become]; try (exact eq_refl); cbn [number wt] in *.
    + unfold in_i32, Z31 in Ww. change (2^31) with 2147483648. change (2^32) with 4294967296. lia.
    + unfold in_i64, Z63 in Ww. change (2^63) with 9223372036854775808. change (2^64) with 18446744073709551616. lia.
    + apply N.ltb_lt in Ww. change (2^32)%N with 4294967296%N in Ww. change (2^32) with 4294967296. lia.
    + apply (wt_u64 D) in Ww. change (2^64)%N with 18446744073709551616%N in Ww. change (2^64) with 18446744073709551616. lia.
  - intros Hk. destruct (sty_eq_dec s s') as [<-|Hd]; [apply (become_same D); assumption|].
    destruct s, s'; try discriminate Hc; try discriminate Hk; contradiction Hd; reflexivity.
Qed.

(** ** The same version *)
Lemma compatible_refl f : ok_fty f = true -> compatible f f = true.
Proof.
  assert (C : forall s, not_sfixed s = true -> change s s = true) by (intros []; reflexivity || discriminate).
  induction f as [s|s|s|s| |m|e IH|k e IH]; intros H; cbn [ok_fty] in H; try (apply C; exact H); try reflexivity; try apply Nat.eqb_refl.
  - destruct e; try discriminate H; try apply Nat.eqb_refl; try reflexivity. apply C. exact H.
  - apply andb_true_iff in H. destruct H as [H1 H2]. cbn [compatible]. destruct (sty_eq_dec k k); [|contradiction]. cbn [andb].
    apply IH. apply val_ok. exact H2.
Qed.
Lemma understood_refl D sch : covers D sch = true -> understood sch sch.
Proof.
  intros HV m n f f' H1 H2. destruct (covers_facts _ _ HV) as (_ & HS & HC & _). destruct (schema_ok_msg sch HS m) as (_ & Hnd & _).
  destruct (In_nth_error _ _ H1) as [i Hi]. destruct (In_nth_error _ _ H2) as [j Hj].
  pose proof (nth_same _ Hnd n i j f f' Hi Hj) as E. subst j. rewrite Hi in Hj. inversion Hj; subst f'.
  apply compatible_refl. apply (msg_fields_ok sch HS HC m n f H1).
Qed.
Theorem same_version_proof D sch : covers D sch = true -> forall m xs, wts D (VStruct xs) (SNamed m) = true ->
  encodable_msg sch xs (msg sch m) = true -> zlen (ser (message sch xs (msg sch m))) < 2^63 ->
  map norm (translate_msg sch sch xs (msg sch m) (msg sch m)) = map norm (kept_msg sch xs (msg sch m)).
Proof.
  intros HV m xs Hw He Hsm. destruct (covers_facts _ _ HV) as (HI & HS & HC & _). pose proof (wts_msg _ _ _ Hw) as [_ Hw'].
  destruct (merge_versions sch sch D HI HS HC HS HC (understood_refl D sch HV) m xs Hw' He Hsm) as (zs & G & N & _).
  destruct (merge_message sch D HI HS HC m xs Hw' He Hsm) as (zs' & G' & N' & _). congruence.
Qed.
