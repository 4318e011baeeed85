(** Unmarshal and the round trip of Marshal and Unmarshal, exactly. *)
From Verif Require Import Base Wire GoType Leaf Codec Tag Walker Api Typing TypingFacts WireFacts DecodeFacts Resolve WalkInv WalkSeq ApiFacts SpecWire SpecTag SpecMsg SpecLib SpecExact TidyFacts MsgFit MsgResolve MsgEnc MsgDec MsgRound MsgApi MsgThms.

Lemma unmarshal_tidy_proof D : supported D = true -> forall s k b x x', reachable D s -> user_key D k = true -> wts D x k = true ->
  bytes_okb b = true -> (zlen b < 2^63)%Z -> tidy x = true -> fst (Unmarshal D b (IPtr k (Some x)) s) = Returns (IPtr k (Some x'), None) -> tidy x' = true.
Proof.
  intros HP s k b x x' Hr Hk Hw Hb Hs Ht HU. pose proof (reachable_SInv D HP s Hr) as HR.
  destruct (unmarshal_pure D HP s k b x HR Hk Hw Hb Hs) as (s' & _ & [(x1 & P & W & E)|(x1 & e & P & W & E)]); rewrite E in HU; inversion HU; subst.
  unfold pdecode in P. eapply decode_tidy; [exact Hs|exact Ht|exact P].
Qed.

Section Cov.
Variables (D : decls) (sch : schema).
Hypothesis HV : covers D sch = true.

Let HI := proj1 (covers_facts D sch HV).
Let HS := proj1 (proj2 (covers_facts D sch HV)).
Let HC := proj1 (proj2 (proj2 (covers_facts D sch HV))).
Let HP := proj2 (proj2 (proj2 (covers_facts D sch HV))).

Lemma unmarshal_exact_lib s m xs zs b : reachable D s ->
  wts D (VStruct xs) (SNamed m) = true -> forallb fresh xs = true -> forallb tidy xs = true -> map norm xs = map norm zs ->
  bytes_okb b = true -> (zlen b < 2^63)%Z ->
  match merge_lib sch (S (length b)) (msg sch m) zs b with
  | MOk zs' => exists xs', fst (Unmarshal D b (ptr m xs) s) = Returns (ptr m xs', None) /\
      map shown xs' = map norm zs' /\ forallb tidy xs' = true /\ forallb fresh xs' = true /\ wts D (VStruct xs') (SNamed m) = true
  | MBad => exists x e, fst (Unmarshal D b (ptr m xs) s) = Returns (IPtr (SNamed m) (Some x), Some e)
  | MFuel => False
  end.
Proof.
  intros Hr Hw Hf Ht Hn Hb Hs.
  pose proof (unmarshal_lib D sch HV s m xs zs b Hr Hw Hf Hn Hb Hs) as U.
  destruct (merge_lib _ _ _ _ _) as [zs'| |]; [|exact U|exact U]. destruct U as (xs' & U & N & F & W). exists xs'.
  assert (T : forallb tidy xs' = true).
  { pose proof (wts_msg _ _ _ Hw) as [Hk _]. exact (unmarshal_tidy_proof D HP s (SNamed m) b (VStruct xs) (VStruct xs') Hr Hk Hw Hb Hs Ht U). }
  rewrite <- (norm_shown_all _ T). auto.
Qed.
Lemma unmarshal_exact_proof s m xs zs b : reachable D s ->
  wts D (VStruct xs) (SNamed m) = true -> forallb fresh xs = true -> forallb tidy xs = true -> map norm xs = map norm zs ->
  bytes_okb b = true -> (zlen b < 2^63)%Z -> plain sch (S (length b)) (msg sch m) b = true ->
  match merge sch (S (length b)) (msg sch m) zs b with
  | MOk zs' => exists xs', fst (Unmarshal D b (ptr m xs) s) = Returns (ptr m xs', None) /\
      map shown xs' = map norm zs' /\ forallb tidy xs' = true /\ forallb fresh xs' = true /\ wts D (VStruct xs') (SNamed m) = true
  | MBad => exists x e, fst (Unmarshal D b (ptr m xs) s) = Returns (IPtr (SNamed m) (Some x), Some e)
  | MFuel => False
  end.
Proof.
  intros Hr Hw Hf Ht Hn Hb Hs Hp. rewrite <- lib_plain by exact Hp. apply unmarshal_exact_lib; assumption.
Qed.

Theorem roundtrip_exact_proof s1 s2 m xs : reachable D s1 -> reachable D s2 -> wts D (VStruct xs) (SNamed m) = true ->
  encodable_msg sch xs (msg sch m) = true -> (zlen (ser (message sch xs (msg sch m))) < 2^63)%Z ->
  exists b ys, fst (Marshal D (ptr m xs) s1) = Returns (Some b, None) /\
    fst (Unmarshal D b (ptr m (zeros (msg sch m))) s2) = Returns (ptr m ys, None) /\
    map shown ys = map norm (kept_msg sch xs (msg sch m)) /\ wts D (VStruct ys) (SNamed m) = true.
Proof.
  intros Hr1 Hr2 Hw He Hsm. pose proof (wts_msg _ _ _ Hw) as [Hk Hw'].
  destruct (marshal_spec D sch HV s1 m xs Hr1 Hw He Hsm) as [_ M].
  destruct (merge_message sch D HI HS HC m xs Hw' He Hsm) as (zs & G & N & P & B).
  pose proof (unmarshal_exact_proof s2 m (zeros (msg sch m)) (zeros (msg sch m)) _ Hr2 (zeros_wts D sch HV m Hk) (zeros_fresh _) (zeros_tidy _) eq_refl B Hsm P) as U.
  unfold mg in G. rewrite G in U. destruct U as (ys & U & Ny & _ & _ & Wy). eauto 8 using eq_trans.
Qed.

Lemma kept_intact : forall v f, intact sch v f -> kept sch v f = v.
Proof.
  fix IH 1. intros v f. destruct v as [| | | | | | | | | |nn items spare|[l|]|[x|]|xs|], f as [s|s|s|s| |m|e|k e]; try reflexivity; cbn [intact kept].
  - intros H. f_equal. induction items as [|y items IHl]; [reflexivity|]. cbn [flat_map]. destruct H as (A & B & C).
    rewrite A. cbn [app]. f_equal; [apply IH; exact B|apply IHl; exact C].
  - intros H. f_equal. f_equal. induction l as [|[a y] l IHl]; [reflexivity|]. cbn [map]. destruct H as (A & B).
    f_equal; [f_equal; apply IH; exact A|apply IHl; exact B].
  - destruct x as [| | | | | | | | | | | | |xs|]; try reflexivity. intros H. f_equal. f_equal. f_equal.
    revert H. generalize (msg sch m). induction xs as [|y xs IHl]; intros fs H; [destruct fs as [|[]]; reflexivity|].
    destruct fs as [|[t|n f] fs]; [destruct H|destruct H as [A B]..].
    + f_equal; [symmetry; exact A|apply IHl; exact B].
    + f_equal; [apply IH; exact A|apply IHl; exact B].
Qed.
Lemma kept_intact_msg : forall xs fs, intact_msg sch xs fs -> kept_msg sch xs fs = xs.
Proof.
  induction xs as [|y xs IH]; intros [|[t|n f] fs] H; cbn [intact_msg kept_msg] in *; try reflexivity; try destruct H as [A B]; try contradiction.
  - f_equal; [symmetry; exact A|auto].
  - f_equal; [apply kept_intact; exact A|auto].
Qed.
Theorem roundtrip_equal_proof s1 s2 m xs : reachable D s1 -> reachable D s2 -> wts D (VStruct xs) (SNamed m) = true ->
  encodable_msg sch xs (msg sch m) = true -> (zlen (ser (message sch xs (msg sch m))) < 2^63)%Z ->
  forallb tidy xs = true -> intact_msg sch xs (msg sch m) ->
  exists b ys, fst (Marshal D (ptr m xs) s1) = Returns (Some b, None) /\
    fst (Unmarshal D b (ptr m (zeros (msg sch m))) s2) = Returns (ptr m ys, None) /\ map shown ys = map shown xs.
Proof.
  intros Hr1 Hr2 Hw He Hsm Ht Hi. destruct (roundtrip_exact_proof s1 s2 m xs Hr1 Hr2 Hw He Hsm) as (b & ys & A & B & C & _).
  exists b, ys. rewrite (kept_intact_msg _ _ Hi), (norm_shown_all _ Ht) in C. auto.
Qed.

(** ** Schemas of singular fields *)
Hypothesis HF : all_singular sch = true.
Lemma singular_msg m : forallb singular (msg sch m) = true.
Proof.
  unfold msg. unfold all_singular in HF. rewrite forallb_forall in HF.
  destruct (nth_in_or_default m sch []) as [H|H]; [apply HF; exact H|rewrite H; reflexivity].
Qed.
Definition plainf (f : fty) : Prop := singular (Field 0 f) = true.
Lemma singular_encodable : forall v f, plainf f -> encodable sch v f = true.
Proof.
  fix IH 1. intros v f Hf. destruct f as [s|s|s|s| |m|e|k e]; try discriminate Hf; destruct v as [| | | | | | | | | | | |[[| | | | | | | | | | | | |xs|]|]| |]; try reflexivity.
  cbn [encodable]. pose proof (singular_msg m) as H. revert H. generalize (msg sch m).
  induction xs as [|y xs IHl]; intros fs H; [destruct fs as [|[]]; reflexivity|].
  destruct fs as [|[t|n f] fs]; [reflexivity|discriminate H|]. cbn [forallb] in H. apply andb_true_iff in H. destruct H as [A B].
  rewrite (IH y f A). apply IHl. exact B.
Qed.
Lemma singular_encodable_msg : forall xs fs, forallb singular fs = true -> encodable_msg sch xs fs = true.
Proof.
  induction xs as [|y xs IH]; intros [|[t|n f] fs] H; try reflexivity; [discriminate H|].
  cbn [forallb encodable_msg] in *. apply andb_true_iff in H. destruct H as [A B]. rewrite singular_encodable by exact A. cbn. auto.
Qed.
Lemma singular_value : forall v f, plainf f -> wt D v (go_type f) = true -> shown v = v /\ intact sch v f.
Proof.
  fix IH 1. intros v f Hf Hw. destruct f as [s|s|s|s| |m|e|k e]; try discriminate Hf.
  1-3: destruct v; try (split; [reflexivity|exact Logic.I]); cbn in Hw; try discriminate Hw; try (destruct m; discriminate Hw); destruct o as [[]|]; discriminate Hw.
  destruct v as [| | | | | | | |[?|]|? ?|? ? ?|[?|]|[x|]|?|?]; try discriminate Hw; [|split; [reflexivity|exact Logic.I]].
  destruct x as [| | | | | | | | | | | | |xs|]; try discriminate Hw. cbn [shown intact]. cbn [go_type wt] in Hw.
  destruct (nth_error D m); [|discriminate]. rewrite (field_types_of D sch HI) in Hw.
  pose proof (singular_msg m) as H. revert Hw H. generalize (msg sch m).
  assert (G : forall fs, all2 (wt D) xs (map fld_type fs) = true -> forallb singular fs = true -> map shown xs = xs /\
    (fix all xs fs := match xs, fs with x :: xs, Field _ f :: fs => intact sch x f /\ all xs fs | x :: xs, Hidden t :: fs => x = zero t /\ all xs fs | [], [] => True | _, _ => False end) xs fs).
  { induction xs as [|y xs IHl]; intros [|[t|n f] fs] A B; try discriminate A; try discriminate B; [split; [reflexivity|exact Logic.I]|].
    cbn [map all2 fld_type forallb] in A, B. apply andb_true_iff in A, B. destruct A as [A1 A2], B as [B1 B2].
    destruct (IH y f B1 A1) as [C1 C2]. destruct (IHl fs A2 B2) as [E1 E2]. cbn [map]. rewrite C1, E1. auto. }
  intros fs A B. destruct (G fs A B) as [G1 G2]. rewrite G1. auto.
Qed.
Lemma singular_values : forall xs fs, all2 (wt D) xs (map fld_type fs) = true -> forallb singular fs = true -> map shown xs = xs /\ intact_msg sch xs fs.
Proof.
  induction xs as [|y xs IHl]; intros [|[t|n f] fs] A B; try discriminate A; try discriminate B; [split; [reflexivity|exact Logic.I]|].
  cbn [map all2 fld_type forallb] in A, B. apply andb_true_iff in A, B. destruct A as [A1 A2], B as [B1 B2].
  destruct (singular_value y f B1 A1) as [C1 C2]. destruct (IHl fs A2 B2) as [E1 E2]. cbn [map intact_msg]. rewrite C1, E1. auto.
Qed.
Theorem roundtrip_singular_proof s1 s2 m xs : reachable D s1 -> reachable D s2 -> wts D (VStruct xs) (SNamed m) = true ->
  forallb tidy xs = true -> (zlen (ser (message sch xs (msg sch m))) < 2^63)%Z ->
  exists b, fst (Marshal D (ptr m xs) s1) = Returns (Some b, None) /\
    fst (Unmarshal D b (ptr m (zeros (msg sch m))) s2) = Returns (ptr m xs, None).
Proof.
  intros Hr1 Hr2 Hw Ht Hsm. pose proof (wts_msg _ _ _ Hw) as [Hk Hw']. rewrite (field_types_of D sch HI) in Hw'.
  destruct (singular_values _ _ Hw' (singular_msg m)) as [V I].
  destruct (roundtrip_exact_proof s1 s2 m xs Hr1 Hr2 Hw (singular_encodable_msg _ _ (singular_msg m)) Hsm) as (b & ys & A & B & C & W).
  rewrite (kept_intact_msg _ _ I), (norm_shown_all _ Ht), V in C.
  pose proof (wts_msg _ _ _ W) as [_ Wy]. rewrite (field_types_of D sch HI) in Wy.
  destruct (singular_values _ _ Wy (singular_msg m)) as [Vy _]. rewrite Vy in C. subst ys. eauto.
Qed.
End Cov.
