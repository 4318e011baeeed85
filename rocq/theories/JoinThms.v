(** Unmarshal of what Marshal wrote into a message that holds something. *)
From Coq Require Import ZifyBool ZifyNat ZifyN.
From Verif Require Import Base Wire GoType Leaf Codec Tag Walker Api Resolve Typing CodecSim SpecWire SpecTag SpecMsg SpecLib SpecExact SpecJoin
  WireFacts DecodeFacts GenFacts TypingFacts WalkInv WalkSpec WalkSeq EncFacts MsgResolve MsgEnc MsgDec MsgRound MsgMore MsgFit MsgApi ApiFacts TidyFacts ExactThms MsgJoin Sample RefuteMsg.
Local Open Scope Z_scope.

(** ** What is kept has the type *)
Section Kept.
Variables (D : decls) (sch : schema).
Hypothesis HI : implements D sch = true.
Definition keeps_type (v : val) : Prop := forall f, wt D v (go_type f) = true -> wt D (kept sch v f) (go_type f) = true.
Lemma keeps_types xs : Forall keeps_type xs -> forall fs, all2 (wt D) xs (map fld_type fs) = true -> all2 (wt D) (kept_msg sch xs fs) (map fld_type fs) = true.
Proof.
  induction 1 as [|x xs Hx _ IH]; intros [|[t|n f] fs] W; try discriminate W; [reflexivity| |]; cbn [map all2 fld_type kept_msg] in *;
    apply andb_true_iff in W; destruct W as [W1 W2]; rewrite (IH _ W2), andb_true_r.
  - apply zero_wt.
  - apply Hx. exact W1.
Qed.
Lemma kept_keys e l : keys_distinct (map (fun kv => match kv with (a, x) => (a, kept sch x e) end) l) = keys_distinct l.
Proof.
  induction l as [|[a x] l IH]; [reflexivity|]. cbn [map keys_distinct]. rewrite IH. f_equal. clear IH.
  induction l as [|[b y] l IH]; [reflexivity|]. cbn [map forallb fst]. rewrite IH. reflexivity.
Qed.
Lemma keeps_type_all : forall v, keeps_type v.
Proof.
  induction v as [v IH] using val_ind2. intros f Hw.
  destruct f as [s|s|s|s| |m|e|k e]; try (rewrite kept_scalar by exact Logic.I; exact Hw); cbn [go_type] in *.
  - destruct (wt_msg _ _ _ Hw) as ([x|] & -> & Hx); [|exact Hw].
    destruct (wts_struct D x (SNamed m)) as (xs & -> & W); [discriminate|exact Hx|]. cbn [key_types] in W.
    rewrite kept_message. cbn [wt] in *. destruct (nth_error D m); [|discriminate Hw]. destruct IH as [_ IH].
    rewrite (field_types_of D sch HI) in W |- *. apply keeps_types; assumption.
  - destruct (wt_slice _ _ _ Hw) as (nn & items & spare & -> & _ & _).
    cbn [wt kept] in *. apply andb_true_iff in Hw. destruct Hw as [Hw Hsp]. apply andb_true_iff in Hw. destruct Hw as [Hn Hi].
    rewrite Hsp, andb_true_r. apply andb_true_iff. split.
    + destruct nn; [reflexivity|]. destruct items; [|discriminate Hn]. destruct spare; [reflexivity|discriminate Hn].
    + destruct IH as [IH _]. clear Hn. induction IH as [|x l Hx _ IHl]; [reflexivity|]. cbn [forallb flat_map] in *. apply andb_true_iff in Hi. destruct Hi as [W Hi].
      rewrite forallb_app, (IHl Hi), andb_true_r. destruct (is_nil x); [reflexivity|]. cbn [forallb]. rewrite (Hx e W). reflexivity.
  - destruct (wt_map _ _ _ _ Hw) as ([l|] & -> & _); [|exact Hw].
    cbn [wt kept] in *. apply andb_true_iff in Hw. destruct Hw as [Hw Hd]. rewrite kept_keys, Hd, andb_true_r. clear Hd.
    induction IH as [|[a x] l [_ Hx] _ IHl]; [reflexivity|]. cbn [forallb map fst snd] in *. apply andb_true_iff in Hw. destruct Hw as [W Hw].
    apply andb_true_iff in W. destruct W as [Wa Wx]. rewrite Wa, (Hx e Wx), (IHl Hw). reflexivity.
Qed.
End Kept.

Section Cov.
Variables (D : decls) (sch : schema).
Hypothesis HV : covers D sch = true.
Let HI := proj1 (covers_facts D sch HV).
Let HS := proj1 (proj2 (covers_facts D sch HV)).
Let HC := proj1 (proj2 (proj2 (covers_facts D sch HV))).
Let HP := proj2 (proj2 (proj2 (covers_facts D sch HV))).

Lemma join_merge m xs ys : all2 (wt D) xs (map fld_type (msg sch m)) = true -> all2 (wt D) ys (map fld_type (msg sch m)) = true ->
  encodable_msg sch ys (msg sch m) = true -> zlen (ser (message sch ys (msg sch m))) < Z63 ->
  exists zs, mg sch (msg sch m) xs (ser (message sch ys (msg sch m))) = MOk zs /\ map norm zs = map norm (joined_msg sch xs ys (msg sch m)).
Proof.
  intros Wx Wy He Hsm. destruct (schema_ok_msg sch HS m) as (_ & Hnd & _).
  destruct (join_fields sch D (msg sch m) [] [] xs ys eq_refl Hnd (msg_fields_ok sch HS HC m) Wx Wy) as (zs & E1 & E2); try assumption.
  - apply Forall_forall. intros y _. apply joins_all; assumption.
  - exists zs. split; [exact E1|exact E2].
Qed.
Lemma types_of m xs : wts D (VStruct xs) (SNamed m) = true -> all2 (wt D) xs (map fld_type (msg sch m)) = true.
Proof. intros Hw. apply wts_msg in Hw. rewrite <- (field_types_of D sch HI). apply Hw. Qed.

Lemma join_any s m xs xs' ys : reachable D s -> wts D (VStruct xs) (SNamed m) = true -> forallb fresh xs = true -> forallb tidy xs = true ->
  map norm xs = map norm xs' -> all2 (wt D) xs' (map fld_type (msg sch m)) = true ->
  wts D (VStruct ys) (SNamed m) = true -> encodable_msg sch ys (msg sch m) = true -> zlen (ser (message sch ys (msg sch m))) < 2^63 ->
  exists zs, fst (Unmarshal D (ser (message sch ys (msg sch m))) (ptr m xs) s) = Returns (ptr m zs, None) /\
    map shown zs = map norm (joined_msg sch xs' ys (msg sch m)) /\ wts D (VStruct zs) (SNamed m) = true.
Proof.
  intros Hr Hx Hf Ht Hn Hx' Hy He Hsm. pose proof (types_of m ys Hy) as Wy.
  destruct (join_merge m xs' ys Hx' Wy He Hsm) as (zs & E1 & E2).
  pose proof (wts_msg _ _ _ Hy) as [_ Wy'].
  destruct (merge_message sch D HI HS HC m ys Wy' He Hsm) as (_ & _ & _ & P & B).
  pose proof (unmarshal_exact_proof D sch HV s m xs xs' _ Hr Hx Hf Ht Hn B Hsm P) as U.
  unfold MsgRound.mg in E1. rewrite E1 in U. destruct U as (zs' & U & N & _ & _ & W). exists zs'. split; [exact U|]. split; [congruence|exact W].
Qed.
Theorem join_proof s1 s2 m xs ys : reachable D s1 -> reachable D s2 -> wts D (VStruct xs) (SNamed m) = true -> forallb fresh xs = true -> forallb tidy xs = true ->
  wts D (VStruct ys) (SNamed m) = true -> encodable_msg sch ys (msg sch m) = true -> zlen (ser (message sch ys (msg sch m))) < 2^63 ->
  exists b zs, fst (Marshal D (ptr m ys) s1) = Returns (Some b, None) /\ fst (Unmarshal D b (ptr m xs) s2) = Returns (ptr m zs, None) /\
    map shown zs = map norm (joined_msg sch xs ys (msg sch m)) /\ wts D (VStruct zs) (SNamed m) = true.
Proof.
  intros R1 R2 Hx Hf Ht Hy He Hsm. destruct (marshal_spec D sch HV s1 m ys R1 Hy He Hsm) as [_ M].
  destruct (join_any s2 m xs xs ys R2 Hx Hf Ht eq_refl (types_of m xs Hx) Hy He Hsm) as (zs & U & N & W). eauto 6.
Qed.
(** Two messages written one after the other. *)
Theorem appended_proof s1 s2 s3 m xs ys : reachable D s1 -> reachable D s2 -> reachable D s3 ->
  wts D (VStruct xs) (SNamed m) = true -> wts D (VStruct ys) (SNamed m) = true ->
  encodable_msg sch xs (msg sch m) = true -> encodable_msg sch ys (msg sch m) = true ->
  zlen (ser (message sch xs (msg sch m))) + zlen (ser (message sch ys (msg sch m))) < 2^63 ->
  exists a b zs, fst (Marshal D (ptr m xs) s1) = Returns (Some a, None) /\ fst (Marshal D (ptr m ys) s2) = Returns (Some b, None) /\
    fst (Unmarshal D (a ++ b) (ptr m (zeros (msg sch m))) s3) = Returns (ptr m zs, None) /\
    map shown zs = map norm (joined_msg sch (kept_msg sch xs (msg sch m)) ys (msg sch m)).
Proof.
  intros R1 R2 R3 Hx Hy Ex Ey Hsm. pose proof (zlen_nonneg (ser (message sch xs (msg sch m)))). pose proof (zlen_nonneg (ser (message sch ys (msg sch m)))).
  assert (Sx : zlen (ser (message sch xs (msg sch m))) < 2^63) by lia. assert (Sy : zlen (ser (message sch ys (msg sch m))) < 2^63) by lia.
  destruct (marshal_spec D sch HV s1 m xs R1 Hx Ex Sx) as [_ M1]. destruct (marshal_spec D sch HV s2 m ys R2 Hy Ey Sy) as [_ M2].
  pose proof (wts_msg _ _ _ Hx) as [Hk Wx]. pose proof (wts_msg _ _ _ Hy) as [_ Wy].
  destruct (merge_message sch D HI HS HC m xs Wx Ex Sx) as (z1 & G1 & N1 & P1 & B1).
  destruct (merge_message sch D HI HS HC m ys Wy Ey Sy) as (_ & _ & _ & _ & B2).
  pose proof (unmarshal_exact_proof D sch HV s1 m (zeros (msg sch m)) (zeros (msg sch m)) _ R1 (zeros_wts D sch HV m Hk) (zeros_fresh _) (zeros_tidy _) eq_refl B1 Sx P1) as U.
  unfold MsgRound.mg in G1. rewrite G1 in U. destruct U as (y1 & U & S1 & T1 & F1 & W1).
  assert (En : map norm y1 = map norm (kept_msg sch xs (msg sch m))) by (rewrite (norm_shown_all _ T1); congruence).
  assert (Wk : all2 (wt D) (kept_msg sch xs (msg sch m)) (map fld_type (msg sch m)) = true).
  { apply keeps_types; [|apply types_of; exact Hx]. apply Forall_forall. intros x _. apply keeps_type_all. exact HI. }
  destruct (join_any s3 m y1 _ ys R3 W1 F1 T1 En Wk Hy Ey Sy) as (zs & U2 & N2 & _).
  do 3 eexists. split; [exact M1|]. split; [exact M2|]. split; [|exact N2].
  rewrite (concat_merge_proof D HP s1 s3 s3 (SNamed m) _ _ (VStruct (zeros (msg sch m))) (VStruct y1) R1 R3 R3 Hk (zeros_wts D sch HV m Hk)).
  - exact U2.
  - rewrite bytes_okb_app, B1, B2. reflexivity.
  - rewrite zlen_app. exact Hsm.
  - exact U.
Qed.
(** Into an empty message, and of an empty message. *)
Theorem join_empty_proof m xs : wts D (VStruct xs) (SNamed m) = true ->
  (encodable_msg sch xs (msg sch m) = true -> zlen (ser (message sch xs (msg sch m))) < 2^63 ->
   map norm (joined_msg sch (zeros (msg sch m)) xs (msg sch m)) = map norm (kept_msg sch xs (msg sch m))) /\
  joined_msg sch xs (zeros (msg sch m)) (msg sch m) = xs.
Proof.
  intros Hx. split.
  - intros Ex Sx. pose proof (wts_msg _ _ _ Hx) as [_ Wx].
    destruct (join_merge m (zeros (msg sch m)) xs (zeros_types D _) (types_of m xs Hx) Ex Sx) as (zs & E1 & E2).
    destruct (merge_message sch D HI HS HC m xs Wx Ex Sx) as (z1 & G1 & N1 & _). congruence.
  - pose proof (types_of m xs Hx) as W. pose proof (msg_fields_ok sch HS HC m) as F. clear Hx.
    pose proof (scope_nth sch HC m) as S. unfold scope_msg in S. revert xs W F S.
    induction (msg sch m) as [|[t|n f] fs IH]; intros [|x xs] W F S; try discriminate W; [reflexivity| |]; cbn [zeros map all2 joined_msg fld_type forallb] in *;
      apply andb_true_iff in W, S; destruct W as [W1 W2], S as [S1 S2]; (rewrite IH; [|assumption|intros n' f' Hin; apply F; right; exact Hin|assumption]); [reflexivity|]. f_equal.
    destruct f as [s|s|s|s| |q|e|k e]; try discriminate S1; cbn [go_type zero joined].
    + destruct s; reflexivity.
    + reflexivity.
    + reflexivity.
    + reflexivity.
    + reflexivity.
    + cbn [flat_map]. destruct x; reflexivity.
    + reflexivity.
Qed.
End Cov.

(** ** Where it fails *)
(** A message whose map is nil is written with an empty entry. *)
Lemma nil_map_replaces : exists D sch m xs ys b zs, covers D sch = true /\ wts D (VStruct xs) (SNamed m) = true /\ wts D (VStruct ys) (SNamed m) = true /\
  forallb fresh xs = true /\ forallb tidy xs = true /\ fst (Marshal D (ptr m ys) g_empty) = Returns (Some b, None) /\
  fst (Unmarshal D b (ptr m xs) g_empty) = Returns (ptr m zs, None) /\ joined_msg sch xs ys (msg sch m) = xs /\ map norm zs <> map norm xs.
Proof.
  exists emptymapD, emptymap, 0%nat, [VMap (Some [(VStr [], VStr [65%N])])], [VMap None]. do 2 eexists.
  do 5 (split; [vm_compute; reflexivity|]). split; [vm_compute; reflexivity|]. split; [vm_compute; reflexivity|]. split; [reflexivity|]. vm_compute. discriminate.
Qed.
(** A message behind the length of a list comes back to life. *)
Lemma hidden_joins : exists D sch m xs ys b zs, covers D sch = true /\ wts D (VStruct xs) (SNamed m) = true /\ wts D (VStruct ys) (SNamed m) = true /\
  forallb tidy xs = true /\ encodable_msg sch ys (msg sch m) = true /\ fst (Marshal D (ptr m ys) g_empty) = Returns (Some b, None) /\
  fst (Unmarshal D b (ptr m xs) g_empty) = Returns (ptr m zs, None) /\ map norm zs <> map norm (joined_msg sch xs ys (msg sch m)).
Proof.
  exists sampleD, sample, 0%nat, (replace kid 3 (VSlice true [VPtr None] [VPtr (Some (VStruct (replace kid 2 (VBytes (Some [7%N])))))])),
    (replace kid 3 (VSlice true [VPtr (Some (VStruct kid))] [])). do 2 eexists.
  do 5 (split; [vm_compute; reflexivity|]). split; [vm_compute; reflexivity|]. split; [vm_compute; reflexivity|]. vm_compute. discriminate.
Qed.
