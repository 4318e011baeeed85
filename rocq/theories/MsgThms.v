(** Theorems about messages at the level of the API. *)
From Coq Require Import ZifyBool ZifyNat ZifyN.
From Verif Require Import Base Wire GoType Leaf Codec Tag Walker Api Resolve Typing CodecSim SpecWire SpecTag SpecMsg SpecLib
  WireFacts DecodeFacts GenFacts TypingFacts WalkInv WalkSpec WalkSeq EncFacts MsgResolve MsgEnc MsgDec MsgRound MsgFit MsgApi ApiFacts ApiTags
  MsgMore MsgStep.
Local Open Scope Z_scope.
Ltac Zify.zify_post_hook ::= Z.div_mod_to_equations.

Section Thms.
Variables (D : decls) (sch : schema).
Hypothesis HV : covers D sch = true.
Let HI := proj1 (covers_facts D sch HV).
Let HS := proj1 (proj2 (covers_facts D sch HV)).
Let HC := proj1 (proj2 (proj2 (covers_facts D sch HV))).
Let HP := proj2 (proj2 (proj2 (covers_facts D sch HV))).

(** ** C17, C31: untouched fields, errors *)
Lemma run_api s m ys b : reachable D s -> wts D (VStruct ys) (SNamed m) = true -> forallb fresh ys = true ->
  bytes_okb b = true -> zlen b < Z63 -> plain sch (S (length b)) (msg sch m) b = true ->
  exists b1 b2 ys1, b = b1 ++ b2 /\ (forall s1, reachable D s1 -> fst (Unmarshal D b1 (ptr m ys) s1) = Returns (ptr m ys1, None)) /\
    (forall j, unmentioned (msg sch m) (mentioned (S (length b)) b) j -> nth_error ys1 j = nth_error ys j) /\
    ((b2 = [] /\ fst (Unmarshal D b (ptr m ys) s) = Returns (ptr m ys1, None)) \/
     (b2 <> [] /\ exists ys' e, fst (Unmarshal D b (ptr m ys) s) = Returns (ptr m ys', Some e) /\
        (forall j, unmentioned (msg sch m) (mentioned (S (length b)) b) j -> nth_error ys' j = nth_error ys j) /\
        (forall j, nth_error ys' j = nth_error ys1 j \/
          exists tag kk r n f y y', read_varint b2 = VOk tag kk r /\ nth_error (msg sch m) j = Some (Field n f) /\ n = (tag / 8)%N /\
            nth_error ys1 j = Some y /\ nth_error ys' j = Some y' /\ keeps_slice y y'))).
Proof.
  intros Hr Hw Hf Hb Hs Hp. pose proof (wts_msg _ _ _ Hw) as [Hk Hw'].
  assert (K : key_fs D sch (SNamed m) (msg sch m)) by (split; [apply user_key_ok; exact Hk|left; eauto]).
  destruct (unmarshal_fst D HP s (SNamed m) b (VStruct ys) Hr Hk Hw Hb Hs) as [U T]. rewrite U. unfold pdecode in *.
  destruct (run D sch HV (S (length b)) (SNamed m) (msg sch m) b ys (decode_fuel D b) K (Nat.lt_succ_diag_r _) Hb Hs Hw Hf Hp) as [L|(b1 & b2 & ys1 & A & [f B] & C & E)].
  { exfalso. destruct T as [(? & T & _)|(? & ? & T & _)]; congruence. }
  exists b1, b2, ys1. split; [exact A|]. split.
  { intros s1 Hr1. rewrite A in Hb, Hs. rewrite bytes_okb_app in Hb. apply andb_true_iff in Hb. destruct Hb as [Hb1 _]. apply small_app_l in Hs.
    destruct (unmarshal_fst D HP s1 (SNamed m) b1 (VStruct ys) Hr1 Hk Hw Hb1 Hs) as [-> _].
    rewrite (pdecode_fuel D HP f (SNamed m) b1 (VStruct ys) _ Hk Hw Hb1 Hs B); [reflexivity|discriminate]. }
  split; [exact C|]. destruct E as [[E1 E2]|(E1 & ys' & e & E2 & E3)]; [left|right]; (split; [exact E1|]); rewrite E2; [reflexivity|].
  exists ys', e. split; [reflexivity|exact E3].
Qed.

(** ** C13: where the output of Marshal can be cut *)
Lemma ser_cons r rs : ser (r :: rs) = ser_rec r ++ ser rs.
Proof. reflexivity. Qed.
Lemma ser_rec_nonempty r : ser_rec r <> [].
Proof. unfold ser_rec. intros H. apply app_eq_nil in H. destruct H as [H _]. revert H. apply vint_nonempty. Qed.
Lemma app_split {A} (p q a b : list A) : p ++ q = a ++ b -> (length a <= length p)%nat -> exists p', p = a ++ p' /\ p' ++ q = b.
Proof.
  intros E L. exists (skipn (length a) p). assert (H : firstn (length a) p = a).
  { apply (f_equal (firstn (length a))) in E. rewrite !firstn_app, Nat.sub_diag in E. replace (length a - length p)%nat with 0%nat in E by lia.
    rewrite !firstn_O, !app_nil_r, firstn_all in E. exact E. }
  split; [rewrite <- H at 1; symmetry; apply firstn_skipn|].
  rewrite <- (firstn_skipn (length a) p), H, <- app_assoc in E. apply app_inv_head in E. exact E.
Qed.

Lemma cut_record s m ys p q n pay b : reachable D s -> user_key D (SNamed m) = true -> wts D (VStruct ys) (SNamed m) = true ->
  rec_ok (n, pay) -> p ++ q = ser_rec (n, pay) ++ b -> p <> [] -> (length p < length (ser_rec (n, pay)))%nat ->
  bytes_okb p = true -> zlen p < Z63 ->
  forall x, fst (Unmarshal D p (ptr m ys) s) <> Returns (IPtr (SNamed m) (Some x), None).
Proof.
  intros Hr Hk Hw [Hn Hp] E Hne Hl Hb Hs x U. cbn [fst snd] in Hn, Hp.
  destruct (unmarshal_fst D HP s (SNamed m) p (VStruct ys) Hr Hk Hw Hb Hs) as [U' T]. rewrite U in U'. unfold pdecode in U', T.
  assert (EL : forall f, exists e, ldecs plook (piget D) D (S f) (SNamed m) p (VStruct ys) = LErr (VStruct ys) e).
  { intros f. cbn [ldecs]. destruct p as [|c0 p0] eqn:Ep; [contradiction|]. rewrite <- Ep in *. clear Ep c0 p0 Hne.
    assert (Tg : (8 * n + wire_of pay < 2^64)%N) by (apply tag_lt; [exact Hn|pose proof (wire_of_lt pay); lia]).
    pose proof (wire_of_lt pay) as W8.
    assert (RV : read_varint (p ++ q) = VOk (8 * n + wire_of pay) (length (vint (8 * n + wire_of pay))) (ser_payload pay ++ b)).
    { rewrite E. unfold ser_rec. cbn [fst snd]. rewrite <- app_assoc. apply read_varint_vint. exact Tg. }
    unfold lstep. destruct (read_varint_trunc _ _ _ _ _ RV) as [(r' & Er & Eb)|Er]; rewrite Er; [|eexists; reflexivity].
    replace ((8 * n + wire_of pay) mod 8)%N with (wire_of pay) by lia. replace ((8 * n + wire_of pay) / 8)%N with n by lia.
    apply read_varint_ok in Er. destruct Er as (_ & _ & Er & _ & Lk).
    assert (Lr : (length r' < length (ser_payload pay))%nat).
    { rewrite <- Er, skipn_length. unfold ser_rec in Hl. cbn [fst snd] in Hl. rewrite app_length in Hl. lia. }
    pose proof (read_payload_ser pay b Hp) as RP. pose proof (read_payload_len (wire_of pay) (ser_payload pay ++ b)) as RL.
    destruct (payload_len (wire_of pay) (ser_payload pay ++ b)) as [len|] eqn:El; [|congruence].
    destruct RL as (p' & RL & Ll). rewrite RP in RL. inversion RL as [[Ep' Eb']]. subst p'.
    assert (Elen : len = length (ser_payload pay)).
    { apply (f_equal (@length N)) in Eb'. rewrite skipn_length, app_length in Eb'. rewrite app_length in Ll. lia. }
    assert (EF : payload_len (wire_of pay) r' = inr ErrUnexpectedEOF).
    { rewrite Eb in El. destruct (payload_len_trunc _ _ _ _ El) as [El'|El']; [|exact El'].
      apply payload_len_ok in El'. lia. }
    rewrite EF. destruct (lookup_field _ _); [destruct (negb _)|]; eexists; reflexivity. }
  destruct (decode_fuel D p) as [|f]; [destruct T as [(? & T & _)|(? & ? & T & _)]; discriminate|].
  destruct (EL f) as (e & L). rewrite L in U'. discriminate.
Qed.

Definition boundary (rs : list record) (p : bytes) : Prop := exists j, p = ser (firstn j rs).
Lemma cut_records m : user_key D (SNamed m) = true -> forall rs ys zs p q, Forall rec_ok rs -> ser rs = p ++ q ->
  wts D (VStruct ys) (SNamed m) = true -> forallb fresh ys = true -> map norm ys = map norm zs ->
  pl sch (msg sch m) (ser rs) = true -> (exists w, mg sch (msg sch m) zs (ser rs) = MOk w) ->
  bytes_okb (ser rs) = true -> zlen (ser rs) < Z63 -> forall s, reachable D s ->
  (boundary rs p /\ exists ys', fst (Unmarshal D p (ptr m ys) s) = Returns (ptr m ys', None)) \/
  (~ boundary rs p /\ exists x e, fst (Unmarshal D p (ptr m ys) s) = Returns (IPtr (SNamed m) (Some x), Some e) /\ err_cause e = ErrUnexpectedEOF).
Proof.
  intros Hk. induction rs as [|[n pay] rs IH]; intros ys zs p q Hok E Hw Hf Hn Hpl [w Hm] Hb Hs s Hr.
  { symmetry in E. change (ser []) with (@nil N) in E. apply app_eq_nil in E. destruct E as [-> _]. left. split; [exists 0%nat; reflexivity|eexists; reflexivity]. }
  inversion Hok as [|? ? Ok1 Oks]; subst. rewrite ser_cons in *.
  destruct (Nat.le_gt_cases (length (ser_rec (n, pay))) (length p)) as [L|L].
  - destruct (app_split _ _ _ _ (eq_sym E) L) as (p' & -> & E').
    rewrite bytes_okb_app in Hb. apply andb_true_iff in Hb. destruct Hb as [Hb1 Hb2]. pose proof (small_app_l _ _ Hs) as S1. pose proof (small_app_r _ _ Hs) as S2.
    rewrite plain_cons in Hpl by exact Ok1. apply andb_true_iff in Hpl. destruct Hpl as [P1 P2].
    rewrite merge_cons in Hm by exact Ok1. destruct (mg sch (msg sch m) zs (ser_rec (n, pay))) as [z1| |] eqn:M1; try discriminate.
    pose proof (unmarshal_spec D sch HV s m ys zs (ser_rec (n, pay)) Hr Hw Hf Hn Hb1 S1 P1) as U. unfold mg in M1. rewrite M1 in U.
    destruct U as (ys1 & U & N1 & F1 & W1).
    assert (Hb' : bytes_okb (ser_rec (n, pay) ++ p') = true).
    { rewrite bytes_okb_app, Hb1. rewrite <- E', bytes_okb_app in Hb2. apply andb_true_iff in Hb2. apply Hb2. }
    assert (S' : zlen (ser_rec (n, pay) ++ p') < Z63).
    { rewrite zlen_app in *. rewrite <- E', zlen_app in Hs. pose proof (zlen_nonneg q). lia. }
    rewrite (concat_merge_proof D HP s s s (SNamed m) _ p' _ _ Hr Hr Hr Hk Hw Hb' S' U).
    destruct (IH ys1 z1 p' q Oks (eq_sym E') W1 F1 N1 P2 (ex_intro _ w Hm) Hb2 S2 s Hr) as [[[j B] G]|[B G]].
    + left. split; [|exact G]. exists (S j). cbn [firstn]. rewrite ser_cons, <- B. reflexivity.
    + right. split; [|exact G]. intros [[|j] F]; cbn [firstn] in F.
      * change (ser []) with (@nil N) in F. apply app_eq_nil in F. destruct F as [F _]. exact (ser_rec_nonempty _ F).
      * rewrite ser_cons in F. apply app_inv_head in F. apply B. exists j. exact F.
  - destruct p as [|c0 p0] eqn:Ep; [left; split; [exists 0%nat; reflexivity|eexists; reflexivity]|]. rewrite <- Ep in *. assert (Hne : p <> []) by congruence. clear Ep c0 p0.
    right. split.
    { intros [[|j] F]; cbn [firstn] in F; [exact (Hne F)|]. rewrite ser_cons in F. apply (f_equal (@length N)) in F. rewrite app_length in F. lia. }
    pose proof (unmarshal_spec D sch HV s m ys zs (ser_rec (n, pay) ++ ser rs) Hr Hw Hf Hn Hb Hs Hpl) as U. unfold mg in Hm. rewrite Hm in U.
    destruct U as (ys1 & U & _). rewrite E in U, Hb, Hs.
    destruct (truncation_proof D HP s s s (SNamed m) p q _ _ Hr Hr Hr Hk Hw Hb Hs U) as [(x1 & U1 & _)|T]; [exfalso|exact T].
    rewrite bytes_okb_app in Hb. apply andb_true_iff in Hb. destruct Hb as [Hb1 _]. apply small_app_l in Hs.
    exact (cut_record s m ys p q n pay (ser rs) Hr Hk Hw Ok1 (eq_sym E) Hne L Hb1 Hs x1 U1).
Qed.
Lemma truncation_exact_proof s1 s2 m xs : reachable D s1 -> reachable D s2 -> wts D (VStruct xs) (SNamed m) = true ->
  encodable_msg sch xs (msg sch m) = true -> zlen (ser (message sch xs (msg sch m))) < Z63 ->
  exists b, fst (Marshal D (ptr m xs) s1) = Returns (Some b, None) /\ forall p q, b = p ++ q ->
  (boundary (message sch xs (msg sch m)) p /\ exists ys, fst (Unmarshal D p (ptr m (zeros (msg sch m))) s2) = Returns (ptr m ys, None)) \/
  (~ boundary (message sch xs (msg sch m)) p /\
   exists x e, fst (Unmarshal D p (ptr m (zeros (msg sch m))) s2) = Returns (IPtr (SNamed m) (Some x), Some e) /\ err_cause e = ErrUnexpectedEOF).
Proof.
  intros Hr1 Hr2 Hw He Hsm. pose proof (wts_msg _ _ _ Hw) as [Hk Hw'].
  destruct (marshal_spec D sch HV s1 m xs Hr1 Hw He Hsm) as [_ M]. eexists. split; [exact M|]. intros p q E.
  destruct (merge_message sch D HI HS HC m xs Hw' He Hsm) as (zs & G & N & P & B).
  eapply (cut_records m Hk _ (zeros (msg sch m)) (zeros (msg sch m))); try eassumption; try reflexivity.
  - apply (message_ok sch D HI HS HC); assumption.
  - apply (zeros_wts D sch HV); assumption.
  - apply zeros_fresh.
  - eauto.
Qed.

(** ** C27 *)
Lemma remarshal_proof s1 s2 s3 m xs : reachable D s1 -> reachable D s2 -> reachable D s3 -> wts D (VStruct xs) (SNamed m) = true ->
  encodable_msg sch xs (msg sch m) = true -> zlen (ser (message sch xs (msg sch m))) < Z63 ->
  exists b ys, fst (Marshal D (ptr m xs) s1) = Returns (Some b, None) /\
    fst (Unmarshal D b (ptr m (zeros (msg sch m))) s2) = Returns (ptr m ys, None) /\
    fst (Marshal D (ptr m ys) s3) = Returns (Some b, None).
Proof.
  intros Hr1 Hr2 Hr3 Hw He Hsm. pose proof (wts_msg _ _ _ Hw) as [Hk Hw'].
  destruct (roundtrip D sch HV s1 s2 m xs Hr1 Hr2 Hw He Hsm) as (b & ys & M & U & N & W). exists b, ys. split; [exact M|]. split; [exact U|].
  destruct (message_kept sch D HI HS HC m xs Hw') as [K1 K2].
  assert (E : message sch ys (msg sch m) = message sch xs (msg sch m)) by (rewrite (message_norm sch _ _ _ N); exact K1).
  destruct (marshal_spec D sch HV s1 m xs Hr1 Hw He Hsm) as [_ M1]. rewrite M in M1. inversion M1; subst b.
  rewrite <- E in *. apply (marshal_spec D sch HV); try assumption.
  rewrite (encodable_msg_norm sch _ _ _ N). apply K2. exact He.
Qed.

(** ** C36 *)
Lemma injective_proof s1 s2 m xs ys b : reachable D s1 -> reachable D s2 ->
  wts D (VStruct xs) (SNamed m) = true -> wts D (VStruct ys) (SNamed m) = true ->
  encodable_msg sch xs (msg sch m) = true -> encodable_msg sch ys (msg sch m) = true ->
  fst (Marshal D (ptr m xs) s1) = Returns (Some b, None) -> fst (Marshal D (ptr m ys) s2) = Returns (Some b, None) ->
  zlen (ser (message sch xs (msg sch m))) < Z63 -> zlen (ser (message sch ys (msg sch m))) < Z63 ->
  map norm (kept_msg sch xs (msg sch m)) = map norm (kept_msg sch ys (msg sch m)).
Proof.
  intros Hr1 Hr2 Wx Wy Ex Ey Mx My Sx Sy.
  destruct (roundtrip D sch HV s1 s1 m xs Hr1 Hr1 Wx Ex Sx) as (b1 & z1 & M1 & U1 & N1 & _).
  destruct (roundtrip D sch HV s2 s1 m ys Hr2 Hr1 Wy Ey Sy) as (b2 & z2 & M2 & U2 & N2 & _).
  rewrite Mx in M1. rewrite My in M2. inversion M1; subst b1. inversion M2; subst b2. rewrite U1 in U2. inversion U2; subst z2. congruence.
Qed.

(** ** The records of one field within a message *)
Lemma records_number f : forall v n, Forall (fun r : record => fst r = n) (records sch v n f).
Proof.
  induction f as [s|s|s|s| |m|e IH|k e IH]; intros v n.
  - assert (E : records sch v n (FImplicit s) = if is_zero v then [] else [(n, pay s v)]) by (destruct v; reflexivity). rewrite E. destruct (is_zero v); repeat constructor.
  - destruct v; try constructor. destruct some; repeat constructor.
  - destruct v; try constructor. destruct o; repeat constructor.
  - assert (E : records sch v n (FAlways s) = [(n, pay s v)]) by (destruct v; reflexivity). rewrite E. repeat constructor.
  - destruct v; try constructor. destruct o; repeat constructor.
  - destruct v; try constructor. destruct o as [[]|]; repeat constructor.
  - destruct v; try constructor. cbn [records]. induction items as [|x l IHl]; [constructor|]. cbn [flat_map]. apply Forall_app. split; [apply IH|exact IHl].
  - destruct v; try constructor. destruct m as [l|]; [|constructor]. cbn [records]. induction l as [|[a x] l IHl]; [constructor|]. cbn [flat_map app].
    constructor; [reflexivity|exact IHl].
Qed.
Lemma message_numbers fs : forall xs, Forall (fun r : record => In (fst r) (numbers fs)) (message sch xs fs).
Proof.
  induction fs as [|[t|n f] fs IH]; intros [|x xs]; cbn [message numbers]; try constructor; [apply IH|].
  apply Forall_app. split.
  - eapply Forall_impl; [|apply records_number]. intros r <-. left. reflexivity.
  - eapply Forall_impl; [|apply IH]. intros r Hr. right. exact Hr.
Qed.
Lemma message_split fs j n f : forall xs x, nth_error fs j = Some (Field n f) -> nth_error xs j = Some x -> nodup_N (numbers fs) = true ->
  exists R1 R2, message sch xs fs = R1 ++ records sch x n f ++ R2 /\ Forall (fun r : record => fst r <> n) (R1 ++ R2).
Proof.
  revert fs. induction j as [|j IH]; intros [|g fs] [|y xs] x Hf Hx Hd; try discriminate.
  - cbn in Hf, Hx. inversion Hf; subst g. inversion Hx; subst y. exists [], (message sch xs fs). split; [reflexivity|].
    cbn [numbers nodup_N] in Hd. apply andb_true_iff in Hd. destruct Hd as [Hd _]. cbn [app].
    eapply Forall_impl; [|apply message_numbers]. intros r Hr E. cbn beta in Hr. rewrite E in Hr. revert Hr. apply nodup_not_in. exact Hd.
  - cbn [nth_error] in Hf, Hx. destruct g as [t|n' g].
    + destruct (IH fs xs x Hf Hx Hd) as (R1 & R2 & E & F). exists R1, R2. split; [exact E|exact F].
    + cbn [numbers nodup_N] in Hd. apply andb_true_iff in Hd. destruct Hd as [Hd1 Hd].
      destruct (IH fs xs x Hf Hx Hd) as (R1 & R2 & E & F). exists (records sch y n' g ++ R1), R2. cbn [message]. rewrite E, <- !app_assoc. split; [reflexivity|].
      apply Forall_app. split; [|exact F]. eapply Forall_impl; [|apply records_number]. intros r -> ->. apply nodup_not_in in Hd1. apply Hd1.
      clear - Hf. revert fs Hf. induction j as [|j IH]; intros [|[t|n' g] fs] H; try discriminate; cbn [numbers].
      * inversion H. left. reflexivity.
      * apply IH. exact H.
      * right. apply IH. exact H.
Qed.
Lemma kept_nth fs j n f : forall xs x, nth_error fs j = Some (Field n f) -> nth_error xs j = Some x -> nth_error (kept_msg sch xs fs) j = Some (kept sch x f).
Proof.
  revert fs. induction j as [|j IH]; intros [|g fs] [|y xs] x Hf Hx; try discriminate.
  - cbn in Hf, Hx. inversion Hf; subst g. inversion Hx; subst y. reflexivity.
  - destruct g; cbn [kept_msg nth_error] in *; apply IH; assumption.
Qed.

(** A field of a message: its records in the output, its value after reading back. *)
Lemma field_roundtrip s1 s2 m xs j n f x : reachable D s1 -> reachable D s2 -> wts D (VStruct xs) (SNamed m) = true ->
  encodable_msg sch xs (msg sch m) = true -> zlen (ser (message sch xs (msg sch m))) < Z63 ->
  nth_error (msg sch m) j = Some (Field n f) -> nth_error xs j = Some x ->
  exists R1 R2 ys y, fst (Marshal D (ptr m xs) s1) = Returns (Some (ser (R1 ++ records sch x n f ++ R2)), None) /\
    Forall (fun r : record => fst r <> n) (R1 ++ R2) /\
    fst (Unmarshal D (ser (R1 ++ records sch x n f ++ R2)) (ptr m (zeros (msg sch m))) s2) = Returns (ptr m ys, None) /\
    nth_error ys j = Some y /\ norm y = norm (kept sch x f) /\ wt D y (go_type f) = true.
Proof.
  intros Hr1 Hr2 Hw He Hsm Hf Hx.
  destruct (roundtrip D sch HV s1 s2 m xs Hr1 Hr2 Hw He Hsm) as (b & ys & M & U & N & W).
  destruct (schema_ok_msg sch HS m) as (_ & Hnd & _). destruct (message_split _ _ _ _ _ _ Hf Hx Hnd) as (R1 & R2 & E & F).
  destruct (marshal_spec D sch HV s1 m xs Hr1 Hw He Hsm) as [_ M1]. rewrite M, E in M1. inversion M1; subst b.
  pose proof (kept_nth _ _ _ _ _ _ Hf Hx) as K. destruct (map_norm_nth _ _ _ _ (eq_sym N) K) as (y & Ey & Ny).
  exists R1, R2, ys, y. split; [exact M|]. split; [exact F|]. split; [exact U|]. split; [exact Ey|]. split; [congruence|].
  apply wts_msg in W. destruct W as [_ W]. rewrite (field_types_of D sch HI) in W.
  destruct (all2_nth _ _ _ j (go_type f) W) as (y' & Ey' & Wy); [rewrite (map_nth_error fld_type _ _ Hf); reflexivity|]. congruence.
Qed.

(** ** C08 *)
Lemma optional_proof s1 s2 m xs j n sc some v : reachable D s1 -> reachable D s2 -> wts D (VStruct xs) (SNamed m) = true ->
  encodable_msg sch xs (msg sch m) = true -> zlen (ser (message sch xs (msg sch m))) < Z63 ->
  nth_error (msg sch m) j = Some (Field n (FOptional sc)) -> nth_error xs j = Some (VOpt some v) ->
  exists R1 R2 ys v', let b := ser (R1 ++ (if some then [(n, pay sc v)] else []) ++ R2) in
    fst (Marshal D (ptr m xs) s1) = Returns (Some b, None) /\ Forall (fun r : record => fst r <> n) (R1 ++ R2) /\
    fst (Unmarshal D b (ptr m (zeros (msg sch m))) s2) = Returns (ptr m ys, None) /\
    nth_error ys j = Some (VOpt some v') /\ (some = true -> v' = v).
Proof.
  intros Hr1 Hr2 Hw He Hsm Hf Hx.
  destruct (field_roundtrip s1 s2 m xs j n _ _ Hr1 Hr2 Hw He Hsm Hf Hx) as (R1 & R2 & ys & y & M & F & U & Ey & Ny & Wy).
  assert (ER : records sch (VOpt some v) n (FOptional sc) = if some then [(n, pay sc v)] else []) by (destruct some; reflexivity). rewrite ER in *.
  cbn [go_type] in Wy. wtd y. exists R1, R2, ys, y. cbv zeta. split; [exact M|]. split; [exact F|]. split; [exact U|].
  destruct some, some0; cbn in Ny; try discriminate; split; try exact Ey; try discriminate. congruence.
Qed.

(** ** C09 *)
Lemma implicit_proof s1 s2 m xs j n sc v : reachable D s1 -> reachable D s2 -> wts D (VStruct xs) (SNamed m) = true ->
  encodable_msg sch xs (msg sch m) = true -> zlen (ser (message sch xs (msg sch m))) < Z63 ->
  nth_error (msg sch m) j = Some (Field n (FImplicit sc)) -> nth_error xs j = Some v ->
  exists R1 R2 ys, let b := ser (R1 ++ (if is_zero v then [] else [(n, pay sc v)]) ++ R2) in
    fst (Marshal D (ptr m xs) s1) = Returns (Some b, None) /\ Forall (fun r : record => fst r <> n) (R1 ++ R2) /\
    fst (Unmarshal D b (ptr m (zeros (msg sch m))) s2) = Returns (ptr m ys, None) /\ nth_error ys j = Some v.
Proof.
  intros Hr1 Hr2 Hw He Hsm Hf Hx.
  destruct (field_roundtrip s1 s2 m xs j n _ _ Hr1 Hr2 Hw He Hsm Hf Hx) as (R1 & R2 & ys & y & M & F & U & Ey & Ny & Wy).
  assert (ER : records sch v n (FImplicit sc) = if is_zero v then [] else [(n, pay sc v)]) by (destruct v; reflexivity). rewrite ER in *.
  rewrite kept_scalar in Ny by exact Logic.I. apply wt_scalar in Wy. apply scalar_norm_inv in Ny; [|exact Wy].
  subst. exists R1, R2, ys. cbv zeta. auto.
Qed.

(** ** C37 *)
Lemma pointer_proof s1 s2 m xs j n sc o : reachable D s1 -> reachable D s2 -> wts D (VStruct xs) (SNamed m) = true ->
  encodable_msg sch xs (msg sch m) = true -> zlen (ser (message sch xs (msg sch m))) < Z63 ->
  nth_error (msg sch m) j = Some (Field n (FPointer sc)) -> nth_error xs j = Some (VPtr o) ->
  exists R1 R2 ys, let b := ser (R1 ++ match o with Some v => [(n, pay sc v)] | None => [] end ++ R2) in
    fst (Marshal D (ptr m xs) s1) = Returns (Some b, None) /\ Forall (fun r : record => fst r <> n) (R1 ++ R2) /\
    fst (Unmarshal D b (ptr m (zeros (msg sch m))) s2) = Returns (ptr m ys, None) /\ nth_error ys j = Some (VPtr o).
Proof.
  intros Hr1 Hr2 Hw He Hsm Hf Hx.
  destruct (field_roundtrip s1 s2 m xs j n _ _ Hr1 Hr2 Hw He Hsm Hf Hx) as (R1 & R2 & ys & y & M & F & U & Ey & Ny & Wy).
  assert (ER : records sch (VPtr o) n (FPointer sc) = match o with Some v => [(n, pay sc v)] | None => [] end) by (destruct o; reflexivity). rewrite ER in *.
  rewrite kept_scalar in Ny by exact Logic.I. cbn [go_type] in Wy. destruct (wt_ptr _ _ _ Wy) as (o' & -> & Ho).
  exists R1, R2, ys. cbv zeta. split; [exact M|]. split; [exact F|]. split; [exact U|]. rewrite Ey.
  destruct o as [v|], o' as [v'|]; try discriminate Ny; [|reflexivity]. cbn [norm] in Ny. injection Ny as Ny. apply wt_scalar in Ho.
  apply scalar_norm_inv in Ny; [|exact Ho]. subst. reflexivity.
Qed.

(** ** C20 *)
Lemma map_proof s1 s2 m xs j n k e l : reachable D s1 -> reachable D s2 -> wts D (VStruct xs) (SNamed m) = true ->
  encodable_msg sch xs (msg sch m) = true -> zlen (ser (message sch xs (msg sch m))) < Z63 ->
  nth_error (msg sch m) j = Some (Field n (FMap k e)) -> nth_error xs j = Some (VMap (Some l)) ->
  exists R1 R2 ys l', let b := ser (R1 ++ map (fun kv => (n, PLen (ser ((1%N, pay k (fst kv)) :: records sch (snd kv) 2 e)))) l ++ R2) in
    fst (Marshal D (ptr m xs) s1) = Returns (Some b, None) /\ Forall (fun r : record => fst r <> n) (R1 ++ R2) /\
    fst (Unmarshal D b (ptr m (zeros (msg sch m))) s2) = Returns (ptr m ys, None) /\ nth_error ys j = Some (VMap (Some l')) /\
    map (fun kv => (fst kv, norm (snd kv))) l' = map (fun kv => (fst kv, norm (kept sch (snd kv) e))) l.
Proof.
  intros Hr1 Hr2 Hw He Hsm Hf Hx.
  destruct (field_roundtrip s1 s2 m xs j n _ _ Hr1 Hr2 Hw He Hsm Hf Hx) as (R1 & R2 & ys & y & M & F & U & Ey & Ny & Wy).
  assert (ER : records sch (VMap (Some l)) n (FMap k e) = map (fun kv => (n, PLen (ser ((1%N, pay k (fst kv)) :: records sch (snd kv) 2 e)))) l).
  { clear. cbn [records]. induction l as [|[a x] l IH]; [reflexivity|]. cbn [flat_map map fst snd app].
    assert (EA : records sch a 1 (FAlways k) = [(1%N, pay k a)]) by (destruct a; reflexivity). rewrite EA. cbn [app]. f_equal. exact IH. }
  rewrite ER in *. cbn [go_type] in Wy. destruct (wt_map _ _ _ _ Wy) as (o' & -> & Ho).
  assert (Hl : l <> []).
  { intros ->. clear - He Hf Hx. revert xs j Hf Hx He. induction (msg sch m) as [|g fs IH]; intros [|x xs] [|j] Hf Hx He; try discriminate.
    - cbn in Hf, Hx. inversion Hf; subst g. inversion Hx; subst x. cbn [encodable_msg encodable] in He. discriminate.
    - destruct g; cbn [encodable_msg nth_error] in *; [eapply IH; eassumption|]. apply andb_true_iff in He. eapply IH; [eassumption..|apply He]. }
  apply norm_map_inv in Ny. destruct Ny as (m' & Em & Ny). inversion Em; subst m'. cbn [entries] in Ny.
  destruct o' as [l'|]; [|destruct l as [|kv l]; [contradiction|discriminate]].
  exists R1, R2, ys, l'. cbv zeta. split; [exact M|]. split; [exact F|]. split; [exact U|]. split; [exact Ey|].
  cbn [entries] in Ny. rewrite map_map in Ny. etransitivity; [|etransitivity; [exact Ny|]]; apply map_ext; intros [a x]; reflexivity.
Qed.

(** ** C31: records of a repeated field append *)
Lemma append_proof s m ys j n e nn items spare news : reachable D s -> wts D (VStruct ys) (SNamed m) = true -> forallb fresh ys = true ->
  nth_error (msg sch m) j = Some (Field n (FRepeated e)) -> nth_error ys j = Some (VSlice nn items spare) ->
  forallb (fun x => wt D x (go_type e)) news = true -> forallb (fun x => encodable sch x e) news = true ->
  zlen (ser (flat_map (fun x => records sch x n e) news)) < Z63 ->
  exists ys' nn' more spare', fst (Unmarshal D (ser (flat_map (fun x => records sch x n e) news)) (ptr m ys) s) = Returns (ptr m ys', None) /\
    nth_error ys' j = Some (VSlice nn' (items ++ more) spare') /\
    map norm more = map norm (flat_map (fun x => if is_nil x then [] else [kept sch x e]) news) /\
    (forall i, i <> j -> nth_error ys' i = nth_error ys i).
Proof.
  intros Hr Hw Hfr Hf Hy Hwn Hen Hs. pose proof (wts_msg _ _ _ Hw) as [Hk Hw'].
  pose proof (nth_error_In _ _ Hf) as Hin. destruct (msg_fields_ok sch HS HC m n _ Hin) as [Hok Hn]. cbn [ok_fty] in Hok.
  destruct (schema_ok_msg sch HS m) as (_ & Hnd & _).
  destruct (good_items sch D n e Hok Hn news) as (ps & ws & E1 & E2 & E3); try assumption.
  { apply Forall_forall. intros x _. apply (good_all sch D HI HS HC). }
  rewrite E1 in *. destruct (E3 nn items) as [nn1 P].
  assert (P0 : put_list sch (FRepeated e) (VSlice nn items []) ps (VSlice nn1 (items ++ ws) [])) by exact P.
  assert (Ff : find_field 0 (msg sch m) n = Some (j, FRepeated e)).
  { clear - D Hf Hnd. apply nth_error_split in Hf. destruct Hf as (l1 & l2 & E & <-). rewrite E in Hnd |- *.
    apply (find_field_at sch D l1 l2 n (FRepeated e)). rewrite numbers_app in Hnd. cbn [numbers] in Hnd. eapply nodup_app_not; exact Hnd. }
  set (zs := replace ys j (VSlice nn items [])).
  assert (Nz : map norm ys = map norm zs).
  { unfold zs. clear - Hy. revert j Hy. induction ys as [|y ys IH]; intros [|j] Hy; try discriminate; cbn [replace map nth_error] in *; [inversion Hy; reflexivity|]. rewrite <- IH by exact Hy. reflexivity. }
  pose proof (merge_recs sch n (msg sch m) j _ Hn Ff ps _ _ P zs [] (nth_replace _ _ _ _ Hy)) as G. rewrite app_nil_r in G.
  pose proof (plain_recs sch n (msg sch m) j _ Hn Ff ps _ _ P []) as Q. rewrite app_nil_r in Q.
  pose proof (ser_recs_ok sch n _ _ _ _ P) as B.
  pose proof (unmarshal_spec D sch HV s m ys zs (ser (recs n ps)) Hr Hw Hfr Nz B Hs Q) as U. unfold mg in G. rewrite G in U. cbn [merge length] in U.
  destruct U as (ys' & U & N' & _ & W').
  destruct (run_api s m ys (ser (recs n ps)) Hr Hw Hfr B Hs Q) as (b1 & b2 & ys1 & _ & _ & Un & [[_ U2]|(_ & ? & ? & U2 & _)]); rewrite U in U2; inversion U2; subst ys1.
  pose proof (append_only_proof D HP s m (ser (recs n ps)) (VStruct ys) (VStruct ys') None Hr) as A.
  assert (Hm : (m < length D)%nat) by (cbn [user_key] in Hk; apply Nat.ltb_lt; exact Hk).
  destruct (A Hm Hw B Hs U j nn items spare Hy) as (nn' & more & spare' & Ey'). cbn [get_field] in Ey'.
  exists ys', nn', more, spare'. split; [exact U|]. split; [exact Ey'|]. split.
  - destruct (map_norm_nth _ _ _ _ N' Ey') as (z & Ez & Nz').
    unfold zs in Ez. rewrite replace_replace, (nth_replace _ _ _ _ Hy) in Ez. inversion Ez; subst z.
    rewrite !norm_slice in Nz'. injection Nz' as _ Nz'. rewrite !map_app in Nz'. apply app_inv_head in Nz'. congruence.
  - intros i Hi. apply Un. unfold unmentioned. destruct (nth_error (msg sch m) i) as [[t|n' f']|] eqn:Ei; auto.
    intros Hm'. assert (Hn' : n' = n).
    { clear - Hm' P0 Hn. revert Hm'. generalize (S (length (ser (recs n ps)))). intros fuel. revert fuel.
      generalize dependent (VSlice nn items []). generalize (VSlice nn1 (items ++ ws) []). intros z y P. induction P as [|y p z ps w H1 H2 H3 H4 H5 IH]; intros fuel H.
      - destruct fuel; destruct H.
      - destruct fuel as [|fuel]; [destruct H|]. cbn [recs map] in H. rewrite ser_cons in H. fold (recs n ps) in H. cbn [mentioned] in H.
        destruct (ser_rec (n, p) ++ ser (recs n ps)) as [|c0 b0] eqn:Eb; [destruct H|]. rewrite <- Eb in H. clear Eb c0 b0.
        assert (T : (8 * n + wire_of p < 2^64)%N) by (apply tag_lt; [exact Hn|pose proof (wire_of_lt p); lia]). pose proof (wire_of_lt p) as W8.
        unfold ser_rec in H. cbn [fst snd] in H. rewrite <- app_assoc, read_varint_vint in H by exact T.
        replace ((8 * n + wire_of p) mod 8)%N with (wire_of p) in H by lia. replace ((8 * n + wire_of p) / 8)%N with n in H by lia.
        rewrite read_payload_ser in H by exact H1. destruct H as [H|H]; [symmetry; exact H|]. exact (IH fuel H). }
    subst n'. clear - Hf Ei Hnd Hi. apply Hi. clear Hi.
    revert i j Hf Ei. induction (msg sch m) as [|g fs IH]; intros [|i] [|j] Hf Ei; try discriminate; [reflexivity|..].
    + cbn in Ei. inversion Ei; subst g. cbn [numbers nodup_N] in Hnd. apply andb_true_iff in Hnd. destruct Hnd as [Hnd _]. exfalso. revert Hnd. cbn [nth_error] in Hf.
      intros Hnd. apply nodup_not_in in Hnd. apply Hnd. clear - Hf. revert j Hf. induction fs as [|[|] fs IH]; intros [|j] H; try discriminate; cbn [numbers nth_error] in *.
      * eapply IH; exact H.
      * inversion H; left; reflexivity.
      * right. eapply IH; exact H.
    + cbn in Hf. inversion Hf; subst g. cbn [numbers nodup_N] in Hnd. apply andb_true_iff in Hnd. destruct Hnd as [Hnd _]. exfalso. cbn [nth_error] in Ei.
      apply nodup_not_in in Hnd. apply Hnd. clear - Ei. revert i Ei. induction fs as [|[|] fs IH]; intros [|j] H; try discriminate; cbn [numbers nth_error] in *.
      * eapply IH; exact H.
      * inversion H; left; reflexivity.
      * right. eapply IH; exact H.
    + f_equal. apply IH; try assumption. destruct g; cbn [numbers nodup_N] in Hnd; [exact Hnd|]. apply andb_true_iff in Hnd. apply Hnd.
Qed.

(** ** C32 *)
Lemma capacity_proof s1 s2 m ys zs b : reachable D s1 -> reachable D s2 ->
  wts D (VStruct ys) (SNamed m) = true -> wts D (VStruct zs) (SNamed m) = true -> forallb fresh ys = true -> forallb fresh zs = true ->
  map norm ys = map norm zs -> bytes_okb b = true -> zlen b < Z63 ->
  (exists ys' zs', fst (Unmarshal D b (ptr m ys) s1) = Returns (ptr m ys', None) /\
                   fst (Unmarshal D b (ptr m zs) s2) = Returns (ptr m zs', None) /\ map norm ys' = map norm zs') \/
  (exists x z e1 e2, fst (Unmarshal D b (ptr m ys) s1) = Returns (IPtr (SNamed m) (Some x), Some e1) /\
                     fst (Unmarshal D b (ptr m zs) s2) = Returns (IPtr (SNamed m) (Some z), Some e2)).
Proof.
  intros Hr1 Hr2 Wy Wz Fy Fz N Hb Hs.
  pose proof (unmarshal_lib D sch HV s1 m ys ys b Hr1 Wy Fy eq_refl Hb Hs) as U1.
  pose proof (unmarshal_lib D sch HV s2 m zs ys b Hr2 Wz Fz (eq_sym N) Hb Hs) as U2.
  destruct (merge_lib sch (S (length b)) (msg sch m) ys b); [left|right|contradiction].
  - destruct U1 as (y1 & A1 & B1 & _), U2 as (y2 & A2 & B2 & _). exists y1, y2. split; [exact A1|]. split; [exact A2|]. congruence.
  - destruct U1 as (x & e1 & U1), U2 as (z & e2 & U2). eauto 8.
Qed.
End Thms.
