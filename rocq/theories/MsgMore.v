(** Further facts about messages: cut inputs, fields not mentioned, errors,
    writing again what was read. *)
From Coq Require Import ZifyBool ZifyNat ZifyN.
From Verif Require Import Base Wire GoType Leaf Codec Tag Walker Api Resolve Typing CodecSim SpecWire SpecTag SpecMsg
  WireFacts DecodeFacts GenFacts TypingFacts WalkInv WalkSpec WalkSeq EncFacts MsgResolve MsgEnc MsgDec MsgRound MsgFit MsgApi ApiFacts.
Local Open Scope Z_scope.
Ltac Zify.zify_post_hook ::= Z.div_mod_to_equations.

Section More.
Variable sch : schema.
Notation mg := (mg sch).
Notation pl := (pl sch).
Notation put := (put sch).
Notation plain_put := (plain_put sch).
Notation records := (records sch).
Notation message := (message sch).

(** ** One record, whatever its number *)
Definition rec_ok (r : record) : Prop := (fst r < 2^61)%N /\ pay_ok (snd r).
Lemma merge_rec n p b fs xs : rec_ok (n, p) ->
  mg fs xs (ser_rec (n, p) ++ b) =
  match find_field 0 fs n with
  | None => mg fs xs b
  | Some (i, f) =>
    if negb (wire_fty f =? wire_of p)%N then MBad
    else match nth_error xs i with
         | None => MBad
         | Some y => match put mg f p y with MOk z => mg fs (replace xs i z) b | MBad => MBad | MFuel => MFuel end
         end
  end.
Proof.
  intros [Hn Hp]. cbn [fst snd] in Hn, Hp. unfold MsgRound.mg at 1, ser_rec. cbn [fst snd]. cbn [SpecMsg.merge].
  assert (T : (8 * n + wire_of p < 2^64)%N) by (apply tag_lt; [exact Hn|pose proof (wire_of_lt p); lia]).
  rewrite <- app_assoc. destruct (vint _ ++ _) as [|c0 b0] eqn:Eb.
  { apply app_eq_nil in Eb. destruct Eb as [Eb _]. exfalso. revert Eb. apply vint_nonempty. }
  rewrite <- Eb. clear Eb c0 b0. rewrite read_varint_vint by exact T.
  pose proof (wire_of_lt p) as W8.
  replace ((8 * n + wire_of p) mod 8)%N with (wire_of p) by lia. replace ((8 * n + wire_of p) / 8)%N with n by lia.
  rewrite read_payload_ser by exact Hp.
  pose proof (inner_ser p) as Hi. pose proof (vint_nonempty (8 * n + wire_of p)) as V. destruct (vint (8 * n + wire_of p)) as [|v0 v1]; [contradiction|].
  rewrite !app_length. cbn [length].
  destruct (find_field 0 fs n) as [[i f]|]; [|unfold MsgRound.mg; apply merge_fuel; lia].
  destruct (negb _); [reflexivity|]. destruct (nth_error xs i) as [y|]; [|reflexivity].
  rewrite (put_ext sch f p y _ mg).
  - destruct (put mg f p y); try reflexivity. unfold MsgRound.mg. apply merge_fuel; lia.
  - intros fs' xs' b' Hb'. unfold MsgRound.mg. apply merge_fuel; lia.
Qed.
Lemma plain_rec n p b fs : rec_ok (n, p) ->
  pl fs (ser_rec (n, p) ++ b) =
  match find_field 0 fs n with
  | None => true
  | Some (_, f) => negb (wire_fty f =? wire_of p)%N || plain_put pl f p (length (ser_payload p))
  end && pl fs b.
Proof.
  intros [Hn Hp]. cbn [fst snd] in Hn, Hp. unfold MsgRound.pl at 1, ser_rec. cbn [fst snd]. cbn [SpecMsg.plain].
  assert (T : (8 * n + wire_of p < 2^64)%N) by (apply tag_lt; [exact Hn|pose proof (wire_of_lt p); lia]).
  rewrite <- app_assoc. destruct (vint _ ++ _) as [|c0 b0] eqn:Eb.
  { apply app_eq_nil in Eb. destruct Eb as [Eb _]. exfalso. revert Eb. apply vint_nonempty. }
  rewrite <- Eb. clear Eb c0 b0. rewrite read_varint_vint by exact T.
  pose proof (wire_of_lt p) as W8.
  replace ((8 * n + wire_of p) mod 8)%N with (wire_of p) by lia. replace ((8 * n + wire_of p) / 8)%N with n by lia.
  rewrite read_payload_ser by exact Hp.
  pose proof (inner_ser p) as Hi. pose proof (vint_nonempty (8 * n + wire_of p)) as V. destruct (vint (8 * n + wire_of p)) as [|v0 v1]; [contradiction|].
  rewrite !app_length. cbn [length]. replace (length (ser_payload p) + length b - length b)%nat with (length (ser_payload p)) by lia.
  f_equal; [|unfold MsgRound.pl; apply plain_fuel; lia].
  destruct (find_field 0 fs n) as [[i f]|]; [|reflexivity].
  rewrite (plain_put_ext sch f p _ _ pl); [reflexivity|].
  intros fs' b' Hb'. unfold MsgRound.pl. apply plain_fuel; lia.
Qed.
Lemma merge_nil fs xs : mg fs xs [] = MOk xs.
Proof. reflexivity. Qed.
Lemma plain_nil fs : pl fs [] = true.
Proof. reflexivity. Qed.

(** Merging a list of records: the first, then the others. *)
Lemma merge_cons r b fs xs : rec_ok r -> mg fs xs (ser_rec r ++ b) =
  match mg fs xs (ser_rec r) with MOk ys => mg fs ys b | MBad => MBad | MFuel => MFuel end.
Proof.
  destruct r as [n p]. intros H. rewrite (merge_rec n p b fs xs H).
  rewrite <- (app_nil_r (ser_rec (n, p))) at 1. rewrite (merge_rec n p [] fs xs H).
  destruct (find_field 0 fs n) as [[i f]|]; [|rewrite merge_nil; reflexivity].
  destruct (negb _); [reflexivity|]. destruct (nth_error xs i); [|reflexivity]. destruct (put mg f p v); reflexivity.
Qed.
Lemma plain_cons r b fs : rec_ok r -> pl fs (ser_rec r ++ b) = pl fs (ser_rec r) && pl fs b.
Proof.
  destruct r as [n p]. intros H. rewrite (plain_rec n p b fs H).
  rewrite <- (app_nil_r (ser_rec (n, p))) at 1. rewrite (plain_rec n p [] fs H). rewrite plain_nil, andb_true_r. reflexivity.
Qed.

(** ** The records of a message are well-formed *)
Variable D : decls.
Hypothesis HI : implements D sch = true.
Hypothesis HS : schema_ok sch = true.
Hypothesis HC : in_scope sch = true.

Lemma put_list_ok f y ps z : put_list sch f y ps z -> Forall pay_ok ps.
Proof. induction 1; constructor; auto. Qed.
Lemma message_ok m xs : all2 (wt D) xs (field_types D m) = true -> encodable_msg sch xs (msg sch m) = true ->
  zlen (ser (message xs (msg sch m))) < Z63 -> Forall rec_ok (message xs (msg sch m)).
Proof.
  rewrite (field_types_of D sch HI). pose proof (msg_fields_ok sch HS HC m) as Hok. revert xs Hok.
  induction (msg sch m) as [|f fs IH]; intros [|x xs] Hok Hw He Hsm; try discriminate; try constructor.
  cbn [all2 map] in Hw. apply andb_true_iff in Hw. destruct Hw as [Hx Hw].
  assert (Hok' : fields_ok fs) by (intros n g Hin; apply Hok; right; exact Hin).
  destruct f as [t|n f]; cbn [SpecMsg.message SpecMsg.encodable_msg fld_type] in *; [apply IH; assumption|].
  apply andb_true_iff in He. destruct He as [He1 He]. rewrite ser_app, zlen_app in Hsm.
  pose proof (zlen_nonneg (ser (records x n f))). pose proof (zlen_nonneg (ser (message xs fs))).
  destruct (Hok n f (or_introl eq_refl)) as [Hf Hn].
  destruct (good_all sch D HI HS HC x n f Hx Hf Hn He1 ltac:(lia)) as (ps & w & Er & Hp & _).
  apply Forall_app. split; [|apply IH; try assumption; lia]. rewrite Er. apply put_list_ok in Hp.
  unfold recs. apply Forall_forall. intros r Hr. apply in_map_iff in Hr. destruct Hr as (p & <- & Hin). rewrite Forall_forall in Hp.
  split; cbn [fst snd]; auto.
Qed.

(** ** Values that agree up to [norm] are written alike *)
Lemma scalar_dec_val v : scalar v = true \/ scalar v = false.
Proof. destruct (scalar v); auto. Qed.
Lemma norm_scalar v w : norm v = norm w -> scalar v = scalar w.
Proof. destruct v as [| | | | | | | | |[]| |[[|]|]|[]| |], w as [| | | | | | | | |[]| |[[|]|]|[]| |]; cbn; intros H; try discriminate; reflexivity. Qed.
Lemma pay_nonscalar s v : scalar v = false -> pay s v = PVar 0.
Proof. destruct s, v; intros H; try discriminate; reflexivity. Qed.
Lemma zero_nonscalar v : scalar v = false -> is_zero v = false.
Proof. destruct v; intros H; try discriminate; reflexivity. Qed.

Definition alike (v w : val) : Prop :=
  match v with
  | VOpt false _ => exists y, w = VOpt false y
  | VSlice _ items _ => exists nn items' sp, w = VSlice nn items' sp /\ map norm items = map norm items'
  | VMap m => exists m', w = VMap m' /\ map norm_kv (entries m) = map norm_kv (entries m')
  | VPtr o => exists o', w = VPtr o' /\ option_map norm o = option_map norm o'
  | VStruct xs => exists ys, w = VStruct ys /\ map norm xs = map norm ys
  | _ => w = v
  end.
Lemma norm_alike v w : norm v = norm w -> alike v w.
Proof.
  intros E. destruct v; cbn [alike].
  all: try (apply (norm_slice_inv _ _ _ _ E)).
  all: try (apply (norm_map_inv _ _ E)).
  all: try (apply (norm_ptr_inv _ _ E)).
  all: try (apply (norm_struct_inv _ _ E)).
  all: try (destruct some).
  all: destruct w as [| | | | | | | | |[]| |[[|]|]|[]| |]; try discriminate E; try (cbn in E; congruence); eauto.
Qed.

Definition same_records (v : val) : Prop := forall w n f, norm v = norm w -> records v n f = records w n f.
Lemma records_list_norm n e : forall a b, Forall same_records a ->
  map norm a = map norm b -> flat_map (fun x => records x n e) a = flat_map (fun x => records x n e) b.
Proof.
  induction a as [|x a IH]; intros [|y b] H E; try discriminate; [reflexivity|]. inversion H; subst. inversion E. cbn [flat_map].
  rewrite (H2 y n e), (IH b); auto.
Qed.
Lemma message_norm_aux fs : forall a b, Forall same_records a -> map norm a = map norm b -> message a fs = message b fs.
Proof.
  induction fs as [|[t|n f] fs IH]; intros [|x a] [|y b] H E; try discriminate; try reflexivity; inversion H; subst; inversion E; cbn [SpecMsg.message].
  - apply IH; assumption.
  - rewrite (H2 y n f), (IH a b); auto.
Qed.
Lemma records_norm : forall v, same_records v.
Proof.
  induction v as [v IH] using val_ind2. intros w n f E. pose proof (norm_scalar _ _ E) as Es.
  destruct (scalar v) eqn:Sv; [rewrite (scalar_norm_inv v w Sv E); reflexivity|].
  apply norm_alike in E.
  assert (G : forall s, match f with FImplicit s' | FAlways s' => s = s' | _ => False end -> records v n f = records w n f).
  { intros s Hs. destruct f; try contradiction.
    - assert (A : forall v, records v n (FImplicit s0) = if is_zero v then [] else [(n, pay s0 v)]) by (intros u; destruct u; reflexivity).
      rewrite !A, !zero_nonscalar, !pay_nonscalar by congruence. reflexivity.
    - assert (A : forall v, records v n (FAlways s0) = [(n, pay s0 v)]) by (intros u; destruct u; reflexivity).
      rewrite !A, !pay_nonscalar by congruence. reflexivity. }
  destruct f as [s|s|s|s| |m|e|k e]; try (apply (G s); reflexivity); clear G.
  all: destruct v; try discriminate Sv; cbn [alike] in E.
  all: try (destruct some); try (rewrite E; reflexivity).
  all: try (destruct E as (? & -> & E)); try (destruct E as (? & ->)); try (destruct E as (? & ? & ? & -> & E)); try reflexivity.
  all: try (destruct o as [p|], x as [x|]; try discriminate E; try reflexivity; injection E as E).
  - (* pointer *)
    cbn [SpecMsg.records]. pose proof (norm_scalar _ _ E) as Es'. destruct (scalar p) eqn:Sv'.
    + rewrite (scalar_norm_inv _ _ Sv' E). reflexivity.
    + rewrite !pay_nonscalar by congruence. reflexivity.
  - (* message *)
    apply norm_alike in E. destruct p; cbn [alike] in E.
    all: try (destruct some); try (rewrite E; reflexivity).
    all: try (destruct E as (? & -> & E)); try (destruct E as (? & ->)); try (destruct E as (? & ? & ? & -> & E)); try reflexivity.
    rewrite !records_msg. destruct IH as [_ IH]. rewrite (message_norm_aux _ _ _ IH E). reflexivity.
  - (* repeated *) destruct IH as [IH _]. cbn [SpecMsg.records]. apply records_list_norm; assumption.
  - (* map *)
    assert (R : forall m, records (VMap m) n (FMap k e) = flat_map (fun kv => match kv with (a, x) =>
      [(n, PLen (ser (records a 1 (FAlways k) ++ records x 2 e)))] end) (entries m)) by (intros [|]; reflexivity).
    rewrite !R. assert (IH' : Forall (fun kv => same_records (fst kv) /\ same_records (snd kv)) (entries m)) by (destruct m; [exact IH|constructor]).
    revert E IH'. generalize (entries m) (entries x). clear. intros a. induction a as [|[k1 x] a IHa]; intros [|[k2 y] b] E H; try discriminate; [reflexivity|].
    inversion E. inversion H as [|? ? [Hk Hx] Hl]; subst. cbn [flat_map fst snd] in *. rewrite (Hx y 2%N e) by assumption. rewrite (IHa b) by assumption. reflexivity.
Qed.
Lemma message_norm fs a b : map norm a = map norm b -> message a fs = message b fs.
Proof. apply message_norm_aux. apply Forall_forall. intros v _. apply records_norm. Qed.

Notation encodable := (encodable sch).
Notation encodable_msg := (encodable_msg sch).
Definition same_encodable (v : val) : Prop := forall w f, norm v = norm w -> encodable v f = encodable w f.
Lemma encodable_msg_norm_aux fs : forall a b, Forall same_encodable a -> map norm a = map norm b -> encodable_msg a fs = encodable_msg b fs.
Proof.
  induction fs as [|[t|n f] fs IH]; intros [|x a] [|y b] H E; try discriminate; try reflexivity; inversion H; subst; inversion E; cbn [SpecMsg.encodable_msg].
  - apply IH; assumption.
  - rewrite (H2 y f), (IH a b); auto.
Qed.
Lemma key_length_norm k x y : norm x = norm y -> key_length k x = key_length k y.
Proof.
  intros E. pose proof (norm_scalar _ _ E) as Es. destruct (scalar x) eqn:Sx; [rewrite (scalar_norm_inv x y Sx E); reflexivity|].
  apply norm_alike in E. destruct x; try discriminate Sx; cbn [alike] in E; try (destruct some); try (rewrite E; reflexivity).
  all: try (destruct E as (? & -> & E)); try (destruct E as (? & ->)); try (destruct E as (? & ? & ? & -> & E)); try reflexivity.
  destruct o as [p|], x as [x|]; try discriminate E; reflexivity.
Qed.
Lemma map_len_ok_norm k e x y : norm x = norm y -> map_len_ok sch k e x = map_len_ok sch k e y.
Proof. intros E. unfold map_len_ok. rewrite (key_length_norm k x y E), (records_norm x y 2%N e E). reflexivity. Qed.
Lemma encodable_norm : forall v, same_encodable v.
Proof.
  induction v as [v IH] using val_ind2. intros w f E. pose proof (norm_scalar _ _ E) as Es.
  destruct (scalar v) eqn:Sv; [rewrite (scalar_norm_inv v w Sv E); reflexivity|].
  apply norm_alike in E.
  destruct f as [s|s|s|s| |m|e|k e]; try (destruct v, w; reflexivity).
  all: destruct v; try discriminate Sv; cbn [alike] in E.
  all: try (destruct some); try (rewrite E; reflexivity).
  all: try (destruct E as (? & -> & E)); try (destruct E as (? & ->)); try (destruct E as (? & ? & ? & -> & E)); try reflexivity.
  all: try (destruct o as [p|], x as [x|]; try discriminate E; try reflexivity; injection E as E).
  - (* pointer *)
    cbn [SpecMsg.encodable]. pose proof (norm_scalar _ _ E) as Es'. destruct (scalar p) eqn:Sv'.
    + rewrite (scalar_norm_inv _ _ Sv' E). reflexivity.
    + rewrite !zero_nonscalar by congruence. reflexivity.
  - (* message *)
    apply norm_alike in E. destruct p; cbn [alike] in E.
    all: try (destruct some); try (rewrite E; reflexivity).
    all: try (destruct E as (? & -> & E)); try (destruct E as (? & ->)); try (destruct E as (? & ? & ? & -> & E)); try reflexivity.
    rewrite !encodable_eq. destruct IH as [_ IH]. apply encodable_msg_norm_aux; assumption.
  - (* repeated *) destruct IH as [IH _]. cbn [SpecMsg.encodable]. revert E. generalize x0. clear - IH. induction IH as [|a l Ha _ IHl]; intros [|b r] E; try discriminate; [reflexivity|].
    inversion E. cbn [forallb]. rewrite (Ha b e), (IHl r); auto.
  - (* map *)
    assert (R : forall m, encodable (VMap m) (FMap k e) = match entries m with [] => false | l =>
      forallb (fun kv => match kv with (_, x) => map_len_ok sch k e x && encodable x e end) l end) by (intros [[|]|]; reflexivity).
    rewrite !R. assert (IH' : Forall (fun kv => same_encodable (fst kv) /\ same_encodable (snd kv)) (entries m)) by (destruct m; [exact IH|constructor]).
    assert (A : forallb (fun kv => match kv with (_, x) => map_len_ok sch k e x && encodable x e end) (entries m) =
                forallb (fun kv => match kv with (_, x) => map_len_ok sch k e x && encodable x e end) (entries x)).
    { revert E IH'. generalize (entries m) (entries x). clear. intros a. induction a as [|[k1 x] a IHa]; intros [|[k2 y] b] E H; try discriminate; [reflexivity|].
      inversion E. inversion H as [|? ? [Hk Hx] Hl]; subst. cbn [forallb fst snd] in *. rewrite (Hx y e) by assumption. rewrite (map_len_ok_norm k e x y) by assumption. rewrite (IHa b) by assumption. reflexivity. }
    destruct (entries m), (entries x); try discriminate E; [reflexivity|exact A].
Qed.
Lemma encodable_msg_norm fs a b : map norm a = map norm b -> encodable_msg a fs = encodable_msg b fs.
Proof. apply encodable_msg_norm_aux. apply Forall_forall. intros v _. apply encodable_norm. Qed.

(** ** What the wire keeps is written like the original *)
Notation kept := (kept sch).
Notation kept_msg := (kept_msg sch).
Lemma kept_scalar v f : match f with FMessage _ | FRepeated _ | FMap _ _ => False | _ => True end -> kept v f = v.
Proof. destruct f; intros []; destruct v; reflexivity. Qed.
Lemma nil_records v n e : ok_elem e = true -> is_nil v = true -> wt D v (go_type e) = true -> records v n e = [].
Proof. destruct e; try discriminate; intros _ H W; destruct v; try discriminate; try (destruct o; discriminate); try (destruct o; try discriminate; reflexivity); destruct b; discriminate || reflexivity. Qed.
Definition keeps (v : val) : Prop := forall f, wt D v (go_type f) = true -> ok_fty f = true ->
  (forall n, records (kept v f) n f = records v n f) /\ (encodable v f = true -> encodable (kept v f) f = true).
Lemma keeps_msg fs : forall xs, Forall keeps xs -> all2 (wt D) xs (map fld_type fs) = true -> fields_ok fs ->
  message (kept_msg xs fs) fs = message xs fs /\ (encodable_msg xs fs = true -> encodable_msg (kept_msg xs fs) fs = true).
Proof.
  induction fs as [|f fs IH]; intros [|x xs] Hk Hw Hok; try discriminate; [split; reflexivity|].
  cbn [all2 map] in Hw. apply andb_true_iff in Hw. destruct Hw as [Hx Hw]. inversion Hk; subst.
  assert (Hok' : fields_ok fs) by (intros n g Hin; apply Hok; right; exact Hin).
  destruct (IH xs ltac:(assumption) Hw Hok') as [A B].
  destruct f as [t|n f]; cbn [SpecMsg.message SpecMsg.encodable_msg SpecMsg.kept_msg fld_type] in *; [split; assumption|].
  destruct (Hok n f (or_introl eq_refl)) as [Hf Hn]. destruct (H1 f Hx Hf) as [R1 R2]. rewrite R1, A. split; [reflexivity|].
  rewrite !andb_true_iff. intros [E1 E2]. auto.
Qed.
Lemma keeps_all : forall v, keeps v.
Proof.
  induction v as [v IH] using val_ind2. intros f Hw Hf.
  destruct f as [s|s|s|s| |m|e|k e]; try (rewrite kept_scalar by exact Logic.I; split; auto).
  - cbn [go_type] in Hw. destruct (wt_msg _ _ _ Hw) as ([x|] & -> & Hx); [|split; auto].
    destruct (wts_struct D x (SNamed m)) as (xs & -> & W); [discriminate|exact Hx|]. cbn [key_types] in W.
    rewrite (field_types_of D sch HI) in W. rewrite kept_message, !encodable_eq. destruct IH as [_ IH].
    destruct (keeps_msg (msg sch m) xs IH W (msg_fields_ok sch HS HC m)) as [A B].
    split; [|exact B]. intros n. rewrite !records_msg, A. reflexivity.
  - cbn [go_type] in Hw. destruct (wt_slice _ _ _ Hw) as (nn & items & spare & -> & Hi & Hsp). destruct IH as [IH _]. cbn [ok_fty] in Hf.
    cbn [SpecMsg.kept SpecMsg.records SpecMsg.encodable]. clear - IH Hi Hf HI HS HC. induction IH as [|x l Hx _ IHl]; [split; auto|].
    cbn [forallb] in Hi. apply andb_true_iff in Hi. destruct Hi as [Wx Hi]. destruct (IHl Hi) as [A B]. cbn [flat_map].
    destruct (Hx e Wx (elem_ok _ Hf)) as [R1 R2]. destruct (is_nil x) eqn:Nx.
    + split; [intros n; rewrite (nil_records x n e Hf Nx Wx); apply A|]. cbn [forallb]. rewrite andb_true_iff. intros [_ E]. exact (B E).
    + split; [intros n; cbn [app flat_map]; rewrite R1, A; reflexivity|]. cbn [forallb app]. rewrite !andb_true_iff. intros [E1 E2]. auto.
  - cbn [go_type] in Hw. destruct (wt_map _ _ _ _ Hw) as ([l|] & -> & Hm); [|split; auto]. destruct Hm as [Hm _].
    cbn [ok_fty] in Hf. apply andb_true_iff in Hf. destruct Hf as [Hk Hv].
    assert (A : (forall n, records (kept (VMap (Some l)) (FMap k e)) n (FMap k e) = records (VMap (Some l)) n (FMap k e)) /\
      (forallb (fun kv => match kv with (_, x) => map_len_ok sch k e x && encodable x e end) l = true ->
       forallb (fun kv => match kv with (_, x) => map_len_ok sch k e x && encodable x e end) (map (fun kv => match kv with (a, x) => (a, kept x e) end) l) = true)).
    { cbn [SpecMsg.kept SpecMsg.records]. clear - IH Hm Hv HI HS HC. induction IH as [|[a x] l [_ Hx] _ IHl]; [split; auto|].
      cbn [forallb fst snd] in *. apply andb_true_iff in Hm. destruct Hm as [W Hm]. apply andb_true_iff in W. destruct W as [_ Wx].
      destruct (IHl Hm) as [A B]. destruct (Hx e Wx (val_ok _ Hv)) as [R1 R2]. split.
      - intros n. cbn [map flat_map]. rewrite R1, A. reflexivity.
      - cbn [map forallb]. rewrite !andb_true_iff. intros [[E1 E2] E3]. repeat split; auto.
        unfold map_len_ok in *. rewrite R1. replace (key_length k (kept x e)) with (key_length k x); [exact E1|].
        destruct e; try discriminate; try (rewrite kept_scalar by exact Logic.I; reflexivity).
        destruct x as [| | | | | | | | | | | |[[]|]| |]; reflexivity. }
    split; [apply A|]. destruct l as [|kv l]; [discriminate|]. exact (proj2 A).
Qed.
Lemma message_kept m xs : all2 (wt D) xs (field_types D m) = true ->
  message (kept_msg xs (msg sch m)) (msg sch m) = message xs (msg sch m) /\
  (encodable_msg xs (msg sch m) = true -> encodable_msg (kept_msg xs (msg sch m)) (msg sch m) = true).
Proof.
  rewrite (field_types_of D sch HI). intros W. apply keeps_msg; [|exact W|apply (msg_fields_ok sch HS HC)].
  apply Forall_forall. intros x _. apply keeps_all.
Qed.
End More.
