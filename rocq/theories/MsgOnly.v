(** Values that are not encodable are not written as their records. *)
From Coq Require Import ZifyBool ZifyNat ZifyN.
From Verif Require Import Base Wire GoType Leaf Codec Tag Walker Api Resolve Typing SpecWire SpecTag SpecMsg
  WireFacts DecodeFacts TypingFacts CodecSim WalkSeq EncFacts MsgResolve MsgEnc MsgApi.
Local Open Scope Z_scope.
Ltac Zify.zify_post_hook ::= Z.div_mod_to_equations.

(** ** Byte strings that differ at some position *)
Definition clash (t c : bytes) : Prop := exists p x y u w, t = p ++ x :: u /\ c = p ++ y :: w /\ x <> y.
Lemma clash_neq t c : clash t c -> t <> c.
Proof. intros (p & x & y & u & w & -> & -> & H) E. apply app_inv_head in E. congruence. Qed.
Lemma clash_head p t c : clash t c -> clash (p ++ t) (p ++ c).
Proof. intros (q & x & y & u & w & -> & -> & H). exists (p ++ q), x, y, u, w. rewrite <- !app_assoc. auto. Qed.
Lemma clash_tail t c a b : clash t c -> clash (t ++ a) (c ++ b).
Proof.
  intros (p & x & y & u & w & -> & -> & H). exists p, x, y, (u ++ a), (w ++ b). rewrite <- !app_assoc. auto.
Qed.
Lemma prefix_or_clash : forall t c : bytes, (exists r, c = t ++ r) \/ (exists r, t = c ++ r) \/ clash t c.
Proof.
  induction t as [|x t IH]; intros [|y c]; try (left; eexists; reflexivity).
  - right. left. eexists. reflexivity.
  - destruct (N.eq_dec x y) as [->|E].
    + destruct (IH c) as [[r ->]|[[r ->]|H]]; [left|right; left|right; right]; try (exists r; reflexivity).
      apply (clash_head [y]). exact H.
    + right. right. exists [], x, y, t, c. auto.
Qed.
Lemma vint_inj m n a b : (m < 2^64)%N -> (n < 2^64)%N -> vint m ++ a = vint n ++ b -> m = n.
Proof.
  intros Hm Hn E. pose proof (read_varint_vint m a Hm) as A. rewrite E in A. rewrite (read_varint_vint n b Hn) in A.
  congruence.
Qed.
Lemma vint_clash m n a b : (m < 2^64)%N -> (n < 2^64)%N -> m <> n -> clash (vint m ++ a) (vint n ++ b).
Proof.
  intros Hm Hn H. destruct (prefix_or_clash (vint m ++ a) (vint n ++ b)) as [[r E]|[[r E]|C]]; [| |exact C];
    exfalso; apply H; rewrite <- app_assoc in E; [symmetry|]; eapply vint_inj; eassumption.
Qed.

(** ** Sizes are not negative *)
Lemma varint_pos n : 0 <= sizeOfVarint n.
Proof. unfold sizeOfVarint. lia. Qed.
Definition pos (r : res Z) : Prop := forall z, r = OK z -> 0 <= z.
Lemma pos_ok z : 0 <= z -> pos (OK z).
Proof. intros H z' E. inversion E; subst. exact H. Qed.
Lemma pos_cr c : pos (CR c).
Proof. intros z E. discriminate. Qed.
Lemma pos_bind {A} (r : res A) k : (forall a, pos (k a)) -> pos (rbind r k).
Proof. intros H. destruct r; [apply H|apply pos_cr]. Qed.
Lemma pos_sum l : Forall pos l -> pos (sum_res l).
Proof.
  induction 1 as [|r l H _ IH]; [apply pos_ok; lia|]. cbn [sum_res]. destruct r as [a|]; [|apply pos_cr]. cbn [rbind].
  destruct (sum_res l) as [b|]; [|apply pos_cr]. cbn [rbind]. apply pos_ok. specialize (H a eq_refl). specialize (IH b eq_refl). lia.
Qed.
Lemma varlen_pos (b : bytes) : 0 <= sizeOfVarlen (zlen b).
Proof. unfold sizeOfVarlen. pose proof (varint_pos (u64 (zlen b))). pose proof (zlen_nonneg b). lia. Qed.
Lemma static_pos s v f : 0 <= tagsize f -> pos (l_size (static s) v f).
Proof.
  intros Hf.
  destruct s as [w [| |]|]; [destruct w..|];
  cbn [static l_size boolCodec stringCodec float32Codec float64Codec int32Codec int64Codec uint32Codec uint64Codec fixed32Codec fixed64Codec zigzag32Codec zigzag64Codec
       boolRequiredCodec stringRequiredCodec float32RequiredCodec float64RequiredCodec int32RequiredCodec int64RequiredCodec uint32RequiredCodec uint64RequiredCodec fixed32RequiredCodec fixed64RequiredCodec zigzag32RequiredCodec zigzag64RequiredCodec
       boolOptionCodec stringOptionCodec float32OptionCodec float64OptionCodec int32OptionCodec int64OptionCodec uint32OptionCodec uint64OptionCodec fixed32OptionCodec fixed64OptionCodec zigzag32OptionCodec zigzag64OptionCodec
       bytesCodec optionCodec];
  unfold sizeOption, sizeOfBool, sizeOfBytes, sizeOfString, sizeOfFloat32, sizeOfFloat64, sizeOfInt32, sizeOfInt64, sizeOfUint32, sizeOfUint64,
    sizeOfFixed32, sizeOfFixed64, sizeOfZigzag32, sizeOfZigzag64, sizeOfBoolRequired, sizeOfStringRequired, sizeOfFloat32Required,
    sizeOfFloat64Required, sizeOfInt32Required, sizeOfInt64Required, sizeOfUint32Required, sizeOfUint64Required, sizeOfFixed32Required,
    sizeOfFixed64Required, sizeOfZigzag32Required, sizeOfZigzag64Required;
  repeat match goal with
  | |- pos (rbind _ _) => apply pos_bind; intros ?
  | |- pos (if ?x then _ else _) => destruct x
  | |- pos (match ?x with _ => _ end) => destruct x
  | |- pos (CR _) => apply pos_cr
  | |- pos (OK _) => apply pos_ok
  end;
  try match goal with |- context [sizeOfVarlen (zlen ?b)] => pose proof (varlen_pos b) end;
  try match goal with |- context [sizeOfVarint ?b] => pose proof (varint_pos b) end; lia.
Qed.

Lemma fields_pos {R} (s : nat -> option (R -> fmeta -> res Z)) fs :
  (forall f g, In f fs -> s (f_idx f) = Some g -> pos (g (f_codec f) (f_meta f))) -> pos (fields_size s fs).
Proof.
  induction fs as [|f fs IH]; intros H; [apply pos_ok; lia|]. cbn [fields_size].
  destruct (s (f_idx f)) as [g|] eqn:E; [|apply pos_cr]. pose proof (H f g (or_introl eq_refl) E) as A.
  destruct (g (f_codec f) (f_meta f)) as [a|]; [|apply pos_cr]. cbn [rbind].
  pose proof (IH (fun f' g' I => H f' g' (or_intror I))) as B. destruct (fields_size s fs) as [b|]; [|apply pos_cr]. cbn [rbind].
  apply pos_ok. specialize (A a eq_refl). specialize (B b eq_refl). lia.
Qed.
Lemma sz_pos D : forall v p f, 0 <= tagsize f -> pos (sz plook (piget D) v p f).
Proof.
  induction v as [v IH] using val_ind2. intros p f Hf. destruct p as [s|e q|e q|k|tag kt vt key val kp vp].
  - rewrite sz_static. apply static_pos. exact Hf.
  - destruct v as [| | | | | | | | | | | |[x|]| |]; try apply pos_cr; [|apply pos_ok; lia]. cbn [sz plook]. apply IH. exact Hf.
  - destruct v; try apply pos_cr. cbn [sz plook]. destruct IH as [IH _]. apply pos_sum. rewrite Forall_map. eapply Forall_impl; [|exact IH].
    cbn beta. intros a Ha. apply Ha. exact Hf.
  - destruct v as [| | | | | | | | | | | |[x|]| |]; try apply pos_cr; [|apply pos_ok; lia]. cbn [sz plook].
    match goal with |- pos (rbind ?r _) => assert (P : pos r) end.
    { apply fields_pos. intros g h Hg E. destruct (piget_ok D _ _ Hg) as [[_ M] _].
      destruct x as [| | | | | | | | | | | | |xs|]; try (destruct (f_idx g); discriminate E).
      rewrite nth_sub in E. destruct (nth_error xs (f_idx g)) as [y|] eqn:N; [|discriminate E]. cbn [option_map] in E. apply some_inj in E. subst h.
      destruct IH as [_ IH]. rewrite Forall_forall in IH. apply (IH y (nth_error_In _ _ N)). rewrite M. apply varint_pos. }
    destruct (fields_size _ _) as [z|]; [|apply pos_cr]. cbn [rbind]. apply pos_ok. specialize (P z eq_refl). pose proof (varint_pos (u64 z)). lia.
  - destruct v as [| | | | | | | | | | |m| | |]; try apply pos_cr. cbn [sz plook].
    match goal with |- pos (rbind ?r _) => assert (P : pos r) end.
    { apply pos_sum. destruct m as [l|]; [|constructor]. rewrite Forall_map. eapply Forall_impl; [|exact IH]. cbn beta. intros [a x] [A B]. cbn [fst snd] in A, B.
      cbn [mkfield f_codec f_meta].
      pose proof (A kp (meta_of kt) (varint_pos _)) as A'. pose proof (B vp (meta_of vt) (varint_pos _)) as B'.
      destruct (sz _ _ a _ _) as [sa|]; [|apply pos_cr]. cbn [rbind]. destruct (sz _ _ x _ _) as [sx|]; [|apply pos_cr]. cbn [rbind].
      apply pos_ok. specialize (A' sa eq_refl). specialize (B' sx eq_refl). pose proof (varint_pos tag). pose proof (varint_pos (u64 (sa + sx))). lia. }
    destruct (sum_res _) as [z|]; [|apply pos_cr]. cbn [rbind]. apply pos_ok. specialize (P z eq_refl). pose proof (varint_pos tag). destruct (z =? 0); lia.
Qed.

(** ** What a field, a list of items or a message may write *)
Definition head (tg : N) (s : Z) (t : bytes) : Prop := (t = [] /\ s = 0) \/ exists r, t = vint tg ++ r.
Definition outcome (s : Z) (t c : bytes) (good : bool) : Prop :=
  (good = true /\ t = c /\ s = zlen t) \/ (good = false /\ clash t c).

Lemma chain_out {A} tg (l : list A) (r : A -> bytes -> res bytes) n c g :
  Forall (fun x => pos (n x) /\ forall s, n x = OK s -> s < Z63 -> forall b b', r x b = OK b' ->
    exists t, b' = b ++ t /\ head tg s t /\ outcome s t (c x) (g x)) l ->
  forall s, sum_res (map n l) = OK s -> s < Z63 -> forall b b', chain_res b (map r l) = OK b' ->
  exists t, b' = b ++ t /\ head tg s t /\ outcome s t (concat (map c l)) (forallb g l).
Proof.
  intros H. assert (P : Forall pos (map n l)) by (rewrite Forall_map; eapply Forall_impl; [|exact H]; cbn; tauto).
  induction H as [|x l [Hp Hx] _ IH]; intros s Es Hs b b' Eb; cbn [map sum_res chain_res concat forallb] in *.
  - inversion Es; inversion Eb; subst. exists []. rewrite app_nil_r. split; [reflexivity|]. split; [left; auto|]. left. auto.
  - inversion P; subst. destruct (n x) as [s1|] eqn:E1; [|discriminate Es]. cbn [rbind] in Es.
    destruct (sum_res (map n l)) as [s2|] eqn:E2; [|discriminate Es]. cbn [rbind] in Es. inversion Es; subst s.
    pose proof (Hp s1 eq_refl). pose proof (pos_sum _ H2 s2 E2).
    destruct (r x b) as [b1|] eqn:F1; [|discriminate Eb]. cbn [rbind] in Eb.
    destruct (Hx s1 eq_refl ltac:(lia) b b1 F1) as (t1 & -> & A1 & B1).
    destruct (IH H2 s2 eq_refl ltac:(lia) _ _ Eb) as (t2 & -> & A2 & B2).
    exists (t1 ++ t2). split; [rewrite app_assoc; reflexivity|]. split.
    + destruct A1 as [[-> ->]|[q ->]]; [destruct A2 as [[-> ->]|[q ->]]; [left; auto|right; exists q; reflexivity]|].
      right. exists (q ++ t2). rewrite app_assoc. reflexivity.
    + destruct B1 as [(-> & <- & ->)|[-> C]].
      * destruct B2 as [(-> & <- & ->)|[-> C]]; [left|right]; (split; [reflexivity|]).
        -- split; [reflexivity|rewrite zlen_app; reflexivity].
        -- apply clash_head, C.
      * right. split; [reflexivity|]. apply clash_tail, C.
Qed.

Lemma head_add tg s1 s2 t1 t2 : head tg s1 t1 -> head tg s2 t2 -> head tg (s1 + s2) (t1 ++ t2).
Proof.
  intros [[-> ->]|[q ->]]; [intros [[-> ->]|[q ->]]; [left; auto|right; exists q; reflexivity]|].
  intros _. right. exists (q ++ t2). rewrite app_assoc. reflexivity.
Qed.
Lemma rec_head n p : exists r, ser [(n, p)] = vint (8 * n + wire_of p) ++ r.
Proof. rewrite ser_one. unfold ser_rec. cbn [fst snd]. eexists. reflexivity. Qed.
Lemma pay_wire D s v : wt D v (TScalar (go_kind s)) = true -> wire_of (pay s v) = wire_sty s.
Proof. intros H. destruct s; wtd v; reflexivity. Qed.

(** The size and the bytes of two messages or parts of messages. *)
Definition apart (s : Z) (t c : bytes) : Prop :=
  clash t c \/ (exists e, e <> [] /\ t = c ++ e /\ zlen c < s) \/ (exists e, e <> [] /\ c = t ++ e /\ s < zlen c).
Lemma apart_neq s t c : apart s t c -> t <> c.
Proof.
  intros [H|[(e & H & -> & _)|(e & H & -> & _)]]; [apply clash_neq, H| |]; intros E; apply H;
    [|symmetry in E]; rewrite <- (app_nil_r c) in E at 2 || rewrite <- (app_nil_r t) in E at 2; apply app_inv_head in E; exact E.
Qed.
Lemma apart_head p s t c : apart s t c -> apart (zlen p + s) (p ++ t) (p ++ c).
Proof.
  intros [H|[(e & H & -> & L)|(e & H & -> & L)]].
  - left. apply clash_head, H.
  - right. left. exists e. rewrite app_assoc, zlen_app. repeat split; [assumption|lia].
  - right. right. exists e. rewrite app_assoc, !zlen_app in *. repeat split; [assumption|lia].
Qed.

Lemma rec_len_le n d : zlen d <= zlen (ser [(n, PLen d)]).
Proof.
  rewrite ser_one. unfold ser_rec. cbn [fst snd ser_payload]. rewrite !zlen_app.
  pose proof (zlen_nonneg (vint (8 * n + wire_of (PLen d)))). pose proof (zlen_nonneg (vint (N.of_nat (length d)))). lia.
Qed.
Lemma rec_len_lt n d : zlen (ser [(n, PLen d)]) < Z63 -> zlen d < Z63.
Proof. pose proof (rec_len_le n d). lia. Qed.

Lemma part_len (l : list bytes) x : In x l -> zlen x <= zlen (concat l).
Proof.
  induction l as [|y l IH]; [intros []|]. cbn [concat]. rewrite zlen_app. intros [->|H]; [pose proof (zlen_nonneg (concat l)); lia|].
  apply IH in H. pose proof (zlen_nonneg y). lia.
Qed.

Section Only.
Variables (D : decls) (sch : schema).
Hypothesis HI : implements D sch = true.
Hypothesis HS : schema_ok sch = true.
Hypothesis HC : in_scope sch = true.
Notation sz := (sz plook (piget D)).
Notation enc := (enc plook (piget D)).
Notation records := (records sch).
Notation message := (message sch).
Notation encodable := (encodable sch).
Notation encodable_msg := (encodable_msg sch).

Lemma records_head : forall v n f, wt D v (go_type f) = true -> ok_fty f = true ->
  ser (records v n f) = [] \/ exists r, ser (records v n f) = vint (tag_of n f) ++ r.
Proof.
  induction v as [v IH] using val_ind2. intros n f Hw Hf.
  assert (K : forall p, wire_of p = wire_fty f -> exists r, ser [(n, p)] = vint (tag_of n f) ++ r).
  { intros p E. destruct (rec_head n p) as [r R]. rewrite E in R. eauto. }
  assert (L : forall (A : Type) (h : A -> list record) l, (forall x, In x l -> ser (h x) = [] \/ exists r, ser (h x) = vint (tag_of n f) ++ r) ->
     ser (flat_map h l) = [] \/ exists r, ser (flat_map h l) = vint (tag_of n f) ++ r).
  { intros A h l. induction l as [|x l IHl]; intros H; [left; reflexivity|]. cbn [flat_map]. rewrite ser_app.
    destruct (H x (or_introl eq_refl)) as [->|[r ->]]; [apply IHl; intros; apply H; right; assumption|].
    right. rewrite <- app_assoc. eauto. }
  destruct f as [s|s|s|s| |m|e|k e]; cbn [ok_fty go_type] in *.
  - assert (E : records v n (FImplicit s) = if is_zero v then [] else [(n, pay s v)]) by (destruct v; reflexivity). rewrite E.
    destruct (is_zero v); [left; reflexivity|]. right. apply K. apply (pay_wire D). exact Hw.
  - wtd v. cbn [wt] in Hw. destruct some; [|left; reflexivity]. right. apply K. apply (pay_wire D). exact Hw.
  - destruct (wt_ptr _ _ _ Hw) as ([x|] & -> & Hx); [|left; reflexivity]. right. apply K. apply (pay_wire D). exact Hx.
  - assert (E : records v n (FAlways s) = [(n, pay s v)]) by (destruct v; reflexivity). rewrite E.
    right. apply K. apply (pay_wire D). exact Hw.
  - wtd v; [|left; reflexivity]. right. apply K. reflexivity.
  - destruct (wt_msg _ _ _ Hw) as ([x|] & -> & Hx); [|left; reflexivity].
    destruct (wts_struct D x (SNamed m)) as (xs & -> & W); [discriminate|exact Hx|]. right. apply K. reflexivity.
  - destruct (wt_slice _ _ _ Hw) as (nn & items & spare & -> & Hi & _). destruct IH as [IH _]. cbn [SpecMsg.records].
    apply L. intros x Hx. rewrite Forall_forall in IH. rewrite forallb_forall in Hi. apply (IH x Hx n e); auto using elem_ok.
  - destruct (wt_map _ _ _ _ Hw) as ([l|] & -> & _); [|left; reflexivity]. cbn [SpecMsg.records]. apply L. intros [a x] _. right. apply K. reflexivity.
Qed.

Definition opens (f : fty) : bool := match f with FPointer _ | FMap _ _ => true | _ => false end.
Definition out_ok (v : val) : Prop := forall n f, wt D v (go_type f) = true -> ok_fty f = true -> (n < 2^61)%N ->
  zlen (ser (records v n f)) < Z63 ->
  forall s, sz v (pref_of n f) (meta_of (tag_of n f)) = OK s -> s < Z63 ->
  forall b b', enc v b (pref_of n f) (meta_of (tag_of n f)) = OK b' ->
  exists t, b' = b ++ t /\ head (tag_of n f) s t /\
    (outcome s t (ser (records v n f)) (encodable v f) \/
     (encodable v f = false /\ opens f = true /\
      ((ser (records v n f) = [] /\ t <> [] /\ 0 < s) \/ (t = [] /\ s = 0 /\ ser (records v n f) <> [])))).

Definition mhead (fs : list sfld) (z : Z) (t : bytes) : Prop :=
  (t = [] /\ z = 0) \/ exists n f r, In n (numbers fs) /\ (n < 2^61)%N /\ t = vint (tag_of n f) ++ r.
Lemma message_head : forall xs fs, all2 (wt D) xs (map fld_type fs) = true -> nums_ok fs = true -> scope_msg fs = true ->
  ser (message xs fs) = [] \/ exists n f r, In n (numbers fs) /\ (n < 2^61)%N /\ ser (message xs fs) = vint (tag_of n f) ++ r.
Proof.
  induction xs as [|x xs IH]; intros [|f fs] Hw Hnum Hsc; try discriminate; [left; reflexivity|].
  cbn [all2 map] in Hw. apply andb_true_iff in Hw. destruct Hw as [Hx Hw].
  unfold scope_msg in Hsc. cbn [forallb] in Hsc. apply andb_true_iff in Hsc. destruct Hsc as [Hf Hsc].
  destruct f as [t|n f]; cbn [SpecMsg.message fld_type numbers] in *.
  - apply IH; assumption.
  - unfold nums_ok in Hnum. cbn [numbers forallb] in Hnum. apply andb_true_iff in Hnum. destruct Hnum as [Hn1 Hns].
    apply andb_true_iff in Hn1. destruct Hn1 as [_ Hn1]. apply num_61 in Hn1. destruct Hn1 as [_ Hn1].
    rewrite ser_app. destruct (records_head x n f Hx (scope_ok _ Hf)) as [->|[r ->]].
    + destruct (IH fs Hw Hns Hsc) as [->|(n' & f' & r & Hin & L & ->)]; [left; reflexivity|]. right. exists n', f', r. cbn [app In]. auto.
    + right. exists n, f, (r ++ ser (message xs fs)). rewrite app_assoc. cbn [In]. auto.
Qed.
Lemma other_tag n n' f f' a b : (n < 2^61)%N -> (n' < 2^61)%N -> n <> n' -> clash (vint (tag_of n f) ++ a) (vint (tag_of n' f') ++ b).
Proof.
  intros H H' E. apply vint_clash; [apply tag_of_lt; exact H|apply tag_of_lt; exact H'|]. unfold tag_of.
  pose proof (wire_fty_lt f). pose proof (wire_fty_lt f'). lia.
Qed.

Lemma message_out all s e : (forall i, s i = option_map (fun y => sz y) (nth_error all i)) ->
  (forall i, e i = option_map (fun y => enc y) (nth_error all i)) ->
  Forall out_ok all ->
  forall fs xs i, (forall j, nth_error all (i + j) = nth_error xs j) ->
  all2 (wt D) xs (map fld_type fs) = true -> nums_ok fs = true -> nodup_N (numbers fs) = true -> scope_msg fs = true ->
  zlen (ser (message xs fs)) < Z63 ->
  forall z, fields_size s (spec_fields i fs) = OK z -> z < Z63 ->
  forall b b', fields_encode e b (spec_fields i fs) = OK b' ->
  0 <= z /\ exists t, b' = b ++ t /\ mhead fs z t /\
    ((encodable_msg xs fs = true /\ t = ser (message xs fs) /\ z = zlen t) \/
     (encodable_msg xs fs = false /\ apart z t (ser (message xs fs)))).
Proof.
  intros Hs He Hall. induction fs as [|f fs IH]; intros [|x xs] i Hn Hw Hnum Hnd Hsc Hsm z Ez Hz b b' Eb; try discriminate.
  { inversion Ez; inversion Eb; subst. split; [lia|]. exists []. rewrite app_nil_r. split; [reflexivity|]. split; [left; auto|]. left. auto. }
  cbn [all2 map] in Hw. apply andb_true_iff in Hw. destruct Hw as [Hx Hw].
  unfold scope_msg in Hsc. cbn [forallb] in Hsc. apply andb_true_iff in Hsc. destruct Hsc as [Hf Hsc].
  assert (Hn' : forall j, nth_error all (S i + j) = nth_error xs j) by (intros j; replace (S i + j)%nat with (i + S j)%nat by lia; apply Hn).
  destruct f as [t|n f]; cbn [SpecMsg.message spec_fields SpecMsg.encodable_msg fld_type] in *.
  { apply (IH xs (S i)); assumption. }
  unfold nums_ok in Hnum. cbn [numbers forallb] in Hnum. apply andb_true_iff in Hnum. destruct Hnum as [Hn1 Hns].
  apply andb_true_iff in Hn1. destruct Hn1 as [_ Hn1]. apply num_61 in Hn1. destruct Hn1 as [_ Hn1].
  cbn [numbers nodup_N] in Hnd. apply andb_true_iff in Hnd. destruct Hnd as [Hnot Hnd].
  assert (Hother : forall n', In n' (numbers fs) -> n' <> n).
  { intros n' Hin ->. apply negb_true_iff in Hnot. assert (existsb (N.eqb n) (numbers fs) = true) by (apply existsb_exists; exists n; rewrite N.eqb_refl; auto). congruence. }
  rewrite ser_app in *. rewrite zlen_app in Hsm. pose proof (zlen_nonneg (ser (records x n f))). pose proof (zlen_nonneg (ser (message xs fs))).
  cbn [fields_encode fields_size mkfield f_idx f_codec f_meta] in Ez, Eb.
  assert (E : nth_error all i = Some x) by (rewrite <- (Nat.add_0_r i); apply Hn).
  rewrite Hs, E in Ez. rewrite He, E in Eb. cbn [option_map] in Ez, Eb.
  rewrite Forall_forall in Hall. pose proof (Hall x (nth_error_In _ _ E)) as Hxo.
  destruct (sz x (pref_of n f) (meta_of (tag_of n f))) as [s1|] eqn:E1; [|discriminate Ez]. cbn [rbind] in Ez.
  destruct (fields_size s (spec_fields (S i) fs)) as [z2|] eqn:E2; [|discriminate Ez]. cbn [rbind] in Ez. inversion Ez; subst z. clear Ez.
  destruct (enc x b (pref_of n f) (meta_of (tag_of n f))) as [b1|] eqn:F1; [|discriminate Eb]. cbn [rbind] in Eb.
  pose proof (sz_pos D x (pref_of n f) (meta_of (tag_of n f)) (varint_pos _) s1 E1) as P1.
  assert (P2 : 0 <= z2).
  { eapply (fields_pos s (spec_fields (S i) fs)); [|exact E2]. intros g h Hg Eg. rewrite Hs in Eg.
    destruct (nth_error all (f_idx g)); [|discriminate Eg]. cbn [option_map] in Eg. apply some_inj in Eg. subst h. apply sz_pos.
    assert (T : forall l k, In g (spec_fields k l) -> 0 <= tagsize (f_meta g)).
    { induction l as [|[t|m h] l IHl]; intros k G; cbn [spec_fields] in G; [contradiction|eauto|]. destruct G as [<-|G]; [apply varint_pos|eauto]. }
    eapply T. exact Hg. }
  specialize (Hxo n f Hx (scope_ok _ Hf) Hn1 ltac:(lia) s1 E1 ltac:(lia) b b1 F1).
  destruct Hxo as (t1 & -> & A1 & B1).
  destruct (IH xs (S i) Hn' Hw Hns Hnd Hsc ltac:(lia) z2 E2 ltac:(lia) _ _ Eb) as (_ & t2 & -> & A2 & B2).
  split; [lia|]. exists (t1 ++ t2). split; [rewrite app_assoc; reflexivity|]. split.
  { destruct A1 as [[-> ->]|[q ->]].
    - destruct A2 as [[-> ->]|(n' & f' & q & Hin & L & ->)]; [left; auto|right]. exists n', f', q. cbn [app numbers In]. auto.
    - right. exists n, f, (q ++ t2). rewrite app_assoc. cbn [numbers In]. auto. }
  destruct B1 as [[(-> & <- & ->)|[-> C]]|(-> & _ & O)].
  - destruct B2 as [(-> & <- & ->)|[-> C]]; [left|right]; (split; [reflexivity|]).
    + split; [reflexivity|rewrite zlen_app; reflexivity].
    + apply apart_head, C.
  - right. split; [reflexivity|]. left. apply clash_tail, C.
  - right. split; [reflexivity|]. destruct O as [(Oc & Ot & Os)|(Ot & Os & Oc)].
    + rewrite Oc. cbn [app]. destruct A1 as [[-> _]|[q ->]]; [contradiction|].
      destruct (message_head xs fs Hw Hns Hsc) as [->|(n' & f' & r & Hin & L & ->)].
      * right. left. exists ((vint (tag_of n f) ++ q) ++ t2). cbn [app zlen]. split; [|split; [reflexivity|unfold zlen; cbn [length]; lia]].
        pose proof (vint_nonempty (tag_of n f)). destruct (vint (tag_of n f)); [contradiction|discriminate].
      * left. rewrite <- app_assoc. apply other_tag; [exact Hn1|exact L|]. apply not_eq_sym, Hother, Hin.
    + subst t1 s1. cbn [app]. destruct (records_head x n f Hx (scope_ok _ Hf)) as [R|[q R]]; [contradiction|]. rewrite R.
      destruct A2 as [[-> ->]|(n' & f' & r & Hin & L & ->)].
      * right. right. exists ((vint (tag_of n f) ++ q) ++ ser (message xs fs)). cbn [app].
        pose proof (vint_nonempty (tag_of n f)) as V. destruct (vint (tag_of n f)) as [|y v]; [contradiction|].
        split; [discriminate|]. split; [reflexivity|]. cbn [app]. rewrite zlen_cons. match goal with |- context [zlen ?l] => pose proof (zlen_nonneg l) end. lia.
      * left. rewrite <- app_assoc. apply other_tag; [exact L|exact Hn1|]. apply Hother, Hin.
Qed.

Lemma good_out v n f : wt D v (go_type f) = true -> ok_fty f = true -> (n < 2^61)%N ->
  zlen (ser (records v n f)) < Z63 -> encodable v f = true ->
  forall s, sz v (pref_of n f) (meta_of (tag_of n f)) = OK s ->
  forall b b', enc v b (pref_of n f) (meta_of (tag_of n f)) = OK b' ->
  exists t, b' = b ++ t /\ head (tag_of n f) s t /\ outcome s t (ser (records v n f)) (encodable v f).
Proof.
  intros Hw Hf Hn Hsm He s Es b b' Eb. destruct (enc_spec D sch HI HS HC v n f Hw Hf Hn He Hsm) as [W1 W2].
  rewrite W1 in Es. rewrite W2 in Eb. inversion Es; inversion Eb; subst. exists (ser (records v n f)). split; [reflexivity|]. split.
  - destruct (records_head v n f Hw Hf) as [->|[r ->]]; [left; split; reflexivity|right; eauto].
  - left. auto.
Qed.

Lemma key_small k x t n : wt D x t = true -> val_small x -> key_length k x = Some n ->
  Z.of_nat n <= 10 + match x with VStr b | VBytes (Some b) => zlen b | _ => 0 end.
Proof.
  intros Hw Hs E. set (w := match x with VStr b | VBytes (Some b) => zlen b | _ => 0 end).
  assert (W : 0 <= w).
  { unfold w. destruct x as [| | | | | | |b|[b|]| | | | | |]; try lia; apply zlen_nonneg. }
  assert (V : forall m, (m < 2^64)%N -> Z.of_nat (length (vint m)) <= 10 + w) by (intros m L; pose proof (vint_length_64 m L); lia).
  assert (B : forall b, zlen b < Z63 -> Z.of_nat (length (ser_payload (PLen b))) <= 10 + zlen b).
  { intros b L. destruct (of_nat_64 b L) as [_ L']. cbn [ser_payload]. rewrite app_length. pose proof (vint_length_64 _ L'). unfold zlen. lia. }
  destruct k; cbn [key_length] in E; try discriminate E.
  - destruct (bits32 x) as [m|] eqn:M; [|discriminate E]. apply some_inj in E. subst n. apply V. rewrite <- u64_in64. apply u64_lt.
  - destruct (bits64 x) as [m|] eqn:M; [|discriminate E]. apply some_inj in E. subst n. apply V. eapply bits64_lt; eassumption.
  - destruct (bits32 x) as [m|] eqn:M; [|discriminate E]. apply some_inj in E. subst n. apply V. pose proof (bits32_lt D x t m Hw M). change (2^64)%N with 18446744073709551616%N. lia.
  - destruct (bits64 x) as [m|] eqn:M; [|discriminate E]. apply some_inj in E. subst n. apply V. eapply bits64_lt; eassumption.
  - apply some_inj in E. subst n. lia.
  - destruct x as [| | | | | | |b|[b|]| | | | | |]; try discriminate E; apply some_inj in E; subst n; unfold w in *; try lia; apply B; exact Hs.
Qed.

Lemma len_prefix_clash z (c : bytes) a d : 0 <= z < 18446744073709551616 -> zlen c < Z63 -> z <> zlen c -> clash (vint (u64 z) ++ a) (vint (N.of_nat (length c)) ++ d).
Proof.
  intros Hz Hc H. apply vint_clash; [apply u64_lt|apply of_nat_64; exact Hc|].
  unfold u64, Z64. rewrite Z.mod_small by exact Hz. unfold zlen in *. lia.
Qed.

Lemma out_spec : forall v, out_ok v.
Proof.
  induction v as [v IH] using val_ind2. intros n f Hw Hf Hn Hsm s Es Hs b b' Eb.
  destruct (encodable v f) eqn:He.
  { destruct (good_out v n f Hw Hf Hn Hsm He s Es b b' Eb) as (t & A & B & C). exists t. rewrite He in C. auto. }
  destruct f as [sc|sc|sc|sc| |m|e|k e]; cbn [ok_fty go_type] in Hf, Hw; try (destruct v; discriminate He).
  - (* pointer *)
    destruct (wt_ptr _ _ _ Hw) as ([x|] & -> & Hx); [|discriminate He]. cbn [SpecMsg.encodable] in He. apply negb_false_iff in He.
    destruct (normal_required D sc x (meta_of (tag_of n (FPointer sc))) Hf Hx) as [N1 N2]. rewrite He in N1, N2.
    cbn [pref_of Codec.sz Codec.enc plook] in Es, Eb. rewrite sz_static, N2 in Es. rewrite enc_static, N1 in Eb.
    inversion Es; inversion Eb; subst. exists []. rewrite app_nil_r. split; [reflexivity|]. split; [left; auto|].
    right. split; [reflexivity|]. split; [reflexivity|]. right. split; [reflexivity|]. split; [reflexivity|].
    cbn [SpecMsg.records]. destruct (rec_head n (pay sc x)) as [r ->]. pose proof (vint_nonempty (8 * n + wire_of (pay sc x))).
    destruct (vint _); [contradiction|discriminate].
  - (* message *)
    destruct (wt_msg _ _ _ Hw) as ([x|] & -> & Hx); [|discriminate He].
    destruct (wts_struct D x (SNamed m)) as (xs & -> & W); [discriminate|exact Hx|]. cbn [key_types] in W.
    rewrite (field_types_of D sch HI) in W. rewrite records_msg in *. rewrite encodable_eq in He. apply rec_len_lt in Hsm.
    destruct (schema_ok_msg sch HS m) as (Hnum & Hnd & _).
    cbn [pref_of Codec.sz Codec.enc plook] in Es, Eb. unfold struct_size in Eb. cbn [get_field] in Eb.
    rewrite (piget_spec D sch HI HS HC) in Es, Eb. cbn [i_fields] in Es, Eb.
    assert (Q : fields_size (fun j => option_map (fun y => sz y) (nth_error xs j)) (spec_fields 0 (msg sch m)) =
                fields_size (nth_error (map (fun y => sz y) xs)) (spec_fields 0 (msg sch m))).
    { generalize (spec_fields 0 (msg sch m)) as l. intros l. induction l as [|g l IHl]; [reflexivity|]. cbn [fields_size]. rewrite nth_sub, IHl. reflexivity. }
    rewrite Q in Eb. clear Q.
    destruct (fields_size (nth_error (map (fun y => sz y) xs)) (spec_fields 0 (msg sch m))) as [z|] eqn:Ez; [|discriminate Es]. cbn [rbind] in Es, Eb.
    assert (Pz : 0 <= z).
    { refine (fields_pos _ _ _ z Ez). intros g h Hg E. rewrite nth_sub in E. destruct (nth_error xs (f_idx g)); [|discriminate E].
      cbn [option_map] in E. apply some_inj in E. subst h. apply sz_pos.
      assert (T : forall l k, In g (spec_fields k l) -> 0 <= tagsize (f_meta g)).
      { induction l as [|[t|q h] l IHl]; intros k G; cbn [spec_fields] in G; [contradiction|eauto|]. destruct G as [<-|G]; [apply varint_pos|eauto]. }
      eapply T. exact Hg. }
    assert (Es' : s = z + (sizeOfVarint (u64 z) + tagsize (meta_of (tag_of n (FMessage m))))) by congruence.
    pose proof (varint_pos (u64 z)). pose proof (varint_pos (tag_of n (FMessage m))). cbn [meta_of tagsize wiretag] in Es', Eb.
    destruct IH as [_ IH].
    destruct (message_out xs (nth_error (map (fun y => sz y) xs)) (nth_error (map (fun y => enc y) xs)) (nth_sub _ _) (nth_sub _ _) IH
      (msg sch m) xs 0%nat (fun j => eq_refl) W Hnum Hnd (scope_nth _ HC m) Hsm z Ez ltac:(lia) _ _ Eb) as (_ & t & -> & _ & O).
    rewrite appendVarint_spec by apply u64_lt. rewrite appendVarint_spec by (apply tag_of_lt; exact Hn).
    exists (vint (tag_of n (FMessage m)) ++ vint (u64 z) ++ t). rewrite <- !app_assoc. split; [reflexivity|].
    split; [right; eauto|]. left. right. split; [reflexivity|].
    rewrite ser_one. unfold ser_rec. cbn [fst snd wire_of ser_payload]. apply clash_head.
    destruct O as [(O & _)|(_ & O)]; [congruence|].
    destruct (Z.eq_dec z (zlen (ser (message xs (msg sch m))))) as [->|Hz].
    + destruct O as [C|[(e & _ & _ & L)|(e & _ & _ & L)]]; try lia.
      destruct (of_nat_64 _ Hsm) as [-> _]. apply clash_head, C.
    + apply len_prefix_clash; [unfold Z63 in *; lia|exact Hsm|exact Hz].
  - (* repeated *)
    destruct (wt_slice _ _ _ Hw) as (nn & items & spare & -> & Hi & Hsp). destruct IH as [IH _].
    cbn [SpecMsg.records SpecMsg.encodable] in *. rewrite flat_map_ser in *.
    assert (T : tag_of n (FRepeated e) = tag_of n e) by reflexivity. rewrite T in *.
    cbn [pref_of Codec.sz Codec.enc plook] in Es, Eb.
    destruct (chain_out (tag_of n e) items (fun x b => enc x b (pref_of n e) (meta_of (tag_of n e)))
      (fun x => sz x (pref_of n e) (meta_of (tag_of n e))) (fun x => ser (records x n e)) (fun x => encodable x e)) with (s := s) (b := b) (b' := b')
      as (t & A & B & C); try assumption.
    + apply Forall_forall. intros x Hx. split; [apply sz_pos, varint_pos|]. intros s1 E1 L1 b1 b1' F1.
      rewrite Forall_forall in IH. rewrite forallb_forall in Hi.
      assert (L : zlen (ser (records x n e)) <= zlen (concat (map (fun x => ser (records x n e)) items))) by (apply part_len; apply in_map_iff; eauto).
      destruct (IH x Hx n e (Hi x Hx) (elem_ok _ Hf) Hn ltac:(lia) s1 E1 L1 b1 b1' F1) as (t & A & B & C).
      exists t. split; [exact A|]. split; [exact B|]. destruct C as [C|(_ & C & _)]; [exact C|]. destruct e; discriminate.
    + exists t. rewrite He in C. auto.
  - (* map *)
    destruct (wt_map _ _ _ _ Hw) as (mm & -> & Hm). clear Hw.
    apply andb_true_iff in Hf. destruct Hf as [Hk Hv].
    assert (T : (8 * n + 2 < 2^64)%N) by (apply tag_lt; [exact Hn|lia]).
    assert (Tg : tag_of n (FMap k e) = (8 * n + 2)%N) by reflexivity. rewrite Tg in *.
    assert (Empty : mm = None \/ mm = Some [] \/ exists kv l, mm = Some (kv :: l)).
    { destruct mm as [[|kv l]|]; eauto. }
    destruct Empty as [Em|[Em|Em]].
    1,2: subst mm; cbn [pref_of Codec.sz Codec.enc plook sum_res chain_res map rbind Z.eqb] in Es, Eb; rewrite Z.eqb_refl in Eb;
      rewrite appendVarint_spec in Eb by exact T; cbn [app] in Eb;
      assert (Es' : s = sizeOfVarint (8 * n + 2) + 1) by congruence; assert (Eb' : b' = b ++ vint (8 * n + 2) ++ [0%N]) by congruence; clear Es Eb; subst s b';
      exists (vint (8 * n + 2) ++ [0%N]); (split; [reflexivity|]); (split; [right; eauto|]); right; (split; [reflexivity|]); (split; [reflexivity|]); left;
      (split; [reflexivity|]); (split; [destruct (vint (8 * n + 2)); discriminate|]); pose proof (varint_pos (8 * n + 2)); lia.
    destruct Em as (kv & l & ->).
    destruct Hm as [Hm _]. remember (kv :: l) as l' eqn:El.
    pose (good := fun kv : val * val => match kv with (_, x) => map_len_ok sch k e x && encodable x e end).
    assert (He' : forallb good l' = false) by (rewrite El; rewrite El in He; exact He).
    clear He. assert (Hne : l' <> []) by (rewrite El; discriminate). clear El kv l.
    pose (entry := fun kv : val * val => match kv with (a, x) => records a 1 (FAlways k) ++ records x 2 e end).
    assert (Er : records (VMap (Some l')) n (FMap k e) = flat_map (fun kv => [(n, PLen (ser (entry kv)))]) l').
    { cbn [SpecMsg.records]. apply flat_map_ext. intros [a x]. reflexivity. }
    rewrite Er in *. rewrite flat_map_ser in *.
    pose (kp := PStatic (SC (wk_of k) Required)). pose (kt := tag_of 1 (FAlways k)). pose (vt := tag_of 2 e). pose (vp := pref_of 2 e). pose (tag := (8 * n + 2)%N).
    pose (ee := fun (kv : val * val) (b : bytes) => match kv with (k, x) =>
             keySize <- sz k kp (meta_of kt) ;;
             valSize <- sz x kp (meta_of vt) ;;
             b <- enc k (appendVarint (b ++ appendVarint [] tag) (u64 (keySize + valSize))) kp (meta_of kt) ;;
             enc x b vp (meta_of vt) end).
    pose (ss := fun (kv : val * val) => match kv with (k, x) =>
             keySize <- sz k kp (meta_of kt) ;;
             valSize <- sz x vp (meta_of vt) ;;
             OK (sizeOfVarint tag + sizeOfVarint (u64 (keySize + valSize)) + keySize + valSize) end).
    assert (As : forall g, sz (VMap (Some l')) (pref_of n (FMap k e)) g =
                 (n <- sum_res (map ss l') ;; OK (if n =? 0 then sizeOfVarint tag + 1 else n))) by reflexivity.
    assert (Ae : forall g b, enc (VMap (Some l')) b (pref_of n (FMap k e)) g =
                 (b' <- chain_res b (map ee l') ;; OK (if zlen b' =? zlen b then b' ++ (appendVarint [] tag ++ [0%N]) else b'))) by reflexivity.
    rewrite As in Es. rewrite Ae in Eb. clear As Ae.
    destruct (sum_res (map ss l')) as [z|] eqn:Ez; [|discriminate Es]. cbn [rbind] in Es.
    destruct (chain_res b (map ee l')) as [b1|] eqn:Ec; [|discriminate Eb]. cbn [rbind] in Eb.
    assert (Ps : forall kv, pos (ss kv)).
    { intros [a x]. unfold ss. pose proof (sz_pos D a kp (meta_of kt) (varint_pos _)) as PA. pose proof (sz_pos D x vp (meta_of vt) (varint_pos _)) as PX.
      destruct (sz a kp (meta_of kt)) as [sa|]; [|apply pos_cr]. cbn [rbind].
      destruct (sz x vp (meta_of vt)) as [sx|]; [|apply pos_cr]. cbn [rbind]. apply pos_ok. specialize (PA sa eq_refl). specialize (PX sx eq_refl).
      pose proof (varint_pos tag). pose proof (varint_pos (u64 (sa + sx))). lia. }
    assert (Pz : 0 <= z). { refine (pos_sum _ _ z Ez). rewrite Forall_map. apply Forall_forall. auto. }
    assert (Hz : z < Z63). { assert (Es' : s = if z =? 0 then sizeOfVarint tag + 1 else z) by congruence. destruct (Z.eqb_spec z 0); unfold Z63 in *; lia. }
    destruct (chain_out tag l' ee ss (fun kv => ser [(n, PLen (ser (entry kv)))]) good) with (s := z) (b := b) (b' := b1)
      as (t & -> & B & C); try assumption.
    + apply Forall_forall. intros [a x] Hin. split; [apply Ps|]. intros s1 E1 L1 b2 b3 F1.
      rewrite Forall_forall in IH. destruct (IH _ Hin) as [_ IHx]. cbn [fst snd] in IHx.
      rewrite forallb_forall in Hm. specialize (Hm _ Hin). cbn beta iota in Hm. apply andb_true_iff in Hm. destruct Hm as [Wa Wx].
      assert (Hse : zlen (ser (entry (a, x))) < Z63).
      { apply (rec_len_lt n). assert (L : zlen (ser [(n, PLen (ser (entry (a, x))))]) <= zlen (concat (map (fun kv => ser [(n, PLen (ser (entry kv)))]) l'))).
        { apply part_len. apply in_map_iff. exists (a, x). auto. } lia. }
      pose proof Hse as Hse'. unfold entry in Hse. rewrite ser_app, zlen_app in Hse.
      pose proof (zlen_nonneg (ser (records a 1 (FAlways k)))). pose proof (zlen_nonneg (ser (records x 2 e))).
      assert (Ka : not_sfixed k = true) by (destruct k; try discriminate; reflexivity).
      destruct (enc_spec D sch HI HS HC a 1%N (FAlways k) Wa Ka one_61) as [A1 A2]; [destruct a; reflexivity|lia|].
      cbn [pref_of] in A1, A2. fold kp kt in A1, A2.
      unfold ss in E1. unfold ee in F1. rewrite A1 in E1, F1. cbn [rbind] in E1, F1.
      destruct (sz x vp (meta_of vt)) as [sx|] eqn:Ex; [|discriminate E1]. cbn [rbind] in E1. inversion E1; subst s1. clear E1.
      pose proof (sz_pos D x vp (meta_of vt) (varint_pos _) sx Ex) as Px.
      assert (Sx : val_small x).
      { destruct x as [| | | | | | |d|[d|]| | | | | |]; try exact Logic.I.
        - destruct e as [q|q|q|q| |q|q|k' q]; try discriminate. cbn [go_type] in Wx. destruct q; try discriminate Wx.
          cbn [SpecMsg.records pay] in *. apply (rec_len_lt 2). lia.
        - destruct e as [q|q|q|q| |q|q|k' q]; try discriminate Wx; try discriminate Hv. cbn [SpecMsg.records] in *. apply (rec_len_lt 2). lia. }
      unfold kp in F1 at 1. rewrite sz_static in F1. unfold vt in F1 at 1. rewrite (key_size D k e x Hk Hv Wx Sx) in F1.
      destruct (key_length k x) as [nl|] eqn:Kl; [|discriminate F1]. cbn [rbind] in F1. rewrite A2 in F1. cbn [rbind] in F1.
      pose proof (varint_pos tag). pose proof (varint_pos (u64 (zlen (ser (records a 1 (FAlways k))) + sx))).
      destruct (IHx 2%N e Wx (val_ok _ Hv) two_61 ltac:(lia) sx Ex ltac:(lia) _ _ F1) as (tx & -> & _ & X).
      rewrite (appendVarint_spec _ tag), (appendVarint_spec _ (u64 _)) by (exact T || apply u64_lt). cbn [app].
      exists (vint tag ++ vint (u64 (zlen (ser (records a 1 (FAlways k))) + (Z.of_nat nl + 1))) ++ ser (records a 1 (FAlways k)) ++ tx).
      rewrite <- !app_assoc. split; [reflexivity|]. split; [right; eauto|].
      assert (X' : outcome sx tx (ser (records x 2 e)) (encodable x e)).
      { destruct X as [X|(_ & X & _)]; [exact X|]. destruct e; discriminate. }
      clear X. unfold outcome, good. unfold map_len_ok. rewrite Kl. rewrite ser_one. unfold ser_rec. cbn [fst snd wire_of ser_payload].
      fold tag. change (entry (a, x)) with (records a 1 (FAlways k) ++ records x 2 e). rewrite ser_app.
      destruct (Nat.eqb_spec (S nl) (length (ser (records x 2 e)))) as [Hl|Hl].
      * assert (Q : zlen (ser (records a 1 (FAlways k))) + (Z.of_nat nl + 1) = zlen (ser (records a 1 (FAlways k)) ++ ser (records x 2 e))).
        { rewrite zlen_app. unfold zlen. lia. }
        assert (Q2 : zlen (ser (records a 1 (FAlways k)) ++ ser (records x 2 e)) < Z63) by (rewrite zlen_app; lia).
        rewrite Q. destruct (of_nat_64 _ Q2) as [Q3 Q4]. rewrite Q3. cbn [andb].
        destruct X' as [(-> & -> & ->)|[-> C]]; [left|right]; (split; [reflexivity|]).
        -- split; [reflexivity|]. rewrite <- zlen_app, Q3, !sizeOfVarint_spec by assumption. rewrite !zlen_app. lia.
        -- apply clash_head, clash_head, clash_head, C.
      * right. split; [reflexivity|]. apply clash_head. apply len_prefix_clash.
        -- pose proof (key_small k x _ nl Wx Sx Kl) as KS.
           assert (match x with VStr b | VBytes (Some b) => zlen b | _ => 0 end <= zlen (ser (records x 2 e))).
           { destruct x as [| | | | | | |d|[d|]| | | | | |]; try apply zlen_nonneg.
             - destruct e as [q|q|q|q| |q|q|k' q]; try discriminate. cbn [go_type] in Wx. destruct q; try discriminate Wx. cbn [SpecMsg.records pay]. apply rec_len_le.
             - destruct e as [q|q|q|q| |q|q|k' q]; try discriminate Wx; try discriminate Hv. cbn [SpecMsg.records]. apply rec_len_le. }
           unfold Z63 in *. lia.
        -- rewrite zlen_app. lia.
        -- rewrite zlen_app. unfold zlen. lia.
    + assert (Tn : t <> []).
      { intros ->. destruct C as [(C & _)|[_ C]]; [congruence|]. destruct C as (p & x & y & u & w & E & _). destruct p; discriminate E. }
      assert (Zl : zlen (b ++ t) =? zlen b = false).
      { apply Z.eqb_neq. rewrite zlen_app. destruct t; [contradiction|]. rewrite zlen_cons. pose proof (zlen_nonneg t). lia. }
      rewrite Zl in Eb. inversion Eb; subst b'. exists t. split; [reflexivity|]. split.
      { destruct B as [[B _]|B]; [contradiction|]. right. exact B. }
      left. right. split; [reflexivity|]. destruct C as [(C & _)|[_ C]]; [congruence|exact C].
Qed.

Lemma struct_only m xs z b : all2 (wt D) xs (field_types D m) = true -> zlen (ser (message xs (msg sch m))) < Z63 ->
  struct_size plook (piget D) (SNamed m) (VStruct xs) = OK z -> z < Z63 ->
  struct_encode plook (piget D) (SNamed m) [] (VStruct xs) = OK b ->
  (encodable_msg xs (msg sch m) = true /\ b = ser (message xs (msg sch m)) /\ z = zlen b) \/
  (encodable_msg xs (msg sch m) = false /\ apart z b (ser (message xs (msg sch m)))).
Proof.
  intros Hw Hsm. unfold struct_size, struct_encode. rewrite (piget_spec D sch HI HS HC). cbn [i_fields]. intros Ez Hz Eb.
  destruct (schema_ok_msg sch HS m) as (Hnum & Hnd & _). rewrite (field_types_of D sch HI) in Hw.
  assert (A : Forall out_ok xs) by (apply Forall_forall; intros; apply out_spec).
  destruct (message_out xs (fun j => option_map (fun y => sz y) (get_field (VStruct xs) j)) (fun j => option_map (fun y => enc y) (get_field (VStruct xs) j))
      (fun j => eq_refl) (fun j => eq_refl) A (msg sch m) xs 0%nat (fun j => eq_refl) Hw Hnum Hnd (scope_nth _ HC m) Hsm z Ez Hz [] b Eb) as (_ & t & -> & _ & O).
  exact O.
Qed.
End Only.

(** ** The condition is exact *)
Theorem wire_exact D sch : covers D sch = true -> forall s m xs z, reachable D s -> wts D (VStruct xs) (SNamed m) = true ->
  zlen (ser (message sch xs (msg sch m))) < Z63 -> fst (Size D (ptr m xs) s) = Returns z -> z < Z63 ->
  (fst (Marshal D (ptr m xs) s) = Returns (Some (ser (message sch xs (msg sch m))), None) <-> encodable_msg sch xs (msg sch m) = true).
Proof.
  intros HV s m xs z Hr Hw Hsm Ez Hz. split.
  2:{ intros He. apply (marshal_spec D sch HV s m xs Hr Hw He Hsm). }
  destruct (covers_facts D sch HV) as (HI & HS & HC & HP).
  apply wts_msg in Hw. destruct Hw as [Hk Hw]. pose proof (reachable_SInv D HP s Hr) as HR.
  destruct (size_pure D HP s (SNamed m) (Some (VStruct xs)) HR Hk) as (s1 & _ & A1).
  destruct (marshal_pure D HP s (SNamed m) (Some (VStruct xs)) HR Hk) as (s2 & _ & A2).
  rewrite A1 in Ez. rewrite A2. cbn [fst] in *. intros Em.
  destruct (struct_size plook (piget D) (SNamed m) (VStruct xs)) as [z'|] eqn:E1; [|discriminate Ez]. cbn [api_res rbind] in Ez, Em. inversion Ez; subst z'.
  destruct (struct_encode plook (piget D) (SNamed m) [] (VStruct xs)) as [b|] eqn:E2; [|discriminate Em]. cbn [api_res rbind] in Em.
  assert (Eb : b = ser (message sch xs (msg sch m))) by congruence. subst b.
  destruct (struct_only D sch HI HS HC m xs z _ Hw Hsm E1 Hz E2) as [(He & _)|(_ & A)]; [exact He|].
  apply apart_neq in A. contradiction.
Qed.
