(** Facts about the generator of the required codecs (GenReq.v). *)
From Coq Require Import String ZifyBool ZifyNat ZifyN.
From Verif Require Import Base Wire GoType Leaf Codec Tag Walker Resolve Typing SpecWire SpecMsg WireFacts TypingFacts WireProofs GenFacts EncFacts DecodeFacts MsgResolve MsgEnc MsgDec MsgRound GenReq.
Local Open Scope string_scope.

Lemma generated_proof : transform normal_file = required_file.
Proof. vm_compute. reflexivity. Qed.

(** The syntax trees mean the functions of Leaf.v. *)
Definition means (file : list decl) (name : string) (l : leaf) : Prop :=
  exists s e d bs be, var_of file name = Some (s, e, d) /\ body_of file s = Some bs /\ body_of file e = Some be /\
    (forall p f, run_size bs p f = l_size l p f) /\ (forall b p f, run_encode be b p f = l_encode l b p f).

Ltac opaque := cbn -[appendVarint sizeOfVarint sizeOfVarlen encodeZigZag64 encodeLE32 encodeLE64 u64 N.land N.testbit zlen rd_bool rd_str rd_f32 rd_f64 rd_i32 rd_i64 rd_u32 rd_u64 Z.add app Z.eqb N.eqb].
Ltac loads :=
  match goal with
  | |- context [rd_bool ?p] => destruct (rd_bool p)
  | |- context [rd_str ?p] => destruct (rd_str p)
  | |- context [rd_f32 ?p] => destruct (rd_f32 p)
  | |- context [rd_f64 ?p] => destruct (rd_f64 p)
  | |- context [rd_i32 ?p] => destruct (rd_i32 p)
  | |- context [rd_i64 ?p] => destruct (rd_i64 p)
  | |- context [rd_u32 ?p] => destruct (rd_u32 p)
  | |- context [rd_u64 ?p] => destruct (rd_u64 p)
  | _ => idtac
  end.
Ltac finish :=
  unfold sizeOfBool, encodeBool, sizeOfString, encodeString, sizeOfFloat32, encodeFloat32, sizeOfFloat64, encodeFloat64,
    sizeOfInt32, encodeInt32, sizeOfInt64, encodeInt64, sizeOfUint32, encodeUint32, sizeOfUint64, encodeUint64,
    sizeOfFixed32, encodeFixed32, sizeOfFixed64, encodeFixed64, sizeOfZigzag32, encodeZigzag32, sizeOfZigzag64, encodeZigzag64,
    sizeOfBoolRequired, encodeBoolRequired, sizeOfStringRequired, encodeStringRequired, sizeOfFloat32Required, encodeFloat32Required,
    sizeOfFloat64Required, encodeFloat64Required, sizeOfInt32Required, encodeInt32Required, sizeOfInt64Required, encodeInt64Required,
    sizeOfUint32Required, encodeUint32Required, sizeOfUint64Required, encodeUint64Required, sizeOfFixed32Required, encodeFixed32Required,
    sizeOfFixed64Required, encodeFixed64Required, sizeOfZigzag32Required, encodeZigzag32Required, sizeOfZigzag64Required, encodeZigzag64Required,
    f32_nonzero, f64_nonzero;
  opaque; loads; opaque; try reflexivity;
  repeat (match goal with
          | |- context [(?a =? ?b)%Z] => destruct (a =? b)%Z
          | |- context [(?a =? ?b)%N] => destruct (a =? b)%N
          | |- context [N.testbit ?a ?b] => destruct (N.testbit a b)
          | a : bool |- _ => destruct a
          | |- context [match ?a with [] => _ | _ :: _ => _ end] => is_var a; destruct a
          end; opaque; try reflexivity).
Lemma means_intro file name l s e d bs be : var_of file name = Some (s, e, d) -> body_of file s = Some bs -> body_of file e = Some be ->
  (forall p f, run_size bs p f = l_size l p f) -> (forall b p f, run_encode be b p f = l_encode l b p f) -> means file name l.
Proof. intros. exists s, e, d, bs, be. auto. Qed.
Lemma normal_means w : means normal_file (kind_name w ++ "Codec") (static (SC w Normal)).
Proof.
  destruct w; (eapply means_intro; [vm_compute; reflexivity|vm_compute; reflexivity|vm_compute; reflexivity|intros p f|intros b p f]).
  all: unfold run_size, run_encode; cbn [static l_size l_encode boolCodec stringCodec float32Codec float64Codec int32Codec int64Codec uint32Codec uint64Codec
    fixed32Codec fixed64Codec zigzag32Codec zigzag64Codec]; finish.
Qed.
Lemma required_means w : means required_file (kind_name w ++ "RequiredCodec") (static (SC w Required)).
Proof.
  destruct w; (eapply means_intro; [vm_compute; reflexivity|vm_compute; reflexivity|vm_compute; reflexivity|intros p f|intros b p f]).
  all: unfold run_size, run_encode; cbn [static l_size l_encode boolRequiredCodec stringRequiredCodec float32RequiredCodec float64RequiredCodec int32RequiredCodec
    int64RequiredCodec uint32RequiredCodec uint64RequiredCodec fixed32RequiredCodec fixed64RequiredCodec zigzag32RequiredCodec zigzag64RequiredCodec]; finish.
Qed.

(** The transformation of a function body, in general: it computes what the
    body computes whenever the conditions of its top-level ifs hold. *)
Fixpoint guards (l : list stmt) (s : env) : Prop :=
  match l with
  | [] => True
  | st :: l =>
    match st with
    | SIf init cond _ _ =>
      match (match init with Some e => v <- eval s e ;; OK (set_v s v) | None => OK s end) with
      | OK s' => eval s' cond = OK (GBool true)
      | CR _ => True
      end
    | _ => True
    end /\
    match exec1 st s with OK (s', None) => guards l s' | _ => True end
  end.
Lemma exec_app a b s : exec (a ++ b)%list s = (r <- exec a s ;; match r with (s, None) => exec b s | (_, Some _) => OK r end).
Proof.
  revert s. induction a as [|st a IH]; intros s; cbn; [reflexivity|]. destruct (exec1 st s) as [[s' [v|]]|]; cbn; try reflexivity. apply IH.
Qed.
Lemma exec_if init cond yes no s s' : (match init with Some e => v <- eval s e ;; OK (set_v s v) | None => OK s end) = OK s' ->
  eval s' cond = OK (GBool true) -> exec1 (SIf init cond yes no) s = exec yes s'.
Proof.
  intros E C. cbn [exec1]. rewrite E. cbn [rbind]. rewrite C. cbn [rbind].
  clear. revert s'. induction yes as [|st l IH]; intros s; [reflexivity|]. cbn [exec]. destruct (exec1 st s) as [[s' [v|]]|]; cbn; try reflexivity; try apply IH.
Qed.
Lemma exec_ret l s r : existsb is_ret l = true -> exec l s = OK r -> exists s' v, r = (s', Some v).
Proof.
  revert s. induction l as [|st l IH]; intros s H E; [discriminate|]. cbn [existsb] in H. cbn [exec] in E.
  destruct (exec1 st s) as [[s' [v|]]|] eqn:X; cbn [rbind] in E; [inversion E; eauto| |discriminate].
  destruct (is_ret st) eqn:R; [|eapply IH; eassumption]. destruct st; try discriminate. cbn [exec1] in X.
  destruct (eval s e); cbn in X; discriminate.
Qed.
Lemma transform_sound l : forall s, guards l s -> exec (transformFuncBody l) s = exec l s.
Proof.
  induction l as [|st l IH]; intros s G; [reflexivity|]. destruct G as [G1 G2].
  assert (K : forall st', exec1 st' s = exec1 st s -> exec (st' :: transformFuncBody l) s = exec (st :: l) s).
  { intros st' E. cbn [exec]. rewrite E. destruct (exec1 st s) as [[s' [v|]]|] eqn:X; cbn [rbind]; try reflexivity.
    apply IH. exact G2. }
  destruct st as [e|e|init cond yes no|e]; try (apply K; reflexivity).
  cbn [transformFuncBody].
  set (pre := match init with Some e => [SDef e] | None => [] end).
  assert (P : exec pre s = (s' <- match init with Some e => v <- eval s e ;; OK (set_v s v) | None => OK s end ;; OK (s', None))).
  { unfold pre. destruct init as [e|]; cbn; [|reflexivity]. destruct (eval s e); reflexivity. }
  rewrite exec_app, P. cbn [exec].
  destruct (match init with Some e => v <- eval s e ;; OK (set_v s v) | None => OK s end) as [s'|c] eqn:I; cbn [rbind].
  2:{ cbn [exec1]. rewrite I. reflexivity. }
  rewrite (exec_if _ _ _ no _ _ I G1) in *. rewrite exec_app. destruct (exec yes s') as [[s2 [v|]]|] eqn:Y; cbn [rbind]; try reflexivity.
  destruct (existsb is_ret yes) eqn:R.
  - destruct (exec_ret _ _ _ R Y) as (? & ? & E). discriminate E.
  - apply IH. exact G2.
Qed.

(** The Go kind each codec's pointer is loaded as. *)
Definition kind_of (w : wk) : skind :=
  match w with
  | WBool => KBool | WString => KString | WFloat32 => KFloat32 | WFloat64 => KFloat64
  | WInt32 | WZigzag32 => KInt32 | WInt64 | WZigzag64 => KInt64
  | WUint32 | WFixed32 => KUint32 | WUint64 | WFixed64 => KUint64
  end.

Definition sty_of (w : wk) : sty :=
  match w with
  | WBool => Y_bool | WString => Y_string | WFloat32 => Y_float | WFloat64 => Y_double
  | WInt32 => Y_int32 | WZigzag32 => Y_sint32 | WInt64 => Y_int64 | WZigzag64 => Y_sint64
  | WUint32 => Y_uint32 | WFixed32 => Y_fixed32 | WUint64 => Y_uint64 | WFixed64 => Y_fixed64
  end.
Lemma normal_required_proof w D v f b : wt D v (TScalar (kind_of w)) = true ->
  l_size (static (SC w Normal)) v f = (if is_zero v then OK 0%Z else l_size (static (SC w Required)) v f) /\
  l_encode (static (SC w Normal)) b v f = (if is_zero v then OK b else l_encode (static (SC w Required)) b v f) /\
  l_decode (static (SC w Normal)) = l_decode (static (SC w Required)).
Proof.
  intros W. destruct (normal_required D (sty_of w) v f) as [E S]; [destruct w; reflexivity|destruct w; exact W|].
  assert (Q : wk_of (sty_of w) = w) by (destruct w; reflexivity). rewrite Q in *.
  split; [exact S|]. split; [apply E|]. destruct w; reflexivity.
Qed.

(** What a normal codec writes under any tag. *)
Local Close Scope string_scope.
Lemma of_len (d : bytes) : (zlen d < 2^63)%Z -> u64 (zlen d) = N.of_nat (length d) /\ (N.of_nat (length d) < 2^64)%N.
Proof. apply of_nat_64. Qed.
Lemma required_bytes w D v t b : (t < 2^64)%N -> wt D v (TScalar (kind_of w)) = true -> scalar_small v ->
  l_encode (static (SC w Required)) b v (meta_of t) = OK (b ++ vint t ++ ser_payload (pay (sty_of w) v)) /\
  l_size (static (SC w Required)) v (meta_of t) = OK (zlen (vint t ++ ser_payload (pay (sty_of w) v))).
Proof.
  intros Ht Hw Hs.
  assert (V : forall u, (u < 2^64)%N -> appendVarint (appendVarint b t) u = b ++ vint t ++ vint u)
    by (intros u Hu; rewrite !appendVarint_spec by assumption; rewrite <- app_assoc; reflexivity).
  assert (S : forall u, (u < 2^64)%N -> (sizeOfVarint u + sizeOfVarint t)%Z = zlen (vint t ++ vint u))
    by (intros u Hu; rewrite !sizeOfVarint_spec by assumption; rewrite zlen_app; lia).
  destruct w; cbn [kind_of sty_of] in *; wtd v;
  cbn [static l_size l_encode boolRequiredCodec stringRequiredCodec float32RequiredCodec float64RequiredCodec int32RequiredCodec
       int64RequiredCodec uint32RequiredCodec uint64RequiredCodec fixed32RequiredCodec fixed64RequiredCodec zigzag32RequiredCodec zigzag64RequiredCodec];
  unfold sizeOfBoolRequired, encodeBoolRequired, sizeOfStringRequired, encodeStringRequired, sizeOfFloat32Required, encodeFloat32Required,
    sizeOfFloat64Required, encodeFloat64Required, sizeOfInt32Required, encodeInt32Required, sizeOfInt64Required, encodeInt64Required,
    sizeOfUint32Required, encodeUint32Required, sizeOfUint64Required, encodeUint64Required, sizeOfFixed32Required, encodeFixed32Required,
    sizeOfFixed64Required, encodeFixed64Required, sizeOfZigzag32Required, encodeZigzag32Required, sizeOfZigzag64Required, encodeZigzag64Required;
  cbn [meta_of wiretag tagsize pay ser_payload]; cbn [wt] in Hw; try (apply in_i32_range in Hw); try (apply in_i64_range in Hw);
  try (rewrite (rd_i32_ok _ Hw)); try (rewrite (rd_i64_ok _ Hw)); cbn [rd_bool rd_u32 rd_u64 rd_f32 rd_f64 rd_str mem32 mem64 of_opt rbind];
  try (rewrite (encodeZigZag64_spec _ Hw)); try (rewrite (encodeZigZag64_spec _ (i32_i64 _ Hw))).
  1:{ rewrite appendVarint_spec by exact Ht. rewrite sizeOfVarint_spec by exact Ht. rewrite zlen_app.
      destruct b0; (split; f_equal; [rewrite <- app_assoc; reflexivity|rewrite Z.add_comm; reflexivity]). }
  all: try (split; f_equal; [apply V|apply S]; first [apply u64_lt | apply (wt_u32 D); exact Hw | apply (wt_u64 D); exact Hw
     | apply zigzag_range; first [exact Hw|apply i32_i64, Hw]]).
  all: try (split; f_equal; [rewrite appendVarint_spec by exact Ht|rewrite sizeOfVarint_spec by exact Ht; rewrite zlen_app];
     [rewrite ?encodeLE32_spec, ?encodeLE64_spec, <- ?app_assoc; reflexivity|unfold zlen; rewrite ?le_bytes_length; lia]).
  all: try (destruct (of_len b0 Hs) as [E1 E2]; unfold sizeOfVarlen; rewrite E1; split; f_equal;
     [rewrite V by exact E2; rewrite <- !app_assoc; reflexivity|rewrite !sizeOfVarint_spec by assumption; rewrite !zlen_app; lia]).
Qed.
Lemma zero_written_proof w D v t b : (t < 2^64)%N -> wt D v (TScalar (kind_of w)) = true -> scalar_small v ->
  let out := if is_zero v then [] else vint t ++ ser_payload (pay (sty_of w) v) in
  l_encode (static (SC w Normal)) b v (meta_of t) = OK (b ++ out) /\ l_size (static (SC w Normal)) v (meta_of t) = OK (zlen out).
Proof.
  intros Ht Hw Hs out. destruct (normal_required_proof w D v (meta_of t) b Hw) as (-> & -> & _).
  destruct (required_bytes w D v t b Ht Hw Hs) as [-> ->]. unfold out. destruct (is_zero v); [rewrite app_nil_r|]; split; reflexivity.
Qed.
Lemma restored_proof w D v old : wt D v (TScalar (kind_of w)) = true -> wt D old (TScalar (kind_of w)) = true ->
  let p := ser_payload (pay (sty_of w) v) in (zlen p < 2^63)%Z ->
  l_decode (static (SC w Normal)) p old = DRet v (zlen p) None.
Proof.
  intros Hw Ho p Hp. assert (Hs : not_sfixed (sty_of w) = true) by (destruct w; reflexivity).
  assert (G : go_kind (sty_of w) = kind_of w) by (destruct w; reflexivity).
  assert (Sm : scalar_small v).
  { destruct v; cbn; try exact I. destruct w; try discriminate Hw. unfold p in Hp. cbn [pay sty_of ser_payload] in Hp. rewrite zlen_app in Hp.
    unfold Z63. unfold zlen in *. lia. }
  rewrite <- G in Hw, Ho. destruct (scalar_round [] D (sty_of w) v Hs Hw Sm) as (P & W & R & Pl).
  assert (E := read_payload_ser (pay (sty_of w) v) [] P). rewrite app_nil_r in E. fold p in E, Pl. rewrite W in E.
  pose proof (read_payload_len (wire_sty (sty_of w)) p) as L. destruct (payload_len (wire_sty (sty_of w)) p) as [n|] eqn:Q; [|congruence].
  destruct L as (q & L & Hn). rewrite E in L. injection L as <- L. assert (n = length p) as ->.
  { assert (length (skipn n p) = 0)%nat by (rewrite <- L; reflexivity). rewrite skipn_length in H. lia. }
  destruct (scalar_dec D (sty_of w) Normal p (length p) _ [] old Hs eq_refl Hp Ho Q E Pl) as (v' & R' & Dc).
  rewrite R in R'. injection R' as <-. rewrite firstn_all in Dc. replace (wk_of (sty_of w)) with w in Dc by (destruct w; reflexivity). exact Dc.
Qed.
