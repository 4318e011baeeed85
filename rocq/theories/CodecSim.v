(** Two codec graphs that are related node by node compute the same sizes,
    encodings and decodings. *)
From Coq Require Import ZifyBool ZifyNat ZifyN.
From Verif Require Import Base Wire GoType Leaf Codec SpecWire WireFacts DecodeFacts.
Local Open Scope Z_scope.

(** Induction on values, with the hypothesis for the elements of lists. *)
Section ValInd.
Variable P : val -> Prop.
Hypothesis Hbool : forall b, P (VBool b).
Hypothesis Hi32 : forall z, P (VI32 z).
Hypothesis Hi64 : forall z, P (VI64 z).
Hypothesis Hu32 : forall n, P (VU32 n).
Hypothesis Hu64 : forall n, P (VU64 n).
Hypothesis Hf32 : forall n, P (VF32 n).
Hypothesis Hf64 : forall n, P (VF64 n).
Hypothesis Hstr : forall b, P (VStr b).
Hypothesis Hbytes : forall o, P (VBytes o).
Hypothesis Hopt : forall s v, P v -> P (VOpt s v).
Hypothesis Hslice : forall nn items spare, Forall P items -> Forall P spare -> P (VSlice nn items spare).
Hypothesis Hmapn : P (VMap None).
Hypothesis Hmap : forall l, Forall (fun kv => P (fst kv) /\ P (snd kv)) l -> P (VMap (Some l)).
Hypothesis Hptrn : P (VPtr None).
Hypothesis Hptr : forall x, P x -> P (VPtr (Some x)).
Hypothesis Hstruct : forall fs, Forall P fs -> P (VStruct fs).
Hypothesis Hother : forall n, P (VOther n).

Fixpoint val_ind' (v : val) : P v :=
  let fix go (l : list val) : Forall P l :=
    match l with [] => Forall_nil _ | x :: l => Forall_cons _ (val_ind' x) (go l) end in
  let fix gom (l : list (val * val)) : Forall (fun kv => P (fst kv) /\ P (snd kv)) l :=
    match l with
    | [] => Forall_nil _
    | kv :: l => Forall_cons kv
        (match kv return P (fst kv) /\ P (snd kv) with (k, x) => conj (val_ind' k) (val_ind' x) end) (gom l)
    end in
  match v with
  | VBool b => Hbool b
  | VI32 z => Hi32 z
  | VI64 z => Hi64 z
  | VU32 n => Hu32 n
  | VU64 n => Hu64 n
  | VF32 n => Hf32 n
  | VF64 n => Hf64 n
  | VStr b => Hstr b
  | VBytes o => Hbytes o
  | VOpt s x => Hopt s x (val_ind' x)
  | VSlice nn items spare => Hslice nn items spare (go items) (go spare)
  | VMap None => Hmapn
  | VMap (Some l) => Hmap l (gom l)
  | VPtr None => Hptrn
  | VPtr (Some x) => Hptr x (val_ind' x)
  | VStruct fs => Hstruct fs (go fs)
  | VOther n => Hother n
  end.
End ValInd.

Section Sim.
Context {R1 I1 R2 I2 : Type}.
Variable look1 : R1 -> cbody R1 I1.
Variable iget1 : I1 -> sinfo R1.
Variable look2 : R2 -> cbody R2 I2.
Variable iget2 : I2 -> sinfo R2.
Variable D : decls.
Variable RR : R1 -> R2 -> Prop.
Variable RI : I1 -> I2 -> Prop.

Definition field_rel (f1 : sfield R1) (f2 : sfield R2) : Prop :=
  f_idx f1 = f_idx f2 /\ f_meta f1 = f_meta f2 /\ RR (f_codec f1) (f_codec f2).

Inductive body_rel : cbody R1 I1 -> cbody R2 I2 -> Prop :=
| br_static s : body_rel (BStatic s) (BStatic s)
| br_ptr t c1 c2 : RR c1 c2 -> body_rel (BPtr t c1) (BPtr t c2)
| br_slice t c1 c2 : RR c1 c2 -> body_rel (BSlice t c1) (BSlice t c2)
| br_struct k i1 i2 : RI i1 i2 -> body_rel (BStruct k i1) (BStruct k i2)
| br_map tag kf1 vf1 kf2 vf2 e i1 i2 : field_rel kf1 kf2 -> field_rel vf1 vf2 -> RI i1 i2 ->
    body_rel (BMap tag kf1 vf1 e i1) (BMap tag kf2 vf2 e i2).

Definition info_rel (i1 : sinfo R1) (i2 : sinfo R2) : Prop :=
  Forall2 field_rel (i_fields i1) (i_fields i2) /\ Forall2 field_rel (i_index i1) (i_index i2).

(** A codec left without functions corresponds to another. *)
Inductive body_sim : cbody R1 I1 -> cbody R2 I2 -> Prop :=
| bs_rel b1 b2 : body_rel b1 b2 -> body_sim b1 b2
| bs_nil : body_sim BNil BNil.

Hypothesis Hlook : forall c1 c2, RR c1 c2 -> body_sim (look1 c1) (look2 c2).
Hypothesis Hinfo : forall i1 i2, RI i1 i2 -> info_rel (iget1 i1) (iget2 i2).

Lemma fields_size_rel sub1 sub2 fs1 fs2 : Forall2 field_rel fs1 fs2 ->
  (forall j, match sub1 j, sub2 j with
             | Some g1, Some g2 => forall c1 c2 f, RR c1 c2 -> g1 c1 f = g2 c2 f
             | None, None => True | _, _ => False end) ->
  @fields_size R1 sub1 fs1 = @fields_size R2 sub2 fs2.
Proof.
  intros HF Hs. induction HF as [|f1 f2 fs1 fs2 (Hi & Hm & Hc) _ IH]; [reflexivity|]. cbn [fields_size].
  rewrite IH, Hi, Hm. specialize (Hs (f_idx f2)). destruct (sub1 (f_idx f2)), (sub2 (f_idx f2)); try contradiction; [|reflexivity].
  rewrite (Hs _ _ _ Hc). reflexivity.
Qed.
Lemma fields_encode_rel sub1 sub2 b fs1 fs2 : Forall2 field_rel fs1 fs2 ->
  (forall j, match sub1 j, sub2 j with
             | Some g1, Some g2 => forall b c1 c2 f, RR c1 c2 -> g1 b c1 f = g2 b c2 f
             | None, None => True | _, _ => False end) ->
  @fields_encode R1 sub1 b fs1 = @fields_encode R2 sub2 b fs2.
Proof.
  intros HF Hs. revert b. induction HF as [|f1 f2 fs1 fs2 (Hi & Hm & Hc) _ IH]; intros b; [reflexivity|]. cbn [fields_encode].
  rewrite Hi, Hm. specialize (Hs (f_idx f2)). destruct (sub1 (f_idx f2)), (sub2 (f_idx f2)); try contradiction; [|reflexivity].
  rewrite (Hs b _ _ _ Hc). destruct (r0 b (f_codec f2) (f_meta f2)); cbn [rbind]; [apply IH|reflexivity].
Qed.

(** Values inside a pointer to a struct. *)
Definition below (P : val -> Prop) (v : val) : Prop :=
  P v /\ match v with VStruct fs => Forall P fs | _ => True end.
Lemma val_ind2 (P : val -> Prop)
  (H : forall v, match v with
                 | VOpt _ x => P x
                 | VSlice _ items spare => Forall P items /\ Forall P spare
                 | VMap (Some l) => Forall (fun kv => P (fst kv) /\ P (snd kv)) l
                 | VPtr (Some x) => below P x
                 | VStruct fs => Forall P fs
                 | _ => True
                 end -> P v) : forall v, P v.
Proof.
  assert (Q : forall v, below P v).
  { induction v using val_ind'; (split; [apply H|]); try exact Logic.I; cbn beta iota; try assumption;
      try (split; [eapply Forall_impl; [|eassumption]; intros a [Ha _]; exact Ha..]);
      try (eapply Forall_impl; [|eassumption]; intros a [Ha _]; exact Ha).
    - apply IHv.
    - eapply Forall_impl; [|eassumption]. intros [k x] [[A _] [B _]]. split; assumption. }
  intros v. apply Q.
Qed.

Lemma sz_rel : forall v c1 c2 f, RR c1 c2 -> sz look1 iget1 v c1 f = sz look2 iget2 v c2 f.
Proof.
  induction v as [v IH] using val_ind2; intros c1 c2 f Hc; pose proof (Hlook c1 c2 Hc) as Hb.
  destruct v; cbn [sz]; (destruct Hb as [? ? Hb|]; [|reflexivity]); destruct Hb as [s'|t d1 d2 Hd|t d1 d2 Hd|k i1 i2 Hi|tag kf1 vf1 kf2 vf2 e i1 i2 Hk Hv Hi]; try reflexivity.
  - f_equal. apply map_ext_Forall. eapply Forall_impl; [|apply IH]. cbn beta. intros a Ha. apply Ha; assumption.
  - destruct m as [l|]; [|reflexivity].
    do 2 f_equal. apply map_ext_Forall. eapply Forall_impl; [|exact IH]. intros [k x] [Hk1 Hk2]. cbn [fst snd] in *.
    destruct Hk as (_ & Hkm & Hkc), Hv as (_ & Hvm & Hvc). rewrite Hkm, Hvm, (Hk1 _ _ _ Hkc), (Hk2 _ _ _ Hvc). reflexivity.
  - destruct o as [x|]; [|reflexivity]. apply IH; assumption.
  - destruct o as [x|]; [|reflexivity]. f_equal. apply fields_size_rel; [apply Hinfo; assumption|]. intros j.
    destruct x; try (destruct j; exact Logic.I). rewrite !nth_error_map.
    destruct (nth_error fs j) as [y|] eqn:E; [|exact Logic.I]. cbn [option_map].
    destruct IH as [_ IH]. rewrite Forall_forall in IH. apply nth_error_In in E. intros. apply IH; assumption.
Qed.

Lemma struct_size_rel i1 i2 x : RI i1 i2 -> struct_size look1 iget1 i1 x = struct_size look2 iget2 i2 x.
Proof.
  intros Hi. unfold struct_size. apply fields_size_rel; [apply Hinfo; assumption|]. intros j.
  destruct (get_field x j); [|exact Logic.I]. cbn. intros. apply sz_rel. assumption.
Qed.

Lemma enc_rel : forall v b c1 c2 f, RR c1 c2 -> enc look1 iget1 v b c1 f = enc look2 iget2 v b c2 f.
Proof.
  induction v as [v IH] using val_ind2; intros b c1 c2 f Hc; pose proof (Hlook c1 c2 Hc) as Hb.
  destruct v; cbn [enc]; (destruct Hb as [? ? Hb|]; [|reflexivity]); destruct Hb as [s'|t d1 d2 Hd|t d1 d2 Hd|k i1 i2 Hi|tag kf1 vf1 kf2 vf2 e i1 i2 Hk Hv Hi]; try reflexivity.
  - destruct IH as [IH _]. revert b. induction IH as [|a l Ha _ IHl]; intros b; [reflexivity|].
    cbn [map chain_res]. rewrite (Ha b _ _ f Hd). destruct (enc _ _ a b d2 f); [apply IHl|reflexivity].
  - destruct m as [l|]; [|reflexivity].
    destruct Hk as (_ & Hkm & Hkc), Hv as (_ & Hvm & Hvc).
    match goal with |- rbind (chain_res b (map ?g1 l)) _ = rbind (chain_res b (map ?g2 l)) _ =>
      assert (E : forall b0, chain_res b0 (map g1 l) = chain_res b0 (map g2 l)) end.
    { induction IH as [|[k x] l [Hk1 Hk2] _ IHl]; intros b0; [reflexivity|]. cbn [map chain_res fst snd] in *.
      rewrite Hkm, Hvm, (sz_rel _ _ _ _ Hkc), (sz_rel _ _ _ _ Hkc).
      destruct (sz look2 iget2 k (f_codec kf2) (f_meta kf2)); [|reflexivity]. cbn [rbind].
      destruct (sz look2 iget2 x (f_codec kf2) (f_meta vf2)); [|reflexivity]. cbn [rbind].
      rewrite (Hk1 _ _ _ _ Hkc). destruct (enc look2 iget2 k _ (f_codec kf2) (f_meta kf2)); [|reflexivity]. cbn [rbind].
      rewrite (Hk2 _ _ _ _ Hvc). destruct (enc look2 iget2 x _ (f_codec vf2) (f_meta vf2)); [|reflexivity]. cbn [rbind].
      rewrite Hkm, Hvm in IHl. apply IHl. }
    rewrite E. reflexivity.
  - destruct o as [x|]; [|reflexivity]. apply IH; assumption.
  - destruct o as [x|]; [|reflexivity]. rewrite (struct_size_rel _ _ x Hi).
    destruct (struct_size look2 iget2 i2 x); [|reflexivity]. cbn [rbind].
    apply fields_encode_rel; [apply Hinfo; assumption|]. intros j.
    destruct x; try (destruct j; exact Logic.I). rewrite !nth_error_map.
    destruct (nth_error fs j) as [y|] eqn:E; [|exact Logic.I]. cbn [option_map].
    destruct IH as [_ IH]. rewrite Forall_forall in IH. apply nth_error_In in E. intros. apply IH; assumption.
Qed.

Lemma struct_encode_rel i1 i2 b x : RI i1 i2 -> struct_encode look1 iget1 i1 b x = struct_encode look2 iget2 i2 b x.
Proof.
  intros Hi. unfold struct_encode. apply fields_encode_rel; [apply Hinfo; assumption|]. intros j.
  destruct (get_field x j); [|exact Logic.I]. cbn. intros. apply enc_rel. assumption.
Qed.

Lemma find_rel fs1 fs2 n : Forall2 field_rel fs1 fs2 ->
  match find (fun f => (fieldNumber f =? n)%N) fs1, find (fun f => (fieldNumber f =? n)%N) fs2 with
  | Some f1, Some f2 => field_rel f1 f2
  | None, None => True
  | _, _ => False
  end.
Proof.
  induction 1 as [|f1 f2 fs1 fs2 Hf _ IH]; [exact Logic.I|]. cbn [find].
  unfold fieldNumber in *. destruct Hf as (Hi & Hm & Hc). rewrite Hm.
  destruct (_ =? n)%N; [|exact IH]. repeat split; assumption.
Qed.
Lemma Forall2_rev {A B} (P : A -> B -> Prop) l m : Forall2 P l m -> Forall2 P (rev l) (rev m).
Proof. induction 1; [constructor|]. cbn. apply Forall2_app; [assumption|]. constructor; [assumption|constructor]. Qed.
Lemma lookup_rel i1 i2 n : RI i1 i2 ->
  match lookup_field (iget1 i1) n, lookup_field (iget2 i2) n with
  | Some f1, Some f2 => field_rel f1 f2
  | None, None => True
  | _, _ => False
  end.
Proof. intros Hi. unfold lookup_field. apply find_rel, Forall2_rev. apply Hinfo. assumption. Qed.

Lemma dec_rel fuel :
  (forall c1 c2 b v, RR c1 c2 -> dec look1 iget1 D fuel c1 b v = dec look2 iget2 D fuel c2 b v) /\
  (forall i1 i2 b off x, RI i1 i2 -> decs look1 iget1 D fuel i1 b off x = decs look2 iget2 D fuel i2 b off x).
Proof.
  induction fuel as [|fuel [IH1 IH2]]; [split; reflexivity|]. split.
  - intros c1 c2 b v Hc. rewrite !dec_S.
    destruct (Hlook c1 c2 Hc) as [? ? Hb|]; [|reflexivity].
    destruct Hb as [s'|t d1 d2 Hd|t d1 d2 Hd|k i1 i2 Hi|tag kf1 vf1 kf2 vf2 e i1 i2 Hk Hv Hi].
    + reflexivity.
    + destruct v; try reflexivity. cbv zeta. rewrite (IH1 _ _ _ _ Hd). reflexivity.
    + destruct v; try reflexivity. cbv zeta. destruct (match spare with [] => _ | _ => _ end); [reflexivity|].
      rewrite (IH1 _ _ _ _ Hd). reflexivity.
    + destruct v; try reflexivity. cbv zeta. destruct (decodeVarint b) as [[u q] [e|]]; [reflexivity|].
      destruct (from_ b q); [|reflexivity]. rewrite (IH2 _ _ _ _ _ Hi). reflexivity.
    + destruct v; try reflexivity. cbv zeta. destruct (zlen b =? 0); [reflexivity|].
      destruct (decodeVarint b) as [[u q] [e'|]]; [reflexivity|].
      destruct (from_ b q); [|reflexivity]. rewrite (IH2 _ _ _ _ _ Hi). reflexivity.
  - intros i1 i2 b off x Hi. rewrite !decs_S. destruct (off <? zlen b); [|reflexivity].
    destruct (from_ b off) as [b0|]; [|reflexivity].
    destruct (decodeTag b0) as [[[fn w] n] [e|]]; [reflexivity|]. cbv zeta.
    pose proof (lookup_rel i1 i2 fn Hi) as L.
    destruct (lookup_field (iget1 i1) fn) as [f1|], (lookup_field (iget2 i2) fn) as [f2|]; try contradiction.
    + destruct L as (Li & Lm & Lc). unfold wireType. rewrite Li, Lm.
      destruct (negb _); [reflexivity|]. destruct (field_data b (off + n) w); try reflexivity.
      destruct (get_field x (f_idx f2)); [|reflexivity]. rewrite (IH1 _ _ _ _ Lc).
      destruct (dec look2 iget2 D fuel (f_codec f2) d v) as [y' n' [e|]| |]; try reflexivity.
      apply IH2. assumption.
    + destruct (skip_unknown b (off + n) w) as [[o [e|]]|]; try reflexivity. apply IH2. assumption.
Qed.
End Sim.
