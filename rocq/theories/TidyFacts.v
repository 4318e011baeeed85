(** Decoding without an error keeps messages tidy. *)
From Verif Require Import Base Wire GoType Leaf Codec Tag Walker Api Typing TypingFacts WireFacts DecodeFacts Resolve WalkSeq SpecWire SpecTag SpecMsg SpecExact.

Lemma zero_tidy t : tidy (zero t) = true.
Proof. destruct t as [[]| |[]| | | | |]; reflexivity. Qed.
Lemma zeros_tidy fs : forallb tidy (zeros fs) = true.
Proof. unfold zeros. induction fs as [|f fs IH]; [reflexivity|]. cbn [map forallb]. rewrite zero_tidy, IH. reflexivity. Qed.
Lemma zero_struct_tidy D k : tidy (zero_struct D k) = true.
Proof.
  destruct k as [m|k v kt vt|k]; cbn [zero_struct].
  - destruct (nth_error D m) as [fs|]; [|reflexivity]. cbn [tidy]. induction fs as [|f fs IH]; [reflexivity|]. cbn [map forallb]. rewrite zero_tidy, IH. reflexivity.
  - cbn [tidy forallb]. rewrite zero_tidy. destruct k; reflexivity.
  - apply zero_tidy.
Qed.
Lemma payload_len_pos wt r n : payload_len wt r = inl n -> firstn n r <> [].
Proof.
  intros H E. pose proof (payload_len_ok _ _ _ H) as L. apply (f_equal (@length N)) in E. rewrite firstn_length in E. cbn in E.
  assert (Z : n = 0%nat) by lia. subst n. clear - H. revert H. unfold payload_len.
  destruct (wt =? wt_varint)%N; [|destruct (wt =? wt_varlen)%N; [|destruct (wt =? wt_fixed32)%N; [|destruct (wt =? wt_fixed64)%N]]].
  - destruct (read_varint r) as [v k r'| |] eqn:E; try discriminate. intros H. inversion H. apply read_varint_ok in E. lia.
  - destruct (read_varint r) as [v k r'| |] eqn:E; try discriminate. destruct (_ <? _)%N; [discriminate|].
    intros H. inversion H. apply read_varint_ok in E. lia.
  - destruct (_ <? _)%nat; intros H; inversion H.
  - destruct (_ <? _)%nat; intros H; inversion H.
  - discriminate.
Qed.
Lemma lstep_rest {R} (info : sinfo R) b : match lstep info b with
  | LsErr _ => True
  | LsSkip r => exists n, r = skipn n b
  | LsDec _ _ _ data r => data <> [] /\ (exists n, data = firstn n r) /\ exists n, r = skipn n b
  end.
Proof.
  unfold lstep. destruct (read_varint b) as [v k r| |] eqn:E; try exact Logic.I. cbv zeta. apply read_varint_skip in E as [Er _].
  destruct (lookup_field info (v / 8)) as [f|].
  - destruct (negb _); [exact Logic.I|]. destruct (payload_len (v mod 8) r) as [n|e] eqn:P; [|exact Logic.I].
    split; [eapply payload_len_pos; exact P|]. split; [exists n; reflexivity|exists k; exact Er].
  - destruct (payload_len (v mod 8) r) as [n|e] eqn:P; [|exact Logic.I]. exists (k + n)%nat. rewrite Er, skipn_skipn'. reflexivity.
Qed.

Lemma static_tidy s b v v' n : l_decode (static s) b v = DRet v' n None -> tidy v' = true.
Proof.
  assert (P : forall w m, m <> Optional -> forall v v' n, l_decode (static (SC w m)) b v = DRet v' n None -> tidy v' = true).
  { intros w m Hm v0 v0' n0 H. destruct w, m; try contradiction; cbn [static l_decode boolCodec boolRequiredCodec
      stringCodec stringRequiredCodec float32Codec float32RequiredCodec float64Codec float64RequiredCodec
      int32Codec int32RequiredCodec int64Codec int64RequiredCodec uint32Codec uint32RequiredCodec
      uint64Codec uint64RequiredCodec fixed32Codec fixed32RequiredCodec fixed64Codec fixed64RequiredCodec
      zigzag32Codec zigzag32RequiredCodec zigzag64Codec zigzag64RequiredCodec] in H;
    cbv [decodeBool decodeString decodeFloat32 decodeFloat64 decodeInt32 decodeInt64 decodeUint32
      decodeUint64 decodeFixed32 decodeFixed64 decodeZigzag32 decodeZigzag64] in H.
    all: try (destruct b as [|c b]; [discriminate|]; apply wret_inv in H; destruct H as (H & _ & _); destruct v0; inversion H; reflexivity).
    all: repeat match type of H with
      | context[let '(_, _) := ?x in _] => destruct x as [[? ?] ?] 
      | context[match ?x with OK _ => _ | CR _ => _ end] => destruct x as [[[? ?] ?]|]; [|discriminate]
      | context[if ?x then _ else _] => destruct x
      end; try (apply wret_inv in H; destruct H as (H & _ & _); destruct v0; inversion H; reflexivity). }
  destruct s as [w m|].
  - destruct m; [apply P; discriminate..|]. intros H.
    assert (H' : decodeOption (l_decode (static (SC w Required))) b v = DRet v' n None) by (destruct w; exact H).
    unfold decodeOption in H'. destruct v; try discriminate.
    destruct (l_decode (static (SC w Required)) b v) as [v1 n1 e1| |]; try discriminate. cbn in H'. inversion H'; reflexivity.
  - cbn. unfold decodeBytes. intros H. destruct (decodeVarlen b) as [[[? ?] ?]|]; [|discriminate]. destruct v; try discriminate.
    inversion H; reflexivity.
Qed.

Lemma list_set_tidy xs : forall i y, forallb tidy xs = true -> tidy y = true -> forallb tidy (list_set xs i y) = true.
Proof.
  induction xs as [|x xs IH]; intros [|i] y H1 H2; cbn in *; auto; apply andb_true_iff in H1; destruct H1 as [A B].
  - rewrite H2, B. reflexivity.
  - rewrite A. cbn. auto.
Qed.
Lemma set_tidy x i y : tidy x = true -> tidy y = true -> tidy (set_field x i y) = true.
Proof. destruct x; cbn [set_field tidy]; auto using list_set_tidy. Qed.
Lemma get_tidy x i y : tidy x = true -> get_field x i = Some y -> tidy y = true.
Proof.
  destruct x; try discriminate. cbn [get_field tidy]. intros H E. rewrite forallb_forall in H. eapply H, nth_error_In, E.
Qed.
Lemma assign_tidy l k x : forallb (fun kv => match kv with (_, x) => tidy x end) l = true -> tidy x = true ->
  tidy (VMap (Some (map_assign l k x))) = true.
Proof.
  intros H Hx. cbn [tidy]. apply andb_true_iff. split.
  - destruct l as [|[k' x'] l]; [reflexivity|]. cbn. destruct (key_eqb k' k); reflexivity.
  - induction l as [|[k' x'] l IH]; cbn [map_assign forallb]; [rewrite Hx; reflexivity|].
    cbn [forallb] in H. apply andb_true_iff in H. destruct H as [A B].
    destruct (key_eqb k' k); cbn [forallb]; [rewrite Hx, B|rewrite A, (IH B)]; reflexivity.
Qed.

Section Gen.
Context {R I : Type}.
Variable look : R -> cbody R I.
Variable iget : I -> sinfo R.
Variable D : decls.
Notation dec := (dec look iget D).
Notation ldecs := (ldecs look iget D).

Lemma decode_tidy fuel :
  (forall c b v v' n, small b -> b <> [] -> tidy v = true -> dec fuel c b v = DRet v' n None -> tidy v' = true) /\
  (forall i b x x', small b -> tidy x = true -> ldecs fuel i b x = LOk x' -> tidy x' = true).
Proof.
  induction fuel as [|fuel [IH1 IH2]]; [split; discriminate|]. split.
  - intros c b v v' n Hs Hb Hv. destruct (look c) as [|s|t c'|t c'|k i|tag kf vf k i] eqn:El.
    + rewrite dec_S, El. discriminate.
    + rewrite dec_S, El. apply static_tidy.
    + rewrite dec_S, El. destruct v as [| | | | | | | | | | | |o| |]; try discriminate. cbv zeta.
      destruct (dec fuel c' b _) as [x n1 e1| |] eqn:E; try discriminate. cbn [dmap]. intros H. inversion H; subst.
      cbn [tidy]. eapply IH1; [exact Hs|exact Hb| |exact E]. destruct o; [exact Hv|apply zero_tidy].
    + rewrite dec_S, El. destruct v as [| | | | | | | | | |nn items spare| | | |]; try discriminate. cbv zeta.
      cbn [tidy] in Hv. apply andb_true_iff in Hv. destruct Hv as [Hv Hsp]. apply andb_true_iff in Hv. destruct Hv as [Hn Hi].
      set (sp := match spare with [] => grow_spare t (length items) | _ => spare end).
      assert (Hsp' : forallb tidy sp = true).
      { unfold sp. destruct spare; [|exact Hsp]. unfold grow_spare. induction (_ - _)%nat as [|q IH]; [reflexivity|]. cbn [repeat forallb]. rewrite zero_tidy. exact IH. }
      assert (Hg : nn || match spare with [] => true | _ => false end = true).
      { destruct items; [destruct spare; [apply orb_true_r|rewrite andb_false_r in Hn; discriminate]|rewrite Hn; reflexivity]. }
      rewrite Hg. destruct sp as [|slot sp']; [discriminate|]. cbn [forallb] in Hsp'. apply andb_true_iff in Hsp'. destruct Hsp' as [Hslot Hsp'].
      destruct (dec fuel c' b slot) as [x n1 [e1|]| |] eqn:E; try discriminate. intros H. inversion H; subst.
      cbn [tidy]. rewrite Hsp', forallb_app, Hi. cbn [forallb]. rewrite (IH1 _ _ _ _ _ Hs Hb Hslot E). destruct items; reflexivity.
    + destruct v as [| | | | | | | | | | | |o| |]; try (rewrite dec_S, El; discriminate).
      destruct (dec_struct look iget D fuel c k i b o Hs El) as [n0 ->]. cbv zeta.
      destruct (read_varint b) as [v0 k0 r| |] eqn:E; try discriminate. apply read_varint_skip in E as [Er _].
      destruct (ldecs fuel i r _) as [x| | |] eqn:E2; try discriminate. intros H. inversion H; subst. cbn [tidy].
      eapply IH2; [apply small_skipn; exact Hs| |exact E2]. destruct o; [exact Hv|apply zero_struct_tidy].
    + destruct v as [| | | | | | | | | | |o| | |]; try (rewrite dec_S, El; discriminate).
      destruct (dec_map look iget D fuel c tag kf vf k i b o Hs El) as [n0 ->]. cbv zeta.
      destruct b as [|c0 b0] eqn:Eb; [contradiction|]. rewrite <- Eb in *. clear Eb.
      destruct (read_varint b) as [v0 k0 r| |] eqn:E; try discriminate. apply read_varint_skip in E as [Er _].
      destruct (ldecs fuel i r (zero_struct D k)) as [x| | |] eqn:E2; try discriminate.
      apply IH2 in E2; [|rewrite Er; apply small_skipn; exact Hs|apply zero_struct_tidy].
      destruct x as [| | | | | | | | | | | | |[|key [|y []]]|]; try discriminate.
      intros H. inversion H; subst. cbn [tidy forallb] in E2. apply andb_true_iff in E2. destruct E2 as [_ E2]. apply andb_true_iff in E2.
      destruct E2 as [E2 _]. apply assign_tidy; [|exact E2]. destruct o; [|reflexivity]. cbn [tidy] in Hv. apply andb_true_iff in Hv. apply Hv.
  - intros i b x x' Hs Hx. cbn [DecodeFacts.ldecs]. destruct b as [|c0 b0] eqn:Eb; [intros H; inversion H; subst; exact Hx|]. rewrite <- Eb in *. clear Eb.
    pose proof (lstep_rest (iget i) b) as L. destruct (lstep (iget i) b) as [e|r|fn wt f data r]; [discriminate| |].
    + destruct L as [n ->]. apply IH2; [apply small_skipn; exact Hs|exact Hx].
    + destruct L as (L1 & [m L2] & [n L3]). assert (Hr : small r) by (rewrite L3; apply small_skipn; exact Hs).
      destruct (get_field x (f_idx f)) as [y|] eqn:G; [|discriminate].
      destruct (dec fuel (f_codec f) data y) as [y' n' [e'|]| |] eqn:E; try discriminate.
      apply IH2; [apply small_skipn; exact Hr|]. apply set_tidy; [exact Hx|]. eapply IH1; [|exact L1| |exact E].
      * rewrite L2. apply small_firstn. exact Hr.
      * eapply get_tidy; eassumption.
Qed.
End Gen.

(** ** Tidy values are what they look like *)
Lemma norm_shown : forall v, tidy v = true -> norm v = shown v.
Proof.
  fix IH 1. intros v. destruct v as [| | | | | | | | |f x|nn items spare|[l|]|[x|]|xs|]; try reflexivity; cbn [tidy norm shown].
  - destruct f; [reflexivity|]. destruct x; try discriminate; cbn; intros H; try (destruct b; try discriminate; reflexivity); f_equal; f_equal; lia.
  - intros H. apply andb_true_iff in H. destruct H as [H _]. apply andb_true_iff in H. destruct H as [H1 H2].
    f_equal.
    + destruct items; [destruct nn; [discriminate|reflexivity]|symmetry; exact H1].
    + clear H1. induction items as [|y items IHl]; [reflexivity|]. cbn [map forallb] in *. apply andb_true_iff in H2. destruct H2 as [A B].
      rewrite (IH y A), (IHl B). reflexivity.
  - intros H. apply andb_true_iff in H. destruct H as [H1 H2]. destruct l as [|kv l]; [discriminate|]. clear H1. f_equal. f_equal.
    revert H2. generalize (kv :: l). intros l0. induction l0 as [|[a y] l0 IHl]; [reflexivity|]. cbn [map forallb]. intros H2.
    apply andb_true_iff in H2. destruct H2 as [A B]. rewrite (IH y A), (IHl B). reflexivity.
  - intros H. rewrite (IH x H). reflexivity.
  - intros H. f_equal. induction xs as [|y xs IHl]; [reflexivity|]. cbn [map forallb] in *. apply andb_true_iff in H. destruct H as [A B].
    rewrite (IH y A), (IHl B). reflexivity.
Qed.
Lemma norm_shown_all xs : forallb tidy xs = true -> map norm xs = map shown xs.
Proof.
  induction xs as [|y xs IHl]; [reflexivity|]. cbn [map forallb]. intros H. apply andb_true_iff in H. destruct H as [A B].
  rewrite (norm_shown y A), (IHl B). reflexivity.
Qed.
