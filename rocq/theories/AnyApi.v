(** Size, Marshal and Unmarshal on declarations of any kind. *)
From Coq Require Import ZifyBool ZifyNat ZifyN.
From Verif Require Import Base Wire GoType Leaf Codec Tag Walker Api Resolve Typing CodecSim SpecWire SpecTag SpecMsg
  WireFacts DecodeFacts GenFacts TypingFacts WalkInv WalkSpec WalkFuel WalkSeq EncFacts MsgResolve MsgDec ApiFacts ApiTags
  AnyWalk SpecAny.
Local Open Scope Z_scope.
Ltac Zify.zify_post_hook ::= Z.div_mod_to_equations.

(** ** Static codecs always answer *)
Lemma wret_answers w n e : wret w n e <> DFuel /\ wret w n e <> DCrash Bounds.
Proof. destruct w; cbn; split; discriminate. Qed.
Lemma decodeVarlen_answers b : small b -> exists r, decodeVarlen b = OK r.
Proof.
  intros Hs. pose proof (decodeVarlen_spec b Hs) as S. destruct (read_varint b); [destruct (_ <? _)%N|..]; rewrite S; eauto.
Qed.
Lemma static_answers s b v : small b -> l_decode (static s) b v <> DFuel /\ l_decode (static s) b v <> DCrash Bounds.
Proof.
  intros Hs. destruct (decodeVarlen_answers b Hs) as ([[d n] e] & E).
  assert (P : forall w m, m <> Optional -> forall v, l_decode (static (SC w m)) b v <> DFuel /\ l_decode (static (SC w m)) b v <> DCrash Bounds).
  { intros w m Hm v0. destruct w, m; try contradiction; cbn [static l_decode boolCodec boolRequiredCodec
      stringCodec stringRequiredCodec float32Codec float32RequiredCodec float64Codec float64RequiredCodec
      int32Codec int32RequiredCodec int64Codec int64RequiredCodec uint32Codec uint32RequiredCodec
      uint64Codec uint64RequiredCodec fixed32Codec fixed32RequiredCodec fixed64Codec fixed64RequiredCodec
      zigzag32Codec zigzag32RequiredCodec zigzag64Codec zigzag64RequiredCodec];
    cbv [decodeBool decodeString decodeFloat32 decodeFloat64 decodeInt32 decodeInt64 decodeUint32
      decodeUint64 decodeFixed32 decodeFixed64 decodeZigzag32 decodeZigzag64]; rewrite ?E;
    repeat match goal with
    | |- context[let '(_, _) := ?x in _] => destruct x as [[? ?] ?]
    | |- context[match b with _ => _ end] => destruct b
    end; try apply wret_answers; try (destruct (n =? 0); apply wret_answers); split; discriminate. }
  destruct s as [w m|].
  - destruct m; [apply P; discriminate..|].
    assert (H' : l_decode (static (SC w Optional)) b v = decodeOption (l_decode (static (SC w Required))) b v) by (destruct w; reflexivity).
    rewrite H'. unfold decodeOption. destruct v; try (split; discriminate).
    destruct (P w Required ltac:(discriminate) v) as [P1 P2]. destruct (l_decode (static (SC w Required)) b v); cbn; try (split; discriminate); try congruence.
    split; [discriminate|]. congruence.
  - cbn. unfold decodeBytes. rewrite E. destruct v; try (split; discriminate); destruct e; split; discriminate.
Qed.

(** ** Decoding always answers: the recursion bound is enough, and no index is
    out of range. *)
Lemma grow_some t n : grow_spare t n <> [].
Proof.
  unfold grow_spare. destruct n as [|n]; [discriminate|].
  assert (E : exists m, (match (2 * S n)%nat with O => 10%nat | c => c end - S n = S m)%nat) by (exists n; cbn; lia).
  destruct E as [m ->]. discriminate.
Qed.

Section Enough.
Context {R I : Type}.
Variable look : R -> cbody R I.
Variable iget : I -> sinfo R.
Variable D : decls.
Notation dec := (dec look iget D).
Notation ldecs := (ldecs look iget D).

Lemma no_bounds fuel :
  (forall c b v, small b -> dec fuel c b v <> DCrash Bounds) /\
  (forall i b x, small b -> ldecs fuel i b x <> LCrash Bounds).
Proof.
  induction fuel as [|fuel [IH1 IH2]]; [split; discriminate|]. split.
  - intros c b v Hs. destruct (look c) as [|sc|t c0|t c0|k i|tag kf vf entry i] eqn:El.
    + rewrite dec_S, El. discriminate.
    + rewrite dec_S, El. apply static_answers. assumption.
    + rewrite dec_S, El. destruct v; try discriminate. cbv zeta. specialize (IH1 c0 b (match o with Some x => x | None => zero t end) Hs).
      destruct (dec fuel c0 b _); cbn; congruence.
    + rewrite dec_S, El. destruct v; try discriminate. cbv zeta.
      destruct (match spare with [] => _ | _ => _ end) as [|slot sp] eqn:Es.
      { destruct spare; [|discriminate]. exfalso. exact (grow_some _ _ Es). }
      specialize (IH1 c0 b slot Hs). destruct (dec fuel c0 b slot) as [v1 n1 [e1|]| |]; congruence.
    + destruct v; try (rewrite dec_S, El; discriminate).
      destruct (dec_struct look iget D fuel c k i b o Hs El) as [n0 E]. rewrite E. cbv zeta.
      destruct (read_varint b) as [u q r| |] eqn:Er; try discriminate. apply read_varint_skip in Er. destruct Er as [-> _].
      specialize (IH2 i (skipn q b) (match o with Some x => x | None => zero_struct D k end) (small_skipn _ _ Hs)).
      destruct (ldecs fuel i _ _); congruence.
    + destruct v; try (rewrite dec_S, El; discriminate).
      destruct (dec_map look iget D fuel c tag kf vf entry i b m Hs El) as [n0 E]. rewrite E. cbv zeta.
      destruct b as [|c0 b0] eqn:Eb; [discriminate|]. rewrite <- Eb in *. clear Eb.
      destruct (read_varint b) as [u q r| |] eqn:Er; try discriminate. apply read_varint_skip in Er. destruct Er as [-> _].
      specialize (IH2 i (skipn q b) (zero_struct D entry) (small_skipn _ _ Hs)).
      destruct (ldecs fuel i _ _) as [x0| | |]; try congruence. destruct x0 as [| | | | | | | | | | | | |[|? [|? []]]|]; discriminate.
  - intros i b x Hs. cbn [DecodeFacts.ldecs]. destruct b as [|c0 b0] eqn:Eb; [discriminate|].
    rewrite <- Eb in *. clear Eb. pose proof (lstep_consumes (iget i) b) as LC.
    destruct (lstep (iget i) b) as [e0|r|fn wt fd data r] eqn:El; [discriminate| |].
    + apply IH2. eapply small_le; [|exact Hs]; lia.
    + destruct (get_field x (f_idx fd)); [|discriminate].
      assert (Hd : small data) by (eapply small_le; [|exact Hs]; lia).
      specialize (IH1 (f_codec fd) data v Hd). destruct (dec fuel (f_codec fd) data v) as [y' n' [e1|]| |]; try congruence.
      apply IH2. apply small_skipn. eapply small_le; [|exact Hs]; lia.
Qed.

Variable P : R -> Prop.
Variable PI : I -> Prop.
Variable rank : R -> nat.
Variable B : nat.
Hypothesis Hlook : forall c, P c ->
  match look c with
  | BPtr _ c' | BSlice _ c' => P c' /\ (rank c' < rank c)%nat
  | BStruct _ i | BMap _ _ _ _ i => PI i
  | _ => True
  end.
Hypothesis Hinfo : forall i, PI i -> Forall (fun f => P (f_codec f) /\ (rank (f_codec f) <= B)%nat) (i_index (iget i)).

Lemma lookup_In (i : sinfo R) n f : lookup_field i n = Some f -> In f (i_index i).
Proof. unfold lookup_field. intros H. apply find_some in H. apply in_rev. apply H. Qed.
Lemma lstep_field i b fn wt fd data r : lstep (iget i) b = LsDec fn wt fd data r -> In fd (i_index (iget i)).
Proof.
  unfold lstep. destruct (read_varint b) as [v k r0| |]; try discriminate.
  destruct (lookup_field (iget i) (v / 8)) as [f|] eqn:E.
  - destruct (negb _); [discriminate|]. destruct (payload_len _ _); [|discriminate]. intros H; inversion H; subst. eapply lookup_In; eassumption.
  - destruct (payload_len _ _); discriminate.
Qed.

Lemma enough fuel :
  (forall c b v, P c -> small b -> (rank c + 1 + length b * (B + 1) <= fuel)%nat -> dec fuel c b v <> DFuel) /\
  (forall i b x, PI i -> small b -> (1 + length b * (B + 1) <= fuel)%nat -> ldecs fuel i b x <> LFuel).
Proof.
  induction fuel as [|fuel [IH1 IH2]]; [split; intros; lia|].
  assert (Sub : forall b u q r, read_varint b = VOk u q r -> (S (length r) <= length b)%nat).
  { intros b u q r H. apply read_varint_ok in H. destruct H as (_ & _ & <- & H1 & H2). rewrite skipn_length. lia. }
  split.
  - intros c b v HP Hs Hf. pose proof (Hlook c HP) as HL. destruct (look c) as [|sc|t c0|t c0|k i|tag kf vf entry i] eqn:El.
    + rewrite dec_S, El. discriminate.
    + rewrite dec_S, El. apply static_answers. assumption.
    + rewrite dec_S, El. destruct v; try discriminate. cbv zeta. destruct HL as [HL1 HL2].
      assert (F : (rank c0 + 1 + length b * (B + 1) <= fuel)%nat) by lia.
      specialize (IH1 c0 b (match o with Some x => x | None => zero t end) HL1 Hs F).
      destruct (dec fuel c0 b _); cbn; congruence.
    + rewrite dec_S, El. destruct v; try discriminate. cbv zeta. destruct HL as [HL1 HL2].
      destruct (match spare with [] => _ | _ => _ end) as [|slot sp] eqn:Es; [discriminate|].
      assert (F : (rank c0 + 1 + length b * (B + 1) <= fuel)%nat) by lia.
      specialize (IH1 c0 b slot HL1 Hs F). destruct (dec fuel c0 b slot) as [v1 n1 [e1|]| |]; congruence.
    + destruct v; try (rewrite dec_S, El; discriminate).
      destruct (dec_struct look iget D fuel c k i b o Hs El) as [n0 E]. rewrite E. cbv zeta.
      destruct (read_varint b) as [? ? r| |] eqn:Er; try discriminate. pose proof (Sub _ _ _ _ Er) as Sr. apply read_varint_skip in Er. destruct Er as [Er _].
      assert (Hsr : small r) by (rewrite Er; apply small_skipn; assumption). pose proof (Nat.mul_le_mono_r _ _ (B + 1) Sr).
      assert (F : (1 + length r * (B + 1) <= fuel)%nat) by lia.
      specialize (IH2 i r (match o with Some x => x | None => zero_struct D k end) HL Hsr F).
      destruct (ldecs fuel i _ _); congruence.
    + destruct v; try (rewrite dec_S, El; discriminate).
      destruct (dec_map look iget D fuel c tag kf vf entry i b m Hs El) as [n0 E]. rewrite E. cbv zeta.
      destruct b as [|c0 b0] eqn:Eb; [discriminate|]. rewrite <- Eb in *. clear Eb.
      destruct (read_varint b) as [? ? r| |] eqn:Er; try discriminate. pose proof (Sub _ _ _ _ Er) as Sr. apply read_varint_skip in Er. destruct Er as [Er _].
      assert (Hsr : small r) by (rewrite Er; apply small_skipn; assumption). pose proof (Nat.mul_le_mono_r _ _ (B + 1) Sr).
      assert (F : (1 + length r * (B + 1) <= fuel)%nat) by lia.
      specialize (IH2 i r (zero_struct D entry) HL Hsr F).
      destruct (ldecs fuel i _ _) as [x0| | |]; try congruence. destruct x0 as [| | | | | | | | | | | | |[|? [|? []]]|]; discriminate.
  - intros i b x HP Hs Hf. cbn [DecodeFacts.ldecs]. destruct b as [|c0 b0] eqn:Eb; [discriminate|].
    assert (Hb : (1 <= length b)%nat) by (rewrite Eb; cbn; lia). rewrite <- Eb in *. clear Eb. pose proof (lstep_consumes (iget i) b) as LC.
    destruct (lstep (iget i) b) as [e0|r|fn wt fd data r] eqn:El; [discriminate| |].
    + assert (L : (S (length r) <= length b)%nat) by lia. pose proof (Nat.mul_le_mono_r _ _ (B + 1) L).
      apply IH2; [assumption|eapply small_le; [|exact Hs]; lia|lia].
    + destruct (get_field x (f_idx fd)); [|discriminate].
      assert (L : (S (length r) <= length b)%nat) by lia. pose proof (Nat.mul_le_mono_r _ _ (B + 1) L) as M1.
      assert (L2 : (S (length data) <= length b)%nat) by lia. pose proof (Nat.mul_le_mono_r _ _ (B + 1) L2) as M2.
      assert (Hd : small data) by (eapply small_le; [|exact Hs]; lia).
      pose proof (Hinfo i HP) as HF. rewrite Forall_forall in HF. destruct (HF fd (lstep_field _ _ _ _ _ _ _ El)) as [HP1 HR].
      assert (F : (rank (f_codec fd) + 1 + length data * (B + 1) <= fuel)%nat) by lia.
      specialize (IH1 (f_codec fd) data v HP1 Hd F). destruct (dec fuel (f_codec fd) data v) as [y' n' [e1|]| |] eqn:Ed; try congruence; try discriminate.
      apply dec_consumes in Ed; [|assumption].
      assert (L3 : (length (skipn (Z.to_nat n') r) <= length r)%nat) by (rewrite skipn_length; lia). pose proof (Nat.mul_le_mono_r _ _ (B + 1) L3).
      apply IH2; [assumption|apply small_skipn; eapply small_le; [|exact Hs]; lia|lia].
Qed.
End Enough.

Section Any.
Variable D : decls.

(** ** States *)
Lemma user_shallow k : user_key D k = true -> shallow D k.
Proof. destruct k; try discriminate; intros _; exact Logic.I. Qed.
Lemma user_entry k : user_key D k = true -> is_entry k = false.
Proof. destruct k; try discriminate; reflexivity. Qed.

(** What looking up a type does. *)
Lemma info_any k G s : user_key D k = true -> AI D G s ->
  match run (cachedStructInfoOf D (walk_fuel D) k) s with
  | (Done i, s') => exists G', AI D G' s' /\ ext s s' /\ (i < length (g_infos s'))%nat /\ assoc skey_eq_dec k (g_infoCache s') = Some i
  | (Panicked, s') => exists G', AI D G' s' /\ ext s s'
  | (OutOfFuel, _) => False
  end.
Proof.
  intros Hk HA. pose proof (cached_tr D k G s (user_shallow k Hk) HA) as T. unfold tr in T.
  assert (NF : fst (run (cachedStructInfoOf D (walk_fuel D) k) s) <> OutOfFuel) by (eapply nof_run; apply cached_nof, user_entry; exact Hk).
  destruct (run (cachedStructInfoOf D (walk_fuel D) k) s) as [[i| |] s']; cbn [fst] in NF; [|exact T|contradiction].
  destruct T as (G' & _ & A & E & _ & L & C). exists G'. auto.
Qed.
Lemma with_info_AI {A} k G s (f : iref -> gstate -> api A) : user_key D k = true -> AI D G s ->
  exists G', AI D G' (snd (with_info D k s f)) /\ ext s (snd (with_info D k s f)).
Proof.
  intros Hk HA. pose proof (info_any k G s Hk HA) as T. unfold with_info.
  destruct (run (cachedStructInfoOf D (walk_fuel D) k) s) as [[i| |] s']; cbn [snd]; [|exact T|contradiction].
  destruct T as (G' & A1 & E1 & _). eauto.
Qed.
Definition fine (s0 s : gstate) : Prop := exists G, AI D G s /\ ext s0 s.
Lemma fine_info {A} s0 k s (f : iref -> gstate -> api A) : user_key D k = true -> fine s0 s -> fine s0 (snd (with_info D k s f)).
Proof.
  intros Hk (G & HA & HE). destruct (with_info_AI k G s f Hk HA) as (G' & A' & E'). exists G'. split; [assumption|eapply ext_trans; eassumption].
Qed.
Lemma fine_size s0 v s : iface_ok D v = true -> fine s0 s -> fine s0 (snd (Size D v s)).
Proof. intros Hv H. destruct v; cbn [Size snd]; auto. apply fine_info; assumption. Qed.
Lemma fine_marshal s0 v s : iface_ok D v = true -> fine s0 s -> fine s0 (snd (Marshal D v s)).
Proof. intros Hv H. destruct v; cbn [Marshal snd]; auto. apply fine_info; assumption. Qed.
Lemma fine_unmarshal s0 b v s : iface_ok D v = true -> fine s0 s -> fine s0 (snd (Unmarshal D b v s)).
Proof.
  intros Hv H. unfold Unmarshal. destruct (zlen b =? 0)%Z; [exact H|].
  destruct v as [| | |k [x|]]; cbn [snd]; auto. apply fine_info; assumption.
Qed.
Lemma reachable_AI s : reachable D s -> exists G, AI D G s.
Proof.
  intros H. assert (F : fine g_empty s).
  { induction H; auto using fine_size, fine_marshal, fine_unmarshal. exists []. split; [apply AI_empty|apply ext_refl]. }
  destruct F as (G & A & _). eauto.
Qed.
Lemma later_fine s s' : (exists G, AI D G s) -> later D s s' -> fine s s'.
Proof.
  intros [G HA] H. induction H; auto using fine_size, fine_marshal, fine_unmarshal. exists G. split; [assumption|apply ext_refl].
Qed.

(** ** Codecs once built stay the same *)
Section Same.
Variables (G : list nat) (s s' : gstate).
Hypothesis HA : AI D G s.
Hypothesis HE : ext s s'.
Let RR (c1 c2 : cref) : Prop := c1 = c2 /\ inr_ G c1.
Let RI (i1 i2 : nat) : Prop := i1 = i2 /\ (i1 < length (g_infos s))%nat.

Lemma same_look c1 c2 : RR c1 c2 -> body_sim RR RI (hlook s' c1) (hlook s c2).
Proof.
  intros [<- Hc]. destruct c1 as [x|n]; cbn [hlook]; [apply bs_rel; constructor|]. cbn [inr_] in Hc. rewrite (a_len _ _ _ HA) in Hc.
  rewrite (e_cells _ _ HE n Hc). destruct (nth_error (g_cells s) n) as [b|] eqn:E; [|apply bs_nil].
  pose proof (a_cells _ _ _ HA n b E) as B. destruct b; cbn [body_in] in B; [apply bs_nil|apply bs_rel; constructor..].
  - split; [reflexivity|apply B].
  - split; [reflexivity|apply B].
  - split; [reflexivity|exact B].
  - split; [reflexivity|]. split; [reflexivity|]. split; [reflexivity|apply B].
  - split; [reflexivity|]. split; [reflexivity|]. split; [reflexivity|apply B].
  - split; [reflexivity|apply B].
Qed.
Lemma same_fields l : Forall (field_in D G) l -> Forall2 (field_rel RR) l l.
Proof.
  induction 1 as [|f l [H1 _] _ IH]; constructor; [|exact IH]. split; [reflexivity|]. split; [reflexivity|]. split; [reflexivity|exact H1].
Qed.
Lemma same_info i1 i2 : RI i1 i2 -> info_rel RR (higet s' i1) (higet s i2).
Proof.
  intros [<- Hi]. unfold higet. rewrite (e_infos _ _ HE i1 Hi). apply nth_error_Some in Hi. destruct (nth_error (g_infos s) i1) as [x|] eqn:E; [|contradiction].
  destruct (a_infos _ _ _ HA i1 x E) as (F1 & F2 & _). split; apply same_fields; assumption.
Qed.
Lemma same_codecs i : (i < length (g_infos s))%nat ->
  (forall x, struct_size (hlook s') (higet s') i x = struct_size (hlook s) (higet s) i x) /\
  (forall b x, struct_encode (hlook s') (higet s') i b x = struct_encode (hlook s) (higet s) i b x) /\
  (forall f b off x, decs (hlook s') (higet s') D f i b off x = decs (hlook s) (higet s) D f i b off x).
Proof.
  intros Hi. split; [|split]; intros.
  - eapply struct_size_rel; [exact same_look|exact same_info|]. split; [reflexivity|exact Hi].
  - eapply struct_encode_rel; [exact same_look|exact same_info|]. split; [reflexivity|exact Hi].
  - eapply (proj2 (dec_rel _ _ _ _ D _ _ same_look same_info f)). split; [reflexivity|exact Hi].
Qed.
End Same.

(** A type that has been looked up is found again, unchanged. *)
Lemma again k i s : assoc skey_eq_dec k (g_infoCache s) = Some i -> run (cachedStructInfoOf D (walk_fuel D) k) s = (Done i, s).
Proof. intros H. unfold cachedStructInfoOf, infoLoad. cbn [pbind do_ run exec]. rewrite H. reflexivity. Qed.

(** [ready k s i]: the caches hold the codecs of [k], described by [i]. *)
Definition ready (k : skey) (i : nat) (s : gstate) : Prop :=
  (exists G, AI D G s) /\ (i < length (g_infos s))%nat /\ assoc skey_eq_dec k (g_infoCache s) = Some i.
Lemma used_ready k s s1 : reachable D s -> user_key D k = true -> used D k s s1 ->
  exists i, run (cachedStructInfoOf D (walk_fuel D) k) s = (Done i, s1) /\ ready k i s1.
Proof.
  intros Hr Hk Hu. destruct (reachable_AI s Hr) as [G HA]. pose proof (info_any k G s Hk HA) as T.
  assert (P : exists (A : Type) (f : iref -> gstate -> api A) r, with_info D k s f = (Returns r, s1)).
  { destruct Hu as [p n H|p r H|b x r Hb H].
    - do 3 eexists. exact H.
    - do 3 eexists. exact H.
    - unfold Unmarshal in H. destruct (zlen b =? 0) eqn:E; [|do 3 eexists; exact H].
      destruct b; [contradiction|]. rewrite zlen_cons in E. pose proof (zlen_nonneg b). lia. }
  destruct P as (A & f & r & P). unfold with_info in P.
  destruct (run (cachedStructInfoOf D (walk_fuel D) k) s) as [[i| |] s']; inversion P; subst. exists i. split; [reflexivity|].
  destruct T as (G' & A1 & _ & L & C). split; [eauto|auto].
Qed.
Lemma later_ready k i s s' : ready k i s -> later D s s' -> ready k i s' /\ ext s s'.
Proof.
  intros (HA & L & C) H. destruct (later_fine s s' HA H) as (G & A' & E). split; [|exact E].
  split; [eauto|]. split; [pose proof (e_li _ _ E); lia|apply (e_cache _ _ E); exact C].
Qed.

(** ** C43 *)
Lemma first_call_proof s k s1 s2 : reachable D s -> user_key D k = true -> used D k s s1 -> later D s1 s2 ->
  forall p b, Size D (IPtr k p) s2 = (fst (Size D (IPtr k p) s), s2) /\
              Marshal D (IPtr k p) s2 = (fst (Marshal D (IPtr k p) s), s2) /\
              Unmarshal D b (IPtr k p) s2 = (fst (Unmarshal D b (IPtr k p) s), s2).
Proof.
  intros Hr Hk Hu Hl p b. destruct (used_ready k s s1 Hr Hk Hu) as (i & E1 & R1). destruct (later_ready k i s1 s2 R1 Hl) as [(_ & L2 & C2) X].
  destruct R1 as ([G HA] & L1 & C1). destruct (same_codecs G s1 s2 HA X i L1) as (Q1 & Q2 & Q3).
  pose proof (again k i s2 C2) as E2.
  split; [|split].
  - cbn [Size]. unfold with_info. rewrite E1, E2. cbn [fst]. unfold info_size. destruct p; [rewrite Q1|]; reflexivity.
  - cbn [Marshal]. unfold with_info. rewrite E1, E2. cbn [fst]. unfold info_size, info_encode. destruct p; [rewrite Q1, Q2|]; reflexivity.
  - unfold Unmarshal. destruct (zlen b =? 0); [reflexivity|]. destruct p; [|reflexivity]. unfold with_info. rewrite E1, E2. cbn [fst]. rewrite Q3. reflexivity.
Qed.

(** ** What Unmarshal returns *)
Definition hdecode (s : gstate) (i : nat) (b : bytes) (x : val) : lres := ldecs (hlook s) (higet s) D (decode_fuel D b) i b x.

Lemma hdecode_fuel G s i b x : AI D G s -> (i < length (g_infos s))%nat -> small b -> forall f,
  (1 + length b * (DD D + 1) <= f)%nat -> ldecs (hlook s) (higet s) D f i b x <> LFuel.
Proof.
  intros HA Hi Hs f Hf.
  eapply (proj2 (enough (hlook s) (higet s) D (inr_ G) (fun i => i < length (g_infos s))%nat (rk G) (DD D) _ _ f)); assumption.
  Unshelve.
  - intros c Hc. destruct c as [x0|n]; cbn [hlook]; [exact Logic.I|]. cbn [inr_] in Hc. rewrite (a_len _ _ _ HA) in Hc.
    destruct (nth_error (g_cells s) n) as [bd|] eqn:E; [|exact Logic.I]. pose proof (a_cells _ _ _ HA n bd E) as B.
    destruct bd; cbn [body_in] in B; auto. apply B.
  - intros j Hj. unfold higet. apply nth_error_Some in Hj. destruct (nth_error (g_infos s) j) as [y|] eqn:E; [|contradiction].
    apply (a_infos _ _ _ HA j y E).
Qed.
Lemma hdecode_answers k i s b x : ready k i s -> small b -> hdecode s i b x <> LFuel.
Proof.
  intros ([G HA] & L & _) Hs. apply (hdecode_fuel G); try assumption. unfold decode_fuel, DD.
  pose proof (Nat.mul_le_mono_l (Nat.max 1 (decls_depth D) + 1) (decls_depth D + 4) (length b)). rewrite Nat.mul_succ_r. lia.
Qed.
Lemma hdecode_any k i s b x f r : ready k i s -> small b -> ldecs (hlook s) (higet s) D f i b x = r -> r <> LFuel -> hdecode s i b x = r.
Proof.
  intros R Hs E Hr. pose proof (hdecode_answers k i s b x R Hs) as P. unfold hdecode in *.
  destruct (Nat.le_ge_cases f (decode_fuel D b)).
  - rewrite (ldecs_mono (hlook s) (higet s) D f (decode_fuel D b) i b x); congruence.
  - rewrite <- (ldecs_mono (hlook s) (higet s) D (decode_fuel D b) f i b x); congruence.
Qed.
Lemma unmarshal_run s i s1 k b x : run (cachedStructInfoOf D (walk_fuel D) k) s = (Done i, s1) -> small b ->
  fst (Unmarshal D b (IPtr k (Some x)) s) = unm k (hdecode s1 i b x).
Proof.
  intros E Hs. unfold Unmarshal. destruct (zlen b =? 0) eqn:Ez.
  { destruct b; [|rewrite zlen_cons in Ez; pose proof (zlen_nonneg b); lia].
    unfold hdecode, decode_fuel. replace ((decls_depth D + 4) * S (length (@nil N)))%nat with (S (decls_depth D + 3)) by (cbn [length]; lia). reflexivity. }
  unfold with_info. rewrite E. cbn [fst]. unfold hdecode. rewrite <- decs_ldecs by assumption.
  destruct (decs (hlook s1) (higet s1) D (decode_fuel D b) i b 0 x) as [x' n [e|]| |] eqn:Ed; try reflexivity.
  apply decs_consumes in Ed; [|assumption]. subst n. rewrite Z.ltb_irrefl. reflexivity.
Qed.
Lemma unmarshal_ready k i s b x : ready k i s -> small b -> fst (Unmarshal D b (IPtr k (Some x)) s) = unm k (hdecode s i b x).
Proof. intros (_ & _ & C) Hs. apply unmarshal_run; [apply again; exact C|exact Hs]. Qed.

(** ** C12 *)
Lemma always_answers_proof s v b : reachable D s -> iface_ok D v = true -> zlen b < Z63 ->
  fst (Size D v s) <> Diverges /\ fst (Marshal D v s) <> Diverges /\
  fst (Unmarshal D b v s) <> Diverges /\ fst (Unmarshal D b v s) <> Panics Bounds.
Proof.
  intros Hr Hv Hs. destruct (reachable_AI s Hr) as [G HA].
  destruct v as [| | |k p]; try (repeat split; try discriminate; unfold Unmarshal; destruct (zlen b =? 0); discriminate).
  pose proof (info_any k G s Hv HA) as T. destruct (run (cachedStructInfoOf D (walk_fuel D) k) s) as [[i| |] s'] eqn:E; [| |contradiction].
  - destruct T as (G' & A' & _ & L & C). split; [|split].
    + cbn [Size]. unfold with_info. rewrite E. cbn [fst]. destruct (info_size _ _ _); discriminate.
    + cbn [Marshal]. unfold with_info. rewrite E. cbn [fst]. destruct (info_size _ _ _); [cbn [rbind]; destruct (info_encode _ _ _ _)|]; discriminate.
    + destruct p as [x|]; [|unfold Unmarshal; destruct (zlen b =? 0); split; discriminate].
      rewrite (unmarshal_run s i s' k b x E Hs).
      assert (R : ready k i s') by (split; [eauto|auto]). pose proof (hdecode_answers k i s' b x R Hs) as P.
      pose proof (proj2 (no_bounds (hlook s') (higet s') D (decode_fuel D b)) i b x Hs) as P2. fold (hdecode s' i b x) in P2.
      destruct (hdecode s' i b x); cbn [unm]; split; congruence.
  - split; [|split].
    + cbn [Size]. unfold with_info. rewrite E. discriminate.
    + cbn [Marshal]. unfold with_info. rewrite E. discriminate.
    + unfold Unmarshal. destruct (zlen b =? 0); [split; discriminate|]. destruct p; [|split; discriminate]. unfold with_info. rewrite E. split; discriminate.
Qed.

(** Decoding in a later state. *)
Lemma hdecode_later k i s s' b x : ready k i s -> ext s s' -> small b -> hdecode s' i b x = hdecode s i b x.
Proof.
  intros ([G HA] & L & _) X Hs. destruct (same_codecs G s s' HA X i L) as (_ & _ & Q). unfold hdecode. rewrite <- !decs_ldecs by assumption. rewrite Q. reflexivity.
Qed.
Lemma unmarshal_later k i s s' b x : ready k i s -> later D s s' -> small b -> fst (Unmarshal D b (IPtr k (Some x)) s') = unm k (hdecode s i b x).
Proof.
  intros R Hl Hs. destruct (later_ready k i s s' R Hl) as [R' X]. rewrite (unmarshal_ready k i s' b x R' Hs). f_equal. eapply hdecode_later; eassumption.
Qed.

(** ** C14 *)
Lemma unm_ok k r x : unm k r = Returns (IPtr k (Some x), None) -> r = LOk x.
Proof. destruct r; cbn; intros H; inversion H; reflexivity. Qed.
Lemma unm_err k r x e : unm k r = Returns (IPtr k (Some x), Some e) -> r = LErr x e.
Proof. destruct r; cbn; intros H; inversion H; reflexivity. Qed.
Lemma hdecode_app k i s a b x x1 : ready k i s -> small (a ++ b) -> hdecode s i a x = LOk x1 -> hdecode s i (a ++ b) x = hdecode s i b x1.
Proof.
  intros R Hs H. pose proof (small_app_l a b Hs) as Sa. pose proof (small_app_r a b Hs) as Sb.
  eapply hdecode_any; [exact R|exact Hs| |apply (hdecode_answers k i s b x1 R Sb)].
  eapply ldecs_app; [exact Sa|exact H|reflexivity|apply (hdecode_answers k i s b x1 R Sb)].
Qed.
Lemma concat_all_proof s s0 s1 s2 s3 k a b x x1 : reachable D s -> user_key D k = true -> used D k s s0 ->
  later D s0 s1 -> later D s0 s2 -> later D s0 s3 -> zlen (a ++ b) < Z63 ->
  fst (Unmarshal D a (IPtr k (Some x)) s1) = Returns (IPtr k (Some x1), None) ->
  fst (Unmarshal D (a ++ b) (IPtr k (Some x)) s2) = fst (Unmarshal D b (IPtr k (Some x1)) s3).
Proof.
  intros Hr Hk Hu L1 L2 L3 Hs H. destruct (used_ready k s s0 Hr Hk Hu) as (i & _ & R).
  pose proof (small_app_l a b Hs) as Sa. pose proof (small_app_r a b Hs) as Sb.
  rewrite (unmarshal_later k i s0 s1 a x R L1 Sa) in H. apply unm_ok in H.
  rewrite (unmarshal_later k i s0 s2 (a ++ b) x R L2 Hs), (unmarshal_later k i s0 s3 b x1 R L3 Sb). f_equal.
  eapply hdecode_app; eassumption.
Qed.

(** ** C13 *)
Lemma truncation_all_proof s s0 s1 s2 s3 k p q x x' : reachable D s -> user_key D k = true -> used D k s s0 ->
  later D s0 s1 -> later D s0 s2 -> later D s0 s3 -> zlen (p ++ q) < Z63 ->
  fst (Unmarshal D (p ++ q) (IPtr k (Some x)) s1) = Returns (IPtr k (Some x'), None) ->
  (exists x1, fst (Unmarshal D p (IPtr k (Some x)) s2) = Returns (IPtr k (Some x1), None) /\
              fst (Unmarshal D q (IPtr k (Some x1)) s3) = Returns (IPtr k (Some x'), None)) \/
  (exists x1 e, fst (Unmarshal D p (IPtr k (Some x)) s2) = Returns (IPtr k (Some x1), Some e) /\ err_cause e = ErrUnexpectedEOF).
Proof.
  intros Hr Hk Hu L1 L2 L3 Hs H. destruct (used_ready k s s0 Hr Hk Hu) as (i & _ & R).
  pose proof (small_app_l p q Hs) as Sa. pose proof (small_app_r p q Hs) as Sb.
  rewrite (unmarshal_later k i s0 s1 (p ++ q) x R L1 Hs) in H. apply unm_ok in H.
  rewrite (unmarshal_later k i s0 s2 p x R L2 Sa).
  destruct (ldecs_trunc _ _ _ _ _ _ _ _ _ Sa H) as [(x1 & A & B)|(x1 & e & A & B)].
  - left. exists x1. rewrite (hdecode_any k i s0 p x _ _ R Sa A) by discriminate. split; [reflexivity|].
    rewrite (unmarshal_later k i s0 s3 q x1 R L3 Sb). rewrite (hdecode_any k i s0 q x1 _ _ R Sb B) by discriminate. reflexivity.
  - right. exists x1, e. rewrite (hdecode_any k i s0 p x _ _ R Sa A) by discriminate. auto.
Qed.

(** The call may be the first one. *)
Lemma unmarshal_returns s k b x r : reachable D s -> user_key D k = true -> small b ->
  fst (Unmarshal D b (IPtr k (Some x)) s) = Returns r -> b <> [] ->
  exists i s1, ready k i s1 /\ unm k (hdecode s1 i b x) = Returns r.
Proof.
  intros Hr Hk Hs H Hb. destruct (Unmarshal D b (IPtr k (Some x)) s) as [a s1] eqn:E. cbn [fst] in H. subst a.
  destruct (used_ready k s s1 Hr Hk (used_unmarshal D k s s1 b x _ Hb E)) as (i & E1 & R). exists i, s1. split; [exact R|].
  rewrite <- (unmarshal_run s i s1 k b x E1 Hs), E. reflexivity.
Qed.

(** ** C18 *)
Lemma error_all_proof s k b x x' e : reachable D s -> user_key D k = true -> zlen b < Z63 ->
  fst (Unmarshal D b (IPtr k (Some x)) s) = Returns (IPtr k (Some x'), Some e) ->
  cause_ok e /\
  (e = ErrUnexpectedEOF \/ e = ErrVarintOverflow \/
   exists tag e', occurs b tag /\ e = UnmarshalFieldError (Z.of_N (tag / 8)) (Z.of_N (tag mod 8)) e').
Proof.
  intros Hr Hk Hs H. assert (Hb : b <> []) by (intros ->; discriminate).
  destruct (unmarshal_returns s k b x _ Hr Hk Hs H Hb) as (i & s1 & R & P). apply unm_err in P. unfold hdecode in P.
  split; [eapply (proj2 (err_causes (hlook s1) (higet s1) D (decode_fuel D b))); eassumption|].
  destruct (ldecs_err_pos _ _ _ _ _ _ _ _ _ Hs P) as (p & q & Eb & Q). destruct (read_varint q) as [v n r| |] eqn:Er; [|auto..].
  right. right. destruct Q as (e' & Q). exists v, e'. split; [exists p, q, n, r; auto|].
  rewrite Q. unfold fieldError. apply read_varint_ok in Er. destruct Er as [Hv _]. change (2^64)%N with 18446744073709551616%N in Hv.
  unfold s64. f_equal; destruct (_ <? _)%Z eqn:E2; unfold Z63, Z64 in *; lia.
Qed.

(** ** C31 *)
Lemma grow_all_proof s k b x x' e : reachable D s -> user_key D k = true -> zlen b < Z63 ->
  fst (Unmarshal D b (IPtr k (Some x)) s) = Returns (IPtr k (Some x'), e) ->
  forall j nn items spare, get_field x j = Some (VSlice nn items spare) ->
  exists nn' more spare', get_field x' j = Some (VSlice nn' (items ++ more) spare').
Proof.
  intros Hr Hk Hs H j nn items spare Hj. destruct b as [|c0 b0] eqn:Eb.
  { inversion H; subst. exists nn, [], spare. rewrite app_nil_r. exact Hj. }
  rewrite <- Eb in *. assert (Hb : b <> []) by (rewrite Eb; discriminate). clear Eb.
  destruct (unmarshal_returns s k b x _ Hr Hk Hs H Hb) as (i & s1 & R & P).
  assert (Q : lval (hdecode s1 i b x) = Some x') by (destruct (hdecode s1 i b x); inversion P; subst; reflexivity).
  apply ldecs_untouched in Q. destruct (proj2 Q j _ Hj) as (y' & A & (nn' & more & sp' & ->)). eauto.
Qed.
End Any.

(** ** In terms of a schema *)
Section Tags.
Variable D : decls.
Variable sch : schema.
Hypothesis HI : implements D sch = true.
Hypothesis HS : schema_ok sch = true.

Lemma listing_tags gs : forall fs i, implements_msg gs fs = true -> nums_ok fs = true ->
  listing i gs = map (fun p => (fst p, meta_of (snd p))) (spec_tags i fs).
Proof.
  induction gs as [|g gs IH]; intros [|f fs] i; cbn [implements_msg listing spec_tags]; try discriminate; [reflexivity|].
  intros Hi Hn. apply andb_true_iff in Hi. destruct Hi as [Hf Hi].
  destruct f as [t|n f]; cbn [implements_field] in Hf.
  - destruct (gf_exported g), (gf_tag g); try (rewrite andb_false_r in Hf; discriminate); apply IH; assumption.
  - unfold nums_ok in Hn. cbn [numbers forallb] in Hn. apply andb_true_iff in Hn. destruct Hn as [Hn Hns].
    apply andb_true_iff in Hn. destruct Hn as [_ Hn]. apply num_61 in Hn. destruct Hn as [Hn Hn'].
    apply andb_true_iff in Hf. destruct Hf as [Hf _]. apply andb_true_iff in Hf. destruct Hf as [Hf Ht].
    apply andb_true_iff in Hf. destruct Hf as [He _]. rewrite He.
    destruct (gf_tag g) as [tag|]; [|discriminate].
    rewrite (tag_is_parse _ _ _ _ _ _ (kind_fty_in f) Hn Ht). cbn [map fst snd].
    rewrite (tag_wiretag_of _ _ _ _ f eq_refl Hn'). f_equal. apply IH; assumption.
Qed.
Lemma ready_tags m i s : ready D (SNamed m) i s -> (m < length D)%nat ->
  map (fun f => (f_idx f, f_meta f)) (i_fields (higet s i)) = map (fun p => (fst p, meta_of (snd p))) (spec_tags 0 (msg sch m)) /\
  i_index (higet s i) = i_fields (higet s i).
Proof.
  intros ([G HA] & _ & C) Hm. apply assoc_In in C. destruct (a_info _ _ _ HA _ _ C) as (_ & T & X). split; [|exact X].
  unfold lists in T. rewrite T. cbn [struct_fields]. pose proof (implements_nth D sch HI m) as H.
  destruct (nth_error D m) as [gs|] eqn:E, (nth_error sch m) as [fs|] eqn:E2; try contradiction; [|apply nth_error_None in E; lia].
  pose proof (schema_ok_msg sch HS m) as (A & _). rewrite (msg_nth sch _ _ E2) in *. apply listing_tags; assumption.
Qed.
Lemma ready_lookup m i s n : ready D (SNamed m) i s -> (m < length D)%nat ->
  match lookup_field (higet s i) n, find_field 0 (msg sch m) n with
  | None, None => True
  | Some f, Some (j, t) => f_idx f = j /\ wireType f = wire_fty t
  | _, _ => False
  end.
Proof.
  intros R Hm. destruct (ready_tags m i s R Hm) as [T X]. unfold lookup_field. rewrite X.
  pose proof (schema_ok_msg sch HS m) as (A & B & _). apply lookup_tags; assumption.
Qed.

(** ** C15 *)
Lemma unknown_all_proof s s0 s1 s2 s3 m a r b x x1 tag k r1 p : (m < length D)%nat ->
  reachable D s -> used D (SNamed m) s s0 -> later D s0 s1 -> later D s0 s2 -> later D s0 s3 -> zlen (a ++ r ++ b) < Z63 ->
  fst (Unmarshal D a (IPtr (SNamed m) (Some x)) s1) = Returns (IPtr (SNamed m) (Some x1), None) ->
  read_varint r = VOk tag k r1 -> read_payload (tag mod 8) r1 = Some (p, []) -> ~ In (tag / 8)%N (numbers (msg sch m)) ->
  fst (Unmarshal D (a ++ r ++ b) (IPtr (SNamed m) (Some x)) s2) = fst (Unmarshal D (a ++ b) (IPtr (SNamed m) (Some x)) s3).
Proof.
  intros Hm Hr0 Hu L1 L2 L3 Hs Ha Hr Hp Hn.
  assert (Hk : user_key D (SNamed m) = true) by (apply Nat.ltb_lt; exact Hm).
  destruct (used_ready D (SNamed m) s s0 Hr0 Hk Hu) as (i & _ & R).
  assert (Sab : small (a ++ b)) by (unfold small, zlen in *; rewrite !app_length in *; lia).
  assert (Srb : small (r ++ b)) by (unfold small, zlen in *; rewrite !app_length in *; lia).
  assert (Sb : small b) by (unfold small, zlen in *; rewrite !app_length in *; lia).
  assert (Sa : small a) by (unfold small, zlen in *; rewrite !app_length in *; lia).
  rewrite (unmarshal_later D _ i s0 s1 a x R L1 Sa) in Ha. apply unm_ok in Ha.
  rewrite (unmarshal_later D _ i s0 s2 (a ++ r ++ b) x R L2 Hs), (unmarshal_later D _ i s0 s3 (a ++ b) x R L3 Sab). f_equal.
  rewrite (hdecode_app D _ i s0 a (r ++ b) x x1 R Hs Ha), (hdecode_app D _ i s0 a b x x1 R Sab Ha).
  eapply hdecode_any; [exact R|exact Srb| |apply (hdecode_answers D _ i s0 b x1 R Sb)].
  pose proof (read_payload_len (tag mod 8) r1) as L. destruct (payload_len (tag mod 8) r1) as [len|e] eqn:El; [|congruence].
  destruct L as (p' & L & Ll). rewrite L in Hp. inversion Hp as [[E1 E2]].
  assert (Elen : len = length r1). { apply (f_equal (@length N)) in E2. rewrite skipn_length in E2. cbn in E2. lia. }
  pose proof (read_varint_ok _ _ _ _ Hr) as (_ & _ & Er & _ & _).
  unfold hdecode at 1. eapply (ldecs_unknown (hlook s0) (higet s0) D (decode_fuel D b) i tag len k).
  - pose proof (ready_lookup m i s0 (tag / 8) R Hm) as Q. rewrite (find_field_none _ _ _ Hn) in Q. destruct (lookup_field _ _); [contradiction|reflexivity].
  - rewrite Er. apply read_varint_app. exact Hr.
  - rewrite Er. apply payload_len_app. exact El.
  - rewrite Er. exact Elen.
Qed.

(** ** C16 *)
Lemma mismatch_all_proof s s0 s1 s2 m a b x x1 tag k r j f : (m < length D)%nat ->
  reachable D s -> used D (SNamed m) s s0 -> later D s0 s1 -> later D s0 s2 -> zlen (a ++ b) < Z63 ->
  fst (Unmarshal D a (IPtr (SNamed m) (Some x)) s1) = Returns (IPtr (SNamed m) (Some x1), None) ->
  read_varint b = VOk tag k r -> nth_error (msg sch m) j = Some (Field (tag / 8) f) -> (tag mod 8)%N <> wire_fty f ->
  fst (Unmarshal D (a ++ b) (IPtr (SNamed m) (Some x)) s2) =
  Returns (IPtr (SNamed m) (Some x1), Some (UnmarshalFieldError (Z.of_N (tag / 8)) (Z.of_N (tag mod 8)) (ErrExpectedWireType (wire_fty f)))).
Proof.
  intros Hm Hr0 Hu L1 L2 Hs Ha Hr Hj Hw.
  assert (Hk : user_key D (SNamed m) = true) by (apply Nat.ltb_lt; exact Hm).
  destruct (used_ready D (SNamed m) s s0 Hr0 Hk Hu) as (i & _ & R).
  pose proof (small_app_l a b Hs) as Sa. pose proof (small_app_r a b Hs) as Sb.
  rewrite (unmarshal_later D _ i s0 s1 a x R L1 Sa) in Ha. apply unm_ok in Ha.
  rewrite (unmarshal_later D _ i s0 s2 (a ++ b) x R L2 Hs), (hdecode_app D _ i s0 a b x x1 R Hs Ha).
  assert (E : hdecode D s0 i b x1 = LErr x1 (fieldError (tag / 8)%N (tag mod 8)%N (ErrExpectedWireType (wire_fty f)))).
  { apply hdecode_any with (k := SNamed m) (f := 1%nat); try assumption; [|discriminate]. cbn [ldecs].
    destruct b as [|c0 b0] eqn:Eb; [apply read_varint_ok in Hr; cbn in Hr; lia|]. rewrite <- Eb in *.
    unfold lstep. rewrite Hr.
    pose proof (ready_lookup m i s0 (tag / 8) R Hm) as Q. pose proof (schema_ok_msg sch HS m) as (_ & Nd & _).
    assert (F : exists j', find_field 0 (msg sch m) (tag / 8) = Some (j', f)).
    { clear - Hj Nd. revert j Hj Nd. generalize 0%nat as i. induction (msg sch m) as [|[t|n' f'] fs IH]; intros i [|j] Hj Nd; cbn in *; try discriminate.
      - eapply IH; eassumption.
      - inversion Hj; subst. rewrite N.eqb_refl. eauto.
      - apply andb_true_iff in Nd. destruct Nd as [Nd1 Nd]. destruct (N.eqb_spec n' (tag / 8)); [|eapply IH; eassumption].
        exfalso. apply nodup_not_in in Nd1. apply Nd1. subst n'. clear - Hj. revert j Hj.
        induction fs as [|[t|n2 f2] fs IH]; intros [|j] Hj; cbn in *; try discriminate; [eauto|inversion Hj; auto|eauto]. }
    destruct F as (j' & F). rewrite F in Q. destruct (lookup_field _ _) as [fd|]; [|contradiction]. destruct Q as [_ ->].
    destruct (N.eqb_spec (tag mod 8) (wire_fty f)); [contradiction|]. reflexivity. }
  rewrite E. cbn [unm]. unfold fieldError. apply read_varint_ok in Hr. destruct Hr as [Hv _]. change (2^64)%N with 18446744073709551616%N in Hv.
  unfold s64. do 4 f_equal; destruct (_ <? _)%Z eqn:E2; unfold Z63, Z64 in *; lia.
Qed.

(** ** C17 *)
Lemma untouched_all_proof s m b x x' e : reachable D s -> (m < length D)%nat -> zlen b < Z63 ->
  fst (Unmarshal D b (IPtr (SNamed m) (Some x)) s) = Returns (IPtr (SNamed m) (Some x'), e) ->
  forall j, match nth_error (msg sch m) j with Some (Field n _) => forall tag, occurs b tag -> (tag / 8)%N <> n | _ => True end ->
            get_field x' j = get_field x j.
Proof.
  intros Hr Hm Hs H j Hj. assert (Hk : user_key D (SNamed m) = true) by (apply Nat.ltb_lt; exact Hm).
  destruct b as [|c0 b0] eqn:Eb; [inversion H; reflexivity|].
  rewrite <- Eb in *. assert (Hb : b <> []) by (rewrite Eb; discriminate). clear Eb.
  destruct (unmarshal_returns D s (SNamed m) b x _ Hr Hk Hs H Hb) as (i & s1 & R & P).
  assert (Q : lval (hdecode D s1 i b x) = Some x') by (destruct (hdecode D s1 i b x); inversion P; subst; reflexivity).
  apply ldecs_untouched in Q. apply (proj1 Q).
  intros tag fd Ho Hl Ej. pose proof (ready_lookup m i s1 (tag / 8) R Hm) as L. rewrite Hl in L.
  destruct (find_field 0 (msg sch m) (tag / 8)) as [[j' t]|] eqn:F; [|contradiction]. destruct L as [L _].
  apply find_field_in in F. destruct F as [_ F]. rewrite Nat.sub_0_r in F.
  rewrite <- L, Ej in F. rewrite F in Hj. eapply Hj; [exact Ho|reflexivity].
Qed.

(** ** C41 *)
Lemma walk_all_proof s m i s' : reachable D s -> (m < length D)%nat ->
  run (cachedStructInfoOf D (walk_fuel D) (SNamed m)) s = (Done i, s') ->
  map (fun f => (f_idx f, wiretag (f_meta f))) (i_fields (higet s' i)) = declared 0 (msg sch m).
Proof.
  intros Hr Hm E. assert (Hk : user_key D (SNamed m) = true) by (apply Nat.ltb_lt; exact Hm).
  destruct (reachable_AI D s Hr) as [G HA]. pose proof (info_any D (SNamed m) G s Hk HA) as T. rewrite E in T.
  destruct T as (G' & A1 & _ & L & C). destruct (ready_tags m i s') as [T _]; [split; [eauto|auto]|exact Hm|].
  apply (f_equal (map (fun p => (fst p, wiretag (snd p))))) in T. rewrite !map_map in T. cbn [fst snd] in T. rewrite T. clear.
  generalize 0%nat as j. induction (msg sch m) as [|[t|n f] fs IH]; intros j; cbn; f_equal; auto.
Qed.
End Tags.
