(** The same for fields with presence. *)
From Coq Require Import ZifyBool ZifyNat ZifyN.
From Verif Require Import Base Wire GoType Leaf Codec Tag Walker Api Resolve Typing SpecWire SpecTag SpecMsg SpecExact SpecVersions SpecJoin SpecAbsorb SpecEvolve SpecTight
  SpecLib WireFacts MsgDec WalkSeq MsgApi ProtoGen SpecProto ProtoFacts ProtoThms AbsorbThms RefuteMsg EvolveThms MsgRound TightThms.
From Verif Require Import SpecVersions SpecProto.
Local Open Scope Z_scope.

(** What has arrived in an optional field. *)
Definition arrived_optional (k : pkind) (v w : val) : bool :=
  match held v, held w with Some x, Some y => arrived k x y | None, None => true | _, _ => false end.
Definition optD (k : pkind) : decls := generate (sole_optional k).
Definition optS (k : pkind) : schema := schema_of (sole_optional k).
Definition optional_of (k : pkind) (v : val) : val := match k with BytesKind => v | _ => VOpt true v end.
Definition after_it (k : pkind) : list val := match zeros (msg (optS k) 0) with _ :: r => r | [] => [] end.
Definition fails (k k' : pkind) (v : val) : bool :=
  wts (optD k) (VStruct (v :: after_it k)) (SNamed 0) && (zlen (ser (message (optS k) (v :: after_it k) (msg (optS k) 0))) <? 2^63) &&
  match fst (Marshal (optD k) (ptr 0 (v :: after_it k)) g_empty) with
  | Returns (Some b, None) =>
    match fst (Unmarshal (optD k') b (ptr 0 (zeros (msg (optS k') 0))) g_empty) with
    | Returns (IPtr _ (Some (VStruct (w :: _))), None) => negb (arrived_optional k' v w)
    | _ => true
    end
  | _ => true
  end.
Lemma others_fail : forallb (fun k => forallb (fun k' => kind_compatible k k' || existsb (fails k k') (map (optional_of k) (tries k))) scalar_kinds) scalar_kinds = true.
Proof. vm_compute. reflexivity. Qed.
Definition gets_there (k k' : pkind) : Prop := forall s s' v vs, reachable (optD k) s -> reachable (optD k') s' ->
  wts (optD k) (VStruct (v :: vs)) (SNamed 0) = true -> zlen (ser (message (optS k) (v :: vs) (msg (optS k) 0))) < 2^63 ->
  exists b w ws, fst (Marshal (optD k) (ptr 0 (v :: vs)) s) = Returns (Some b, None) /\
    fst (Unmarshal (optD k') b (ptr 0 (zeros (msg (optS k') 0))) s') = Returns (ptr 0 (w :: ws), None) /\ arrived_optional k' v w = true.
Lemma gets_only k k' : scalar_kind k = true -> scalar_kind k' = true -> gets_there k k' -> kind_compatible k k' = true.
Proof.
  intros P P' R. pose proof others_fail as O. rewrite forallb_forall in O. specialize (O k (scalar_in k P)). rewrite forallb_forall in O. specialize (O k' (scalar_in k' P')).
  apply orb_true_iff in O. destruct O as [O|O]; [exact O|]. exfalso. apply existsb_exists in O. destruct O as (v & _ & B).
  unfold fails in B. apply andb_true_iff in B. destruct B as [B B3]. apply andb_true_iff in B. destruct B as [B1 B2]. apply Z.ltb_lt in B2.
  destruct (R g_empty g_empty v (after_it k) (reach_init _) (reach_init _) B1 B2) as (b & w & ws & M & U & A).
  rewrite M, U in B3. cbn in B3. rewrite A in B3. discriminate B3.
Qed.
Definition opt_field (k : pkind) : fty := match k with BytesKind => FBytes | k => match scalar_of k with Some s => FOptional s | None => FBytes end end.
Lemma opt_msg k : plain_kind k = true -> exists fs, msg (optS k) 0 = Field 1 (opt_field k) :: fs /\ Forall (fun f => f = Hidden TOther) fs.
Proof. destruct k; intros H; try discriminate H; (eexists; split; [vm_compute; reflexivity|repeat constructor]). Qed.
Lemma opt_covered k : plain_kind k = true -> covered (sole_optional k) = true.
Proof. destruct k; intros H; try discriminate H; vm_compute; reflexivity. Qed.
Lemma opt_evolves k k' : plain_kind k = true -> may_become k k' = true -> evolves Nat.eqb (sole_optional k) (sole_optional k').
Proof.
  intros P H m m' d d' E N N' a b Ia Ib _. apply Nat.eqb_eq in E. subst m'. destruct m as [|m]; [|destruct m; discriminate N].
  injection N as <-. injection N' as <-. cbn in Ia, Ib. destruct Ia as [<-|[]], Ib as [<-|[]].
  unfold field_may_become, map_parts, may_hold. cbn. destruct k; try discriminate P; exact H.
Qed.
Lemma opt_value k v vs : plain_kind k = true -> wts (optD k) (VStruct (v :: vs)) (SNamed 0) = true -> wt (optD k) v (go_type (opt_field k)) = true.
Proof.
  intros P W. destruct (wts_msg _ _ _ W) as [_ W']. replace (field_types (optD k) 0) with (go_type (opt_field k) :: tl (field_types (optD k) 0)) in W'
    by (destruct k; try discriminate P; vm_compute; reflexivity).
  cbn [all2] in W'. apply andb_true_iff in W'. apply W'.
Qed.
Lemma opt_zeros k : plain_kind k = true ->
  wts (optD k) (VStruct (zeros (msg (optS k) 0))) (SNamed 0) = true /\ forallb fresh (zeros (msg (optS k) 0)) = true /\ forallb tidy (zeros (msg (optS k) 0)) = true.
Proof. destruct k; intros H; try discriminate H; vm_compute; repeat split. Qed.
Lemma opt_form k v : plain_kind k = true -> wt (optD k) v (go_type (opt_field k)) = true ->
  (exists p x, v = VOpt p x /\ k <> BytesKind /\ wt (optD k) x (go_type (field_of k)) = true) \/ k = BytesKind /\ exists o, v = VBytes o.
Proof.
  intros P W. destruct k; try discriminate P; cbn [opt_field scalar_of go_type go_kind] in W; EncFacts.wtd v;
    try (left; eexists _, _; split; [reflexivity|]; split; [discriminate|]; exact W); right; (split; [reflexivity|]); eexists; reflexivity.
Qed.
Lemma held_shown w w0 : shown w = norm w0 -> match w0 with VOpt _ _ | VBytes _ => True | _ => False end -> held w = held w0.
Proof.
  intros E H. destruct w0 as [| | | | | | | |o|[] x| | | | |]; try destruct H; cbn [norm] in E; destruct w as [| | | | | | | |o'|[] y| |[?|]|[?|]| |]; cbn [shown] in E; try discriminate E;
    try (injection E as ->); reflexivity.
Qed.
Lemma opt_takes k k' v : plain_kind k = true -> may_become k k' = true -> wt (optD k) v (go_type (opt_field k)) = true ->
  let w0 := takes_in (opt_field k') (zero (go_type (opt_field k'))) (sends (opt_field k) v) in
  arrived_optional k' v w0 = true /\ match w0 with VOpt _ _ | VBytes _ => True | _ => False end.
Proof.
  intros P H W. destruct (opt_form k v P W) as [(p & x & -> & NB & Wx)|(-> & o & ->)].
  - destruct p.
    + pose proof (plain_value k x P) as V. 
      assert (V' : match x with VBool _ | VI32 _ | VI64 _ | VU32 _ | VU64 _ | VF32 _ | VF64 _ | VStr _ => True | _ => False end).
      { clear - P NB Wx. destruct k; try discriminate P; try (destruct NB; reflexivity); cbn [field_of scalar_of go_type go_kind] in Wx; EncFacts.wtd x; exact Logic.I. }
      clear V W. destruct k; try discriminate P; try (destruct NB; reflexivity); destruct k'; try discriminate H; cbn [field_of scalar_of go_type go_kind] in Wx;
        destruct x as [q|z|z|n|n|n|n|b|[b|]|? ?|? ? ?|?|?|?|?]; try discriminate Wx; try destruct V';
        cbn [opt_field scalar_of sends takes_in gets last_of become number]; (split; [|exact Logic.I]); cbn [arrived_optional held];
        try (destruct q; reflexivity);
        first [ apply num_same | (apply num_i32; cbn; tauto) | apply num_i64 | apply num_u32 | apply num_u64 | apply text_same | (cbn [arrived content_of]; apply N.eqb_refl) ].
    + destruct k; try discriminate P; try (destruct NB; reflexivity); destruct k'; try discriminate H; split; reflexivity || exact Logic.I.
  - destruct k'; try discriminate H; destruct o as [b|]; (split; [|exact Logic.I]); try reflexivity; cbn; apply text_same.
Qed.
Lemma opt_become k k' : plain_kind k = true -> may_become k k' = true -> gets_there k k'.
Proof.
  intros P H s s' v vs Hr Hr' W L. pose proof (may_plain _ _ P H) as P'. pose proof (opt_value k v vs P W) as Wv.
  destruct (opt_zeros k' P') as (Z1 & Z2 & Z3). pose proof (opt_form k v P Wv) as V.
  destruct (absorb_proof (optD k) (optS k) (optD k') (optS k') Nat.eqb (generated_covers _ (opt_covered k P)) (generated_covers _ (opt_covered k' P'))
    (evolves_accepted _ _ _ (opt_evolves k k' P H)) s s' 0%nat 0%nat _ (v :: vs) eq_refl Hr Hr' Z1 Z2 Z3 W) as (b & zs & M & U & N & _); [|exact L|].
  - destruct (opt_msg k P) as (fs & -> & Hfs). cbn [encodable_msg].
    apply andb_true_iff. split; [|clear - Hfs; revert vs; induction Hfs as [|f fs -> _ IH]; intros [|x vs]; try reflexivity; apply IH].
    destruct V as [(p & x & -> & _)|(-> & o & ->)]; [|reflexivity]. destruct k; try discriminate P; destruct p; reflexivity.
  - exists b. destruct (opt_msg k P) as (fs & E & _). destruct (opt_msg k' P') as (fs' & E' & _). rewrite E, E' in N. cbn [zeros map fld_type absorb_msg sent] in N.
    rewrite N.eqb_refl in N. destruct zs as [|w ws]; [discriminate N|]. cbn [map] in N. injection N as Nw _. exists w, ws. split; [exact M|]. split; [exact U|].
    assert (Ea : absorb (optS k) (optS k') (zero (go_type (opt_field k'))) v (opt_field k) (opt_field k') =
      takes_in (opt_field k') (zero (go_type (opt_field k'))) (sends (opt_field k) v)).
    { destruct V as [(p & x & -> & _)|(-> & o & ->)]; [|reflexivity]. destruct k; try discriminate P; reflexivity. }
    rewrite Ea in Nw. destruct (opt_takes k k' v P H Wv) as [A F]. unfold arrived_optional. rewrite (held_shown w _ Nw F). exact A.
Qed.
(** From sint64 to sint32. *)
Lemma opt_written p z vs : ser (message (optS Sint64Kind) (VOpt p (VI64 z) :: vs) (msg (optS Sint64Kind) 0)) = if p then 8%N :: vint (zigzag z) else [].
Proof.
  replace (msg (optS Sint64Kind) 0) with [Field 1 (FOptional Y_sint64); Hidden TOther] by (vm_compute; reflexivity).
  assert (E : message (optS Sint64Kind) vs [Hidden TOther] = []) by (destruct vs as [|? []]; reflexivity).
  cbn [message]. rewrite E. unfold ser. destruct p; cbn -[vint]; [rewrite app_nil_r|]; reflexivity.
Qed.
Lemma opt_read n : (n < 2^64)%N ->
  merge_lib (optS Sint32Kind) (S (length (8%N :: vint n))) (msg (optS Sint32Kind) 0) (zeros (msg (optS Sint32Kind) 0)) (8%N :: vint n) = MOk [VOpt true (VI32 (s32 (unzigzag n))); VOther 0].
Proof.
  intros H. replace (msg (optS Sint32Kind) 0) with [Field 1 (FOptional Y_sint32); Hidden TOther] by (vm_compute; reflexivity).
  change (S (length (8%N :: vint n))) with (S (S (length (vint n)))). cbn [merge_lib].
  replace (read_varint (8%N :: vint n)) with (VOk 8 1 (vint n))
    by (symmetry; change (8%N :: vint n) with (vint 8 ++ vint n); apply (read_varint_vint 8); reflexivity).
  change (8 mod 8)%N with 0%N. change (8/8)%N with 1%N. unfold read_payload.
  replace (read_varint (vint n)) with (VOk n (length (vint n)) [])
    by (symmetry; rewrite <- (app_nil_r (vint n)) at 1; apply read_varint_vint; assumption).
  cbn [N.eqb]. cbn -[vint N.pow Z.pow N.modulo Z.modulo s32].
  destruct (signed_range (unzigzag n)) as [R ->]. rewrite N.mod_small by (apply zz_low, R). rewrite zz_unzz by exact R. reflexivity.
Qed.
Lemma held_norm w w0 : norm w = norm w0 -> match w0 with VOpt _ _ => True | _ => False end -> held w = held w0.
Proof.
  intros E H. destruct w0 as [| | | | | | | |o|[] x| | | | |]; try destruct H; cbn [norm] in E; destruct w as [| | | | | | | |o'|[] y| |[[|]|]|[?|]| |]; cbn [norm] in E; try discriminate E;
    try (injection E as ->); reflexivity.
Qed.
Lemma opt_narrow : gets_there Sint64Kind Sint32Kind.
Proof.
  intros s s' v vs Hr Hr' W L. assert (Wv : wt (optD Sint64Kind) v (TOption KInt64) = true) by exact (opt_value Sint64Kind v vs eq_refl W).
  assert (exists p z, v = VOpt p (VI64 z) /\ - 2^63 <= z < 2^63) as (p & z & -> & Hz).
  { EncFacts.wtd v. cbn [wt] in Wv. EncFacts.wtd v. cbn [wt] in Wv. exists some, z. split; [reflexivity|]. unfold in_i64, Z63 in Wv. change (2^63) with 9223372036854775808 in *. lia. }
  destruct (opt_zeros Sint32Kind eq_refl) as (Z1 & Z2 & Z3).
  assert (Ev : encodable_msg (optS Sint64Kind) (VOpt p (VI64 z) :: vs) (msg (optS Sint64Kind) 0) = true).
  { destruct vs as [|? []]; destruct p; reflexivity. }
  destruct (generated_wire_proof _ (opt_covered Sint64Kind eq_refl) s 0%nat _ Hr W Ev L) as [_ M].
  rewrite opt_written in M, L.
  assert (Zz : (zigzag z < 2^64)%N) by (unfold zigzag; change (2^64)%N with 18446744073709551616%N; change (2^63) with 9223372036854775808 in Hz; destruct (z <? 0) eqn:E; lia).
  pose proof (generated_lib_proof _ (opt_covered Sint32Kind eq_refl) s' 0%nat _ _ (if p then 8%N :: vint (zigzag z) else []) Hr' Z1 Z2 eq_refl) as U.
  assert (B : bytes_okb (if p then 8%N :: vint (zigzag z) else []) = true).
  { destruct p; [|reflexivity]. apply TypingFacts.bytes_okb_ok. change (8%N :: vint (zigzag z)) with (vint 8 ++ vint (zigzag z)). apply Forall_app. split; apply vint_ok. }
  specialize (U B L). destruct p.
  - fold (optS Sint32Kind) in U. rewrite (opt_read _ Zz) in U. destruct U as (xs & U & N & _).
    destruct xs as [|w ws]; [discriminate N|]. cbn [map] in N. injection N as Nw _.
    eexists _, w, ws. split; [exact M|]. split; [exact U|]. unfold arrived_optional. rewrite (held_norm w (VOpt true (VI32 (s32 (unzigzag (zigzag z))))) Nw Logic.I).
    cbn [held]. rewrite unzigzag_zigzag, narrow_s32. apply (num_i32 Sint32Kind z). cbn; auto.
  - exists []. change (merge_lib _ _ _ _ _) with (MOk (zeros (msg (optS Sint32Kind) 0))) in U. destruct U as (xs & U & N & _).
    destruct xs as [|w ws]; [discriminate N|]. cbn [map] in N. injection N as Nw _.
    exists w, ws. split; [exact M|]. split; [exact U|]. unfold arrived_optional. rewrite (held_norm w (VOpt false (VI32 0)) Nw Logic.I). reflexivity.
Qed.
Lemma opt_exact k k' : scalar_kind k = true -> scalar_kind k' = true -> (kind_compatible k k' = true <-> gets_there k k').
Proof.
  intros P P'. split; [|apply gets_only; assumption]. intros H. unfold kind_compatible in H. destruct (may_become k k') eqn:E.
  - apply opt_become; [|exact E]. destruct k; try reflexivity; try discriminate P; discriminate E.
  - destruct k; try discriminate H; destruct k'; try discriminate H. exact opt_narrow.
Qed.
(** The same without [arrived_optional]. *)
Lemma arrived_parts k v w : arrived_optional k v w = true <->
  (held v = None <-> held w = None) /\ forall x y, held v = Some x -> held w = Some y -> arrived k x y = true.
Proof.
  unfold arrived_optional. destruct (held v) as [x|], (held w) as [y|]; split.
  - intros A. split; [split; discriminate|]. intros x' y' E E'. injection E as <-. injection E' as <-. exact A.
  - intros [_ A]. apply A; reflexivity.
  - discriminate.
  - intros [[_ A] _]. discriminate (A eq_refl).
  - discriminate.
  - intros [[A _] _]. discriminate (A eq_refl).
  - intros _. split; [tauto|]. discriminate.
  - reflexivity.
Qed.
Lemma optional_exact_proof k k' : scalar_kind k = true -> scalar_kind k' = true -> (kind_compatible k k' = true <->
  forall s s' v vs, reachable (optD k) s -> reachable (optD k') s' ->
  wts (optD k) (VStruct (v :: vs)) (SNamed 0) = true -> zlen (ser (message (optS k) (v :: vs) (msg (optS k) 0))) < 2^63 ->
  exists b w ws, fst (Marshal (optD k) (ptr 0 (v :: vs)) s) = Returns (Some b, None) /\
    fst (Unmarshal (optD k') b (ptr 0 (zeros (msg (optS k') 0))) s') = Returns (ptr 0 (w :: ws), None) /\
    (held v = None <-> held w = None) /\ forall x y, held v = Some x -> held w = Some y -> arrived k' x y = true).
Proof.
  intros P P'. rewrite (opt_exact k k' P P'). split; intros G s s' v vs Hr Hr' W L; destruct (G s s' v vs Hr Hr' W L) as (b & w & ws & M & U & A); exists b, w, ws;
    (split; [exact M|]; split; [exact U|]); apply arrived_parts; exact A.
Qed.
