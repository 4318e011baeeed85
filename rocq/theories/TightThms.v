(** Exactly the kinds of [kind_compatible] are. *)
From Coq Require Import ZifyBool ZifyNat ZifyN.
From Verif Require Import Base Wire GoType Leaf Codec Tag Walker Api Resolve Typing SpecWire SpecTag SpecMsg SpecExact SpecVersions SpecJoin SpecAbsorb SpecEvolve SpecTight
  SpecLib WireFacts MsgDec WalkSeq MsgApi ProtoGen SpecProto ProtoFacts ProtoThms AbsorbThms RefuteMsg EvolveThms MsgRound.
From Verif Require Import SpecVersions SpecProto.
Local Open Scope Z_scope.

Definition soleD (k : pkind) : decls := generate (sole k).
Definition soleS (k : pkind) : schema := schema_of (sole k).

(** The kinds that are written as protobuf says. *)
Definition plain_kind (k : pkind) : bool :=
  match k with Sfixed32Kind | Sfixed64Kind | MessageKind | GroupKind => false | _ => true end.
Definition scalar_kinds : list pkind :=
  [Sfixed32Kind; Sfixed64Kind; BoolKind; EnumKind; Int32Kind; Sint32Kind; Uint32Kind; Int64Kind; Sint64Kind; Uint64Kind; Fixed32Kind; FloatKind; Fixed64Kind; DoubleKind; StringKind; BytesKind].
Lemma scalar_in k : scalar_kind k = true -> In k scalar_kinds.
Proof. destruct k; intros H; try discriminate H; cbn; tauto. Qed.

(** Values with which other changes are noticed. *)
Definition tries (k : pkind) : list val :=
  match k with
  | BoolKind => [VBool true]
  | EnumKind | Int32Kind | Sint32Kind | Sfixed32Kind => [VI32 1; VI32 300]
  | Uint32Kind | Fixed32Kind => [VU32 1; VU32 300]
  | Int64Kind | Sint64Kind | Sfixed64Kind => [VI64 1; VI64 300; VI64 2147483648]
  | Uint64Kind | Fixed64Kind => [VU64 1; VU64 300]
  | FloatKind => [VF32 1065353216]
  | DoubleKind => [VF64 1065353216]
  | StringKind => [VStr [65%N]]
  | BytesKind => [VBytes (Some [65%N])]
  | _ => []
  end.
Definition rest (k : pkind) : list val := match zeros (msg (soleS k) 0) with _ :: r => r | [] => [] end.
Definition breaks (k k' : pkind) (v : val) : bool :=
  wts (soleD k) (VStruct (v :: rest k)) (SNamed 0) && (zlen (ser (message (soleS k) (v :: rest k) (msg (soleS k) 0))) <? 2^63) &&
  match fst (Marshal (soleD k) (ptr 0 (v :: rest k)) g_empty) with
  | Returns (Some b, None) =>
    match fst (Unmarshal (soleD k') b (ptr 0 (zeros (msg (soleS k') 0))) g_empty) with
    | Returns (IPtr _ (Some (VStruct (w :: _))), None) => negb (arrived k' v w)
    | _ => true
    end
  | _ => true
  end.
Lemma others_break : forallb (fun k => forallb (fun k' => kind_compatible k k' || existsb (breaks k k') (tries k)) scalar_kinds) scalar_kinds = true.
Proof. vm_compute. reflexivity. Qed.

Definition reaches (k k' : pkind) : Prop := forall s s' v vs, reachable (soleD k) s -> reachable (soleD k') s' ->
  wts (soleD k) (VStruct (v :: vs)) (SNamed 0) = true -> zlen (ser (message (soleS k) (v :: vs) (msg (soleS k) 0))) < 2^63 ->
  exists b w ws, fst (Marshal (soleD k) (ptr 0 (v :: vs)) s) = Returns (Some b, None) /\
    fst (Unmarshal (soleD k') b (ptr 0 (zeros (msg (soleS k') 0))) s') = Returns (ptr 0 (w :: ws), None) /\ arrived k' v w = true.
Lemma reaches_only k k' : scalar_kind k = true -> scalar_kind k' = true -> reaches k k' -> kind_compatible k k' = true.
Proof.
  intros P P' R. pose proof others_break as O. rewrite forallb_forall in O. specialize (O k (scalar_in k P)). rewrite forallb_forall in O. specialize (O k' (scalar_in k' P')).
  apply orb_true_iff in O. destruct O as [O|O]; [exact O|]. exfalso. apply existsb_exists in O. destruct O as (v & _ & B).
  unfold breaks in B. apply andb_true_iff in B. destruct B as [B B3]. apply andb_true_iff in B. destruct B as [B1 B2]. apply Z.ltb_lt in B2.
  destruct (R g_empty g_empty v (rest k) (reach_init _) (reach_init _) B1 B2) as (b & w & ws & M & U & A).
  rewrite M, U in B3. cbn in B3. rewrite A in B3. discriminate B3.
Qed.

(** Wrapping. *)
Lemma near32 a : (a - ((a + 2^31) mod 2^32 - 2^31)) mod 2^32 = 0.
Proof.
  change (2^31) with 2147483648. change (2^32) with 4294967296. pose proof (Z.div_mod (a + 2147483648) 4294967296 ltac:(lia)) as H.
  replace (a - ((a + 2147483648) mod 4294967296 - 2147483648)) with ((a + 2147483648) / 4294967296 * 4294967296) by lia. apply Z.mod_mul. lia.
Qed.
Lemma near64 a : (a - ((a + 2^63) mod 2^64 - 2^63)) mod 2^32 = 0.
Proof.
  change (2^63) with 9223372036854775808. change (2^64) with (4294967296 * 4294967296). change (2^32) with 4294967296.
  pose proof (Z.div_mod (a + 9223372036854775808) (4294967296 * 4294967296) ltac:(lia)) as H.
  replace (a - ((a + 9223372036854775808) mod (4294967296 * 4294967296) - 9223372036854775808)) with ((4294967296 * ((a + 9223372036854775808) / (4294967296 * 4294967296))) * 4294967296) by lia.
  apply Z.mod_mul. lia.
Qed.
Lemma nearu32 a : (a - a mod 2^32) mod 2^32 = 0.
Proof. change (2^32) with 4294967296. pose proof (Z.div_mod a 4294967296 ltac:(lia)). replace (a - a mod 4294967296) with (a / 4294967296 * 4294967296) by lia. apply Z.mod_mul. lia. Qed.
Lemma nearu64 a : (a - a mod 2^64) mod 2^32 = 0.
Proof.
  change (2^64) with (4294967296 * 4294967296). change (2^32) with 4294967296. pose proof (Z.div_mod a (4294967296 * 4294967296) ltac:(lia)).
  replace (a - a mod (4294967296 * 4294967296)) with ((4294967296 * (a / (4294967296 * 4294967296))) * 4294967296) by lia. apply Z.mod_mul. lia.
Qed.
Definition num_arrived (k : pkind) (a b : Z) : bool := ((a - b) mod 2^32 =? 0) && (negb (has_number k a) || (a =? b)).
Lemma num_same k a : num_arrived k a a = true.
Proof. unfold num_arrived. rewrite Z.sub_diag, (Z.eqb_refl a), orb_true_r. reflexivity. Qed.
Lemma num_i32 k a : In k [EnumKind; Int32Kind; Sint32Kind] -> num_arrived k a ((a + 2^31) mod 2^32 - 2^31) = true.
Proof.
  intros H. unfold num_arrived. rewrite near32. cbn [Z.eqb andb]. destruct (has_number k a) eqn:E; [|reflexivity]. cbn [negb orb]. apply Z.eqb_eq.
  assert (- 2^31 <= a < 2^31) by (repeat (destruct H as [<-|H]; [cbn [has_number] in E; lia|]); destruct H).
  rewrite Z.mod_small; [lia|]. change (2^32) with (2^31 + 2^31). lia.
Qed.
Lemma num_i64 a : num_arrived Int64Kind a ((a + 2^63) mod 2^64 - 2^63) = true.
Proof.
  unfold num_arrived. rewrite near64. cbn [Z.eqb andb]. destruct (has_number Int64Kind a) eqn:E; [|reflexivity]. cbn [negb orb]. apply Z.eqb_eq.
  cbn [has_number] in E. rewrite Z.mod_small; [lia|]. change (2^64) with (2^63 + 2^63). lia.
Qed.
Lemma num_u32 a : num_arrived Uint32Kind a (Z.of_N (Z.to_N (a mod 2^32))) = true.
Proof.
  rewrite Z2N.id by (apply Z.mod_pos_bound; reflexivity).
  unfold num_arrived. rewrite nearu32. cbn [Z.eqb andb]. destruct (has_number Uint32Kind a) eqn:E; [|reflexivity]. cbn [negb orb]. apply Z.eqb_eq.
  cbn [has_number] in E. rewrite Z.mod_small; lia.
Qed.
Lemma num_u64 a : num_arrived Uint64Kind a (Z.of_N (Z.to_N (a mod 2^64))) = true.
Proof.
  rewrite Z2N.id by (apply Z.mod_pos_bound; reflexivity).
  unfold num_arrived. rewrite nearu64. cbn [Z.eqb andb]. destruct (has_number Uint64Kind a) eqn:E; [|reflexivity]. cbn [negb orb]. apply Z.eqb_eq.
  cbn [has_number] in E. rewrite Z.mod_small; lia.
Qed.
Lemma text_same (b : list N) : (if list_eq_dec N.eq_dec b b then true else false) = true.
Proof. destruct (list_eq_dec N.eq_dec b b); congruence. Qed.

(** The field and what it takes. *)
Definition field_of (k : pkind) : fty := match k with BytesKind => FBytes | k => match scalar_of k with Some s => FImplicit s | None => FBytes end end.
Lemma sole_msg k : plain_kind k = true -> exists fs, msg (soleS k) 0 = Field 1 (field_of k) :: fs /\ Forall (fun f => f = Hidden TOther) fs.
Proof. destruct k; intros H; try discriminate H; (eexists; split; [vm_compute; reflexivity|repeat constructor]). Qed.
Lemma sole_covered k : plain_kind k = true -> covered (sole k) = true.
Proof. destruct k; intros H; try discriminate H; vm_compute; reflexivity. Qed.
Lemma sole_evolves k k' : plain_kind k = true -> may_become k k' = true -> evolves Nat.eqb (sole k) (sole k').
Proof.
  intros P H m m' d d' E N N' a b Ia Ib _. apply Nat.eqb_eq in E. subst m'. destruct m as [|m]; [|destruct m; discriminate N].
  injection N as <-. injection N' as <-. cbn in Ia, Ib. destruct Ia as [<-|[]], Ib as [<-|[]].
  unfold field_may_become, map_parts, may_hold. cbn. destruct k; try discriminate P; exact H.
Qed.
Lemma takes_arrived k k' v : plain_kind k = true -> may_become k k' = true -> wt (soleD k) v (go_type (field_of k)) = true ->
  arrived k' v (takes_in (field_of k') (zero (go_type (field_of k'))) (sends (field_of k) v)) = true.
Proof.
  intros P H W.
  assert (V : match v with VMap _ | VPtr _ => False | _ => True end).
  { destruct v as [| | | | | | | | | | |[?|]|[x|]| |]; try exact Logic.I; exfalso;
      (destruct k; try discriminate P; try discriminate W; destruct x; discriminate W). }
  destruct k; try discriminate P; destruct k'; try discriminate H; cbn [field_of scalar_of go_type go_kind] in W; 
    destruct v as [q|z|z|n|n|n|n|b|[b|]|? ?|? ? ?|?|?|?|?]; try discriminate W; try destruct V; cbn [field_of scalar_of sends is_zero takes_in gets last_of];
    try (destruct q); try (destruct (Z.eqb_spec z 0) as [->|Nz]); try (destruct (N.eqb_spec n 0) as [->|Nn]); try (destruct b as [|c b]); try reflexivity;
    cbn [takes_in gets last_of become number];
    first [ apply num_same | (apply num_i32; cbn; tauto) | apply num_i64 | apply num_u32 | apply num_u64 | apply text_same | (cbn [arrived content_of]; apply N.eqb_refl) ].
Qed.
Lemma shown_content w x : shown w = norm x -> match x with VOpt _ _ | VSlice _ _ _ | VMap _ | VPtr _ | VStruct _ | VOther _ => False | _ => True end -> w = x.
Proof.
  intros E H. destruct x as [| | | | | | | | | | | | | |]; try destruct H; cbn [norm] in E; destruct w as [| | | | | | | | | | |[?|]|[?|]| |]; try discriminate E; exact E.
Qed.
Lemma takes_plain k k' v : plain_kind k' = true -> may_become k k' = true -> 
  match v with VBool _ | VI32 _ | VI64 _ | VU32 _ | VU64 _ | VF32 _ | VF64 _ | VStr _ | VBytes _ => True | _ => False end ->
  match takes_in (field_of k') (zero (go_type (field_of k'))) (sends (field_of k) v) with
  | VOpt _ _ | VSlice _ _ _ | VMap _ | VPtr _ | VStruct _ | VOther _ => False | _ => True end.
Proof.
  intros P H V. assert (L : sends (field_of k) v = [] \/ exists x, sends (field_of k) v = [x] /\
    match x with VOpt _ _ | VSlice _ _ _ | VMap _ | VPtr _ | VStruct _ | VOther _ => False | _ => True end).
  { destruct k; destruct v as [| | | | | | | |[b|]| | | | | |]; try destruct V; cbn [field_of scalar_of sends]; auto;
      try match goal with |- context [is_zero ?x] => destruct (is_zero x) end; auto; right; eexists; (split; [reflexivity|exact Logic.I]). }
  destruct L as [->|(x & -> & Hx)]; destruct k'; try discriminate P; cbn [field_of scalar_of takes_in gets last_of become zero go_type go_kind]; try exact Logic.I; try exact Hx;
    destruct x; try exact Logic.I; destruct Hx.
Qed.
Lemma zeros_good k : plain_kind k = true ->
  wts (soleD k) (VStruct (zeros (msg (soleS k) 0))) (SNamed 0) = true /\ forallb fresh (zeros (msg (soleS k) 0)) = true /\ forallb tidy (zeros (msg (soleS k) 0)) = true.
Proof. destruct k; intros H; try discriminate H; vm_compute; repeat split. Qed.
Lemma sole_value k v vs : plain_kind k = true -> wts (soleD k) (VStruct (v :: vs)) (SNamed 0) = true -> wt (soleD k) v (go_type (field_of k)) = true.
Proof.
  intros P W. destruct (wts_msg _ _ _ W) as [_ W']. replace (field_types (soleD k) 0) with (go_type (field_of k) :: tl (field_types (soleD k) 0)) in W'
    by (destruct k; try discriminate P; vm_compute; reflexivity).
  cbn [all2] in W'. apply andb_true_iff in W'. apply W'.
Qed.
Lemma plain_value k v : plain_kind k = true -> wt (soleD k) v (go_type (field_of k)) = true ->
  match v with VBool _ | VI32 _ | VI64 _ | VU32 _ | VU64 _ | VF32 _ | VF64 _ | VStr _ | VBytes _ => True | _ => False end.
Proof. intros P W. destruct k; try discriminate P; cbn [field_of scalar_of go_type go_kind] in W; destruct v as [| | | | | | | | | | |[?|]|[[]|]| |]; try discriminate W; exact Logic.I. Qed.
Lemma may_plain k k' : plain_kind k = true -> may_become k k' = true -> plain_kind k' = true.
Proof. destruct k; intros P; try discriminate P; destruct k'; intros H; try discriminate H; reflexivity. Qed.
Lemma become_reaches k k' : plain_kind k = true -> may_become k k' = true -> reaches k k'.
Proof.
  intros P H s s' v vs Hr Hr' W L. pose proof (may_plain _ _ P H) as P'. pose proof (sole_value k v vs P W) as Wv.
  destruct (zeros_good k' P') as (Z1 & Z2 & Z3).
  destruct (absorb_proof (soleD k) (soleS k) (soleD k') (soleS k') Nat.eqb (generated_covers _ (sole_covered k P)) (generated_covers _ (sole_covered k' P'))
    (evolves_accepted _ _ _ (sole_evolves k k' P H)) s s' 0%nat 0%nat _ (v :: vs) eq_refl Hr Hr' Z1 Z2 Z3 W) as (b & zs & M & U & N & _); [|exact L|].
  - destruct (sole_msg k P) as (fs & -> & Hfs). pose proof (plain_value k v P Wv) as V. cbn [encodable_msg].
    apply andb_true_iff. split; [|clear - Hfs; revert vs; induction Hfs as [|f fs -> _ IH]; intros [|x vs]; try reflexivity; apply IH].
    destruct v; try destruct V; destruct k; try discriminate P; reflexivity.
  - exists b. destruct (sole_msg k P) as (fs & E & _). destruct (sole_msg k' P') as (fs' & E' & _). rewrite E, E' in N. cbn [zeros map fld_type absorb_msg sent] in N.
    rewrite N.eqb_refl in N. destruct zs as [|w ws]; [discriminate N|]. cbn [map] in N. injection N as Nw _. exists w, ws. split; [exact M|]. split; [exact U|].
    pose proof (plain_value k v P Wv) as V.
    assert (Ea : absorb (soleS k) (soleS k') (zero (go_type (field_of k'))) v (field_of k) (field_of k') =
      takes_in (field_of k') (zero (go_type (field_of k'))) (sends (field_of k) v)).
    { destruct v; try destruct V; destruct k; try discriminate P; reflexivity. }
    rewrite Ea in Nw. rewrite (shown_content w _ Nw (takes_plain k k' v P' H V)). apply takes_arrived; assumption.
Qed.
(** From sint64 to sint32. *)
Lemma narrow_written z vs : ser (message (soleS Sint64Kind) (VI64 z :: vs) (msg (soleS Sint64Kind) 0)) = if z =? 0 then [] else 8%N :: vint (zigzag z).
Proof.
  replace (msg (soleS Sint64Kind) 0) with [Field 1 (FImplicit Y_sint64); Hidden TOther] by (vm_compute; reflexivity).
  assert (E : message (soleS Sint64Kind) vs [Hidden TOther] = []) by (destruct vs as [|? []]; reflexivity).
  cbn [message]. rewrite E. unfold ser. cbn -[vint]. destruct (z =? 0); [reflexivity|]. cbn -[vint]. rewrite app_nil_r. reflexivity.
Qed.
Lemma narrow_read n : (n < 2^64)%N ->
  merge_lib (soleS Sint32Kind) (S (length (8%N :: vint n))) (msg (soleS Sint32Kind) 0) (zeros (msg (soleS Sint32Kind) 0)) (8%N :: vint n) = MOk [VI32 (s32 (unzigzag n)); VOther 0].
Proof.
  intros H. replace (msg (soleS Sint32Kind) 0) with [Field 1 (FImplicit Y_sint32); Hidden TOther] by (vm_compute; reflexivity).
  change (S (length (8%N :: vint n))) with (S (S (length (vint n)))). cbn [merge_lib].
  replace (read_varint (8%N :: vint n)) with (VOk 8 1 (vint n))
    by (symmetry; change (8%N :: vint n) with (vint 8 ++ vint n); apply (read_varint_vint 8); reflexivity).
  change (8 mod 8)%N with 0%N. change (8/8)%N with 1%N. unfold read_payload.
  replace (read_varint (vint n)) with (VOk n (length (vint n)) [])
    by (symmetry; rewrite <- (app_nil_r (vint n)) at 1; apply read_varint_vint; assumption).
  cbn [N.eqb]. cbn -[vint N.pow Z.pow N.modulo Z.modulo s32].
  destruct (signed_range (unzigzag n)) as [R ->]. rewrite N.mod_small by (apply zz_low, R). rewrite zz_unzz by exact R. reflexivity.
Qed.
Lemma narrow_s32 z : s32 z = (z + 2^31) mod 2^32 - 2^31.
Proof. unfold s32, Z31, Z32. change (2^31) with 2147483648. change (2^32) with 4294967296. destruct (Z.ltb_spec (z mod 4294967296) 2147483648); lia. Qed.
Lemma norm_i32 w z : norm w = VI32 z -> w = VI32 z.
Proof. destruct w as [| | | | | | | | |[]| |[[|]|]|[?|]| |]; cbn [norm]; intros E; try discriminate E; exact E. Qed.
Lemma narrow_reaches : reaches Sint64Kind Sint32Kind.
Proof.
  intros s s' v vs Hr Hr' W L. assert (Wv : wt (soleD Sint64Kind) v (TScalar KInt64) = true) by exact (sole_value Sint64Kind v vs eq_refl W).
  assert (exists z, v = VI64 z /\ - 2^63 <= z < 2^63) as (z & -> & Hz).
  { destruct v as [| | | | | | | | | | |[]|[[]|]| |]; try discriminate Wv; try (destruct o; discriminate Wv). cbn [wt] in Wv. exists z. split; [reflexivity|]. unfold in_i64, Z63 in Wv. change (2^63) with 9223372036854775808 in *. lia. }
  destruct (zeros_good Sint32Kind eq_refl) as (Z1 & Z2 & Z3).
  assert (Ev : encodable_msg (soleS Sint64Kind) (VI64 z :: vs) (msg (soleS Sint64Kind) 0) = true).
  { destruct vs as [|? []]; reflexivity. }
  destruct (generated_wire_proof _ (sole_covered Sint64Kind eq_refl) s 0%nat _ Hr W Ev L) as [_ M].
  rewrite narrow_written in M, L.
  assert (Zz : (zigzag z < 2^64)%N) by (unfold zigzag; change (2^64)%N with 18446744073709551616%N; change (2^63) with 9223372036854775808 in Hz; destruct (z <? 0) eqn:E; lia).
  pose proof (generated_lib_proof _ (sole_covered Sint32Kind eq_refl) s' 0%nat _ _ (if z =? 0 then [] else 8%N :: vint (zigzag z)) Hr' Z1 Z2 eq_refl) as U.
  assert (B : bytes_okb (if z =? 0 then [] else 8%N :: vint (zigzag z)) = true).
  { destruct (z =? 0); [reflexivity|]. apply TypingFacts.bytes_okb_ok. change (8%N :: vint (zigzag z)) with (vint 8 ++ vint (zigzag z)). apply Forall_app. split; apply vint_ok. }
  specialize (U B L). destruct (z =? 0) eqn:Ez.
  - exists []. assert (z = 0) as -> by lia.
    change (merge_lib _ _ _ _ _) with (MOk (zeros (msg (soleS Sint32Kind) 0))) in U. destruct U as (xs & U & N & _).
    destruct xs as [|w ws]; [discriminate N|]. cbn [map] in N. injection N as Nw _. apply (norm_i32 w 0) in Nw. subst w.
    exists (VI32 0), ws. split; [exact M|]. split; [exact U|]. reflexivity.
  - fold (soleS Sint32Kind) in U. rewrite (narrow_read _ Zz) in U. destruct U as (xs & U & N & _).
    destruct xs as [|w ws]; [discriminate N|]. cbn [map] in N. injection N as Nw _. apply norm_i32 in Nw. subst w.
    eexists _, _, ws. split; [exact M|]. split; [exact U|]. rewrite unzigzag_zigzag, narrow_s32. apply (num_i32 Sint32Kind z). cbn; auto.
Qed.
Lemma kinds_exact_proof k k' : scalar_kind k = true -> scalar_kind k' = true -> (kind_compatible k k' = true <-> reaches k k').
Proof.
  intros P P'. split; [|apply reaches_only; assumption]. intros H. unfold kind_compatible in H. destruct (may_become k k') eqn:E.
  - apply become_reaches; [|exact E]. destruct k; try reflexivity; try discriminate P; discriminate E.
  - destruct k; try discriminate H; destruct k'; try discriminate H. exact narrow_reaches.
Qed.
