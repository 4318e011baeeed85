(** The same for lists. *)
From Coq Require Import ZifyBool ZifyNat ZifyN.
From Verif Require Import Base Wire GoType Leaf Codec Tag Walker Api Resolve Typing SpecWire SpecTag SpecMsg SpecExact SpecVersions SpecJoin SpecAbsorb SpecEvolve SpecTight
  SpecLib WireFacts MsgDec WalkSeq MsgApi ProtoGen SpecProto ProtoFacts ProtoThms AbsorbThms RefuteMsg EvolveThms MsgRound TightThms RelayThms.
From Verif Require Import SpecVersions SpecProto.
Local Open Scope Z_scope.

(** All elements have arrived. *)
Fixpoint each_arrived (k : pkind) (l l' : list val) : bool :=
  match l, l' with
  | [], [] => true
  | x :: l, y :: l' => arrived k x y && each_arrived k l l'
  | _, _ => false
  end.
Definition listD (k : pkind) : decls := generate (sole_repeated k).
Definition listS (k : pkind) : schema := schema_of (sole_repeated k).
Definition misses (k k' : pkind) (v0 : val) : bool :=
  let v := VSlice true [v0] [] in
  wts (listD k) (VStruct [v]) (SNamed 0) && (zlen (ser (message (listS k) [v] (msg (listS k) 0))) <? 2^63) &&
  match fst (Marshal (listD k) (ptr 0 [v]) g_empty) with
  | Returns (Some b, None) =>
    match fst (Unmarshal (listD k') b (ptr 0 (zeros (msg (listS k') 0))) g_empty) with
    | Returns (IPtr _ (Some (VStruct (w :: _))), None) => negb (each_arrived k' (elements v) (elements w))
    | _ => true
    end
  | _ => true
  end.
Lemma others_miss : forallb (fun k => forallb (fun k' => list_compatible k k' || existsb (misses k k') (tries k)) scalar_kinds) scalar_kinds = true.
Proof. vm_compute. reflexivity. Qed.
Definition lists_reach (k k' : pkind) : Prop := forall s s' v vs, reachable (listD k) s -> reachable (listD k') s' ->
  wts (listD k) (VStruct (v :: vs)) (SNamed 0) = true -> zlen (ser (message (listS k) (v :: vs) (msg (listS k) 0))) < 2^63 ->
  exists b w ws, fst (Marshal (listD k) (ptr 0 (v :: vs)) s) = Returns (Some b, None) /\
    fst (Unmarshal (listD k') b (ptr 0 (zeros (msg (listS k') 0))) s') = Returns (ptr 0 (w :: ws), None) /\ each_arrived k' (elements v) (elements w) = true.
Lemma lists_only k k' : scalar_kind k = true -> scalar_kind k' = true -> lists_reach k k' -> list_compatible k k' = true.
Proof.
  intros P P' R. pose proof others_miss as O. rewrite forallb_forall in O. specialize (O k (scalar_in k P)). rewrite forallb_forall in O. specialize (O k' (scalar_in k' P')).
  apply orb_true_iff in O. destruct O as [O|O]; [exact O|]. exfalso. apply existsb_exists in O. destruct O as (v & _ & B).
  unfold misses in B. cbv zeta in B. apply andb_true_iff in B. destruct B as [B B3]. apply andb_true_iff in B. destruct B as [B1 B2]. apply Z.ltb_lt in B2.
  destruct (R g_empty g_empty _ _ (reach_init _) (reach_init _) B1 B2) as (b & w & ws & M & U & A).
  rewrite M, U in B3. cbn -[elements each_arrived] in B3. rewrite A in B3. discriminate B3.
Qed.
Definition listed (k : pkind) : bool := plain_kind k && match k with Fixed32Kind | Fixed64Kind => false | _ => true end.
Definition elem_fty (k : pkind) : fty := match k with BytesKind => FBytes | k => match scalar_of k with Some s => FAlways s | None => FBytes end end.
Lemma list_msg k : listed k = true -> msg (listS k) 0 = [Field 1 (FRepeated (elem_fty k))].
Proof. destruct k; intros H; try discriminate H; vm_compute; reflexivity. Qed.
Lemma list_covered k : listed k = true -> covered (sole_repeated k) = true.
Proof. destruct k; intros H; try discriminate H; vm_compute; reflexivity. Qed.
Lemma list_evolves k k' : listed k = true -> may_become k k' = true -> evolves Nat.eqb (sole_repeated k) (sole_repeated k').
Proof.
  intros P H m m' d d' E N N' a b Ia Ib _. apply Nat.eqb_eq in E. subst m'. destruct m as [|m]; [|destruct m; discriminate N].
  injection N as <-. injection N' as <-. cbn in Ia, Ib. destruct Ia as [<-|[]], Ib as [<-|[]].
  unfold field_may_become, map_parts, may_hold. cbn. destruct k; try discriminate P; destruct k'; try discriminate H; reflexivity.
Qed.
Lemma list_value k v vs : listed k = true -> wts (listD k) (VStruct (v :: vs)) (SNamed 0) = true -> vs = [] /\ wt (listD k) v (TSlice (go_type (elem_fty k))) = true.
Proof.
  intros P W. destruct (wts_msg _ _ _ W) as [_ W']. replace (field_types (listD k) 0) with [TSlice (go_type (elem_fty k))] in W'
    by (destruct k; try discriminate P; vm_compute; reflexivity).
  cbn [all2] in W'. apply andb_true_iff in W'. destruct W' as [W1 W2]. split; [destruct vs; [reflexivity|discriminate W2]|exact W1].
Qed.
Lemma list_zeros k : listed k = true -> zeros (msg (listS k) 0) = [VSlice false [] []] /\ wts (listD k) (VStruct (zeros (msg (listS k) 0))) (SNamed 0) = true.
Proof. destruct k; intros H; try discriminate H; vm_compute; repeat split. Qed.
Lemma list_plain k k' : listed k = true -> may_become k k' = true -> listed k' = true.
Proof. destruct k; intros P; try discriminate P; destruct k'; intros H; try discriminate H; reflexivity. Qed.
Lemma item_arrived D k k' x : listed k = true -> may_become k k' = true -> wt D x (go_type (elem_fty k)) = true ->
  (x = VBytes None /\ sends (elem_fty k) x = []) \/
  (x <> VBytes None /\ exists y, sends (elem_fty k) x = [y] /\ arrived k' x (gets (elem_fty k') [y]) = true /\ simple (gets (elem_fty k') [y]) = true /\ gets (elem_fty k') [y] <> VBytes None).
Proof.
  intros P H W. destruct k; try discriminate P; cbn [elem_fty scalar_of go_type go_kind] in W; EncFacts.wtd x;
    try (left; split; reflexivity); right; (split; [discriminate|]); (eexists; split; [reflexivity|]);
    destruct k'; try discriminate H; cbn [elem_fty scalar_of gets last_of become number]; (split; [|split; [reflexivity|discriminate]]);
    try (match goal with b : bool |- _ => destruct b; reflexivity end);
    first [ apply num_same | (apply num_i32; cbn; tauto) | apply num_i64 | apply num_u32 | apply num_u64 | apply text_same | (cbn [arrived content_of]; apply N.eqb_refl) ].
Qed.
Lemma items_arrived D k k' items : listed k = true -> may_become k k' = true -> forallb (fun x => wt D x (go_type (elem_fty k))) items = true ->
  let l := map (fun y => gets (elem_fty k') [y]) (flat_map (sends (elem_fty k)) items) in
  each_arrived k' (filter (fun x => match x with VBytes None => false | _ => true end) items) l = true /\ Forall (fun x => simple x = true /\ x <> VBytes None) l.
Proof.
  intros P H. cbv zeta. induction items as [|x items IH]; intros W; [split; [reflexivity|constructor]|]. cbn [forallb] in W. apply andb_true_iff in W. destruct W as [W1 W2].
  destruct (IH W2) as [I1 I2]. cbn [flat_map filter]. destruct (item_arrived D k k' x P H W1) as [(-> & ->)|(Nx & y & -> & A & S & N)]; [split; assumption|].
  cbn [app map]. assert (F : (match x with VBytes None => false | _ => true end) = true) by (destruct x as [| | | | | | | |[|]| | | | | |]; try reflexivity; destruct Nx; reflexivity).
  rewrite F. cbn [each_arrived]. rewrite A. split; [exact I1|]. constructor; auto.
Qed.
Lemma filter_all l : Forall (fun x => simple x = true /\ x <> VBytes None) l -> filter (fun x => match x with VBytes None => false | _ => true end) l = l.
Proof.
  induction 1 as [|x l [_ N] _ IH]; [reflexivity|]. cbn [filter]. rewrite IH. destruct x as [| | | | | | | |[|]| | | | | |]; try reflexivity. destruct N. reflexivity.
Qed.
Lemma shown_list items l : Forall (fun x => simple x = true /\ x <> VBytes None) l -> map shown items = map norm l -> items = l.
Proof.
  intros F. revert items. induction F as [|x l [S _] _ IH]; intros [|i items] E; try discriminate E; [reflexivity|]. cbn [map] in E. injection E as E1 E2.
  rewrite (simple_shown i x S E1), (IH items E2). reflexivity.
Qed.
Lemma list_become k k' : listed k = true -> may_become k k' = true -> lists_reach k k'.
Proof.
  intros P H s s' v vs Hr Hr' W L. pose proof (list_plain _ _ P H) as P'. destruct (list_value k v vs P W) as [-> Wv].
  destruct (list_zeros k' P') as (Z & Z1).
  destruct (EncFacts.wt_slice _ _ _ Wv) as (nn & items & spare & -> & Hi & _).
  destruct (absorb_proof (listD k) (listS k) (listD k') (listS k') Nat.eqb (generated_covers _ (list_covered k P)) (generated_covers _ (list_covered k' P'))
    (evolves_accepted _ _ _ (list_evolves k k' P H)) s s' 0%nat 0%nat _ [VSlice nn items spare] eq_refl Hr Hr' Z1) as (b & zs & M & U & N & _);
    [rewrite Z; reflexivity|rewrite Z; reflexivity|exact W| |exact L|].
  - rewrite (list_msg k P). cbn [encodable_msg]. rewrite andb_true_r. clear - P Hi. destruct k; try discriminate P; try reflexivity;
      cbn [SpecMsg.encodable elem_fty scalar_of]; apply forallb_forall; intros x Hx; rewrite forallb_forall in Hi; specialize (Hi x Hx);
      cbn [elem_fty scalar_of go_type go_kind] in Hi; EncFacts.wtd x; reflexivity.
  - exists b. rewrite Z in N. rewrite (list_msg k P), (list_msg k' P') in N. cbn [absorb_msg sent] in N.
    rewrite N.eqb_refl in N. destruct zs as [|w ws]; [discriminate N|]. cbn [map] in N. injection N as Nw _. exists w, ws. split; [exact M|]. split; [exact U|].
    assert (Ea : shown w = norm (takes_in (FRepeated (elem_fty k')) (VSlice false [] []) (flat_map (sends (elem_fty k)) items))).
    { rewrite Nw. destruct k; try discriminate P; reflexivity. }
    clear Nw. rename Ea into Nw. destruct (items_arrived (listD k) k k' items P H Hi) as [A F]. cbn [takes_in extended] in Nw.
    destruct (map (fun y => gets (elem_fty k') [y]) (flat_map (sends (elem_fty k)) items)) as [|y l] eqn:El.
    + cbn [norm map] in Nw. destruct w as [| | | | | | | | | |n' i' sp|[?|]|[?|]| |]; cbn [shown] in Nw; try discriminate Nw. injection Nw as _ Nw. destruct i'; [|discriminate Nw]. exact A.
    + cbn [app] in Nw. change (norm (VSlice true (y :: l) [])) with (VSlice true (map norm (y :: l)) []) in Nw. destruct w as [| | | | | | | | | |n' i' sp|[?|]|[?|]| |]; cbn [shown] in Nw; try discriminate Nw.
      injection Nw as _ Nw. assert (i' = y :: l) as -> by (apply shown_list; [exact F|exact Nw]). unfold elements at 2. rewrite (filter_all _ F). exact A.
Qed.
(** From sint64 to sint32. *)
Definition sint_bytes (l : list Z) : list N := flat_map (fun z => 8%N :: vint (zigzag z)) l.
Lemma list_written nn l spare : ser (message (listS Sint64Kind) [VSlice nn (map VI64 l) spare] (msg (listS Sint64Kind) 0)) = sint_bytes l.
Proof.
  replace (msg (listS Sint64Kind) 0) with [Field 1 (FRepeated (FAlways Y_sint64))] by (vm_compute; reflexivity).
  cbn [message]. rewrite app_nil_r. induction l as [|z l IH]; [reflexivity|]. cbn [sint_bytes flat_map map]. fold (sint_bytes l). rewrite <- IH.
  unfold ser. cbn -[vint]. reflexivity.
Qed.
Lemma list_read l : Forall (fun z => (zigzag z < 2^64)%N) l -> forall fuel nn acc, (length (sint_bytes l) < fuel)%nat ->
  merge_lib (listS Sint32Kind) fuel [Field 1 (FRepeated (FAlways Y_sint32))] [VSlice nn acc []] (sint_bytes l) =
  MOk [VSlice (nn || match l with [] => false | _ => true end) (acc ++ map (fun z => VI32 (s32 z)) l) []].
Proof.
  induction 1 as [|z l Hz _ IH]; intros fuel nn acc Hf; (destruct fuel as [|fuel]; [destruct (Nat.nlt_0_r _ Hf)|]); [cbn; rewrite orb_false_r, app_nil_r; reflexivity|].
  cbn [sint_bytes flat_map] in *. fold (sint_bytes l) in *. cbn [app length] in Hf. rewrite app_length in Hf. cbn [app merge_lib].
  replace (read_varint (8%N :: vint (zigzag z) ++ sint_bytes l)) with (VOk 8 1 (vint (zigzag z) ++ sint_bytes l))
    by (symmetry; change (8%N :: vint (zigzag z) ++ sint_bytes l) with (vint 8 ++ (vint (zigzag z) ++ sint_bytes l)); apply (read_varint_vint 8); reflexivity).
  change (8 mod 8)%N with 0%N. change (8/8)%N with 1%N. unfold read_payload.
  rewrite (read_varint_vint (zigzag z)) by exact Hz.
  cbn [N.eqb]. cbn -[vint N.pow Z.pow N.modulo Z.modulo s32 merge_lib zigzag unzigzag as_signed]. rewrite unzigzag_zigzag.
  destruct (signed_range z) as [R E]. rewrite E. rewrite N.mod_small by (apply zz_low, R). rewrite zz_unzz by exact R. 
  rewrite IH by lia. rewrite <- app_assoc. cbn [app map]. destruct nn, l; reflexivity.
Qed.
Lemma i64_items D items : forallb (fun x => wt D x (go_type (elem_fty Sint64Kind))) items = true -> exists l, items = map VI64 l /\ Forall (fun z => (zigzag z < 2^64)%N) l.
Proof.
  induction items as [|x items IH]; intros W; [exists []; split; [reflexivity|constructor]|]. cbn [forallb] in W. apply andb_true_iff in W. destruct W as [W1 W2].
  destruct (IH W2) as (l & -> & F). cbn [elem_fty scalar_of go_type go_kind] in W1. EncFacts.wtd x. cbn [wt] in W1. exists (z :: l). split; [reflexivity|]. constructor; [|exact F].
  unfold in_i64, Z63 in W1. unfold zigzag. change (2^64)%N with 18446744073709551616%N. destruct (z <? 0) eqn:E; lia.
Qed.
Lemma narrowed l : each_arrived Sint32Kind (filter (fun x => match x with VBytes None => false | _ => true end) (map VI64 l)) (map (fun z => VI32 (s32 z)) l) = true.
Proof.
  induction l as [|z l IH]; [reflexivity|]. cbn [map filter each_arrived]. rewrite IH, narrow_s32. rewrite andb_true_r. apply (num_i32 Sint32Kind z). cbn; auto.
Qed.
Lemma norm_list items l : map norm items = map norm (map (fun z => VI32 (s32 z)) l) -> items = map (fun z => VI32 (s32 z)) l.
Proof.
  revert l. induction items as [|x items IH]; intros [|z l] E; try discriminate E; [reflexivity|]. cbn [map norm] in E. injection E as E1 E2. cbn [map]. rewrite (IH l E2). f_equal.
  destruct x as [| | | | | | | |o'|[] y| |[[|]|]|[?|]| |]; cbn [norm] in E1; try discriminate E1; exact E1.
Qed.
Lemma sint_ok l : bytes_okb (sint_bytes l) = true.
Proof.
  apply TypingFacts.bytes_okb_ok. induction l as [|z l IH]; [constructor|]. cbn [sint_bytes flat_map]. apply Forall_app. split; [|exact IH].
  change (8%N :: vint (zigzag z)) with (vint 8 ++ vint (zigzag z)). apply Forall_app. split; apply vint_ok.
Qed.
Lemma elements_all l : elements (VSlice true (map (fun z => VI32 (s32 z)) l) []) = map (fun z => VI32 (s32 z)) l.
Proof. unfold elements. induction l as [|z l IH]; [reflexivity|]. cbn [map filter]. rewrite IH. reflexivity. Qed.
Lemma list_narrow : lists_reach Sint64Kind Sint32Kind.
Proof.
  intros s s' v vs Hr Hr' W L. destruct (list_value Sint64Kind v vs eq_refl W) as [-> Wv].
  destruct (EncFacts.wt_slice _ _ _ Wv) as (nn & items & spare & -> & Hi & _). destruct (i64_items _ _ Hi) as (l & -> & F).
  destruct (list_zeros Sint32Kind eq_refl) as (Z & Z1).
  assert (Ev : encodable_msg (listS Sint64Kind) [VSlice nn (map VI64 l) spare] (msg (listS Sint64Kind) 0) = true).
  { rewrite (list_msg Sint64Kind eq_refl). cbn [encodable_msg]. rewrite andb_true_r. cbn [SpecMsg.encodable elem_fty scalar_of]. apply forallb_forall. intros x Hx. apply in_map_iff in Hx.
    destruct Hx as (z & <- & _). reflexivity. }
  destruct (generated_wire_proof _ (list_covered Sint64Kind eq_refl) s 0%nat _ Hr W Ev L) as [_ M].
  rewrite list_written in M, L.
  assert (U := generated_lib_proof _ (list_covered Sint32Kind eq_refl) s' 0%nat _ _ (sint_bytes l) Hr' Z1 eq_refl eq_refl (sint_ok l) L).
  fold (listS Sint32Kind) in U. rewrite Z in U. rewrite (list_msg Sint32Kind eq_refl) in U. cbn [elem_fty scalar_of] in U. rewrite (list_read l F) in U by lia.
  destruct U as (xs & U & N & _). destruct xs as [|w ws]; [discriminate N|]. cbn [map app orb] in N. injection N as Nw _.
  exists (sint_bytes l), w, ws. split; [exact M|]. split; [rewrite Z; exact U|]. cbn [norm] in Nw.
  destruct w as [| | | | | | | | |[] ?|n' i' sp|[[|]|]|[?|]| |]; cbn [norm] in Nw; try discriminate Nw. injection Nw as _ Nw. rewrite (norm_list _ _ Nw).
  change (elements (VSlice n' ?x sp)) with (elements (VSlice true x [])). rewrite elements_all. exact (narrowed l).
Qed.
Lemma lists_exact k k' : scalar_kind k = true -> scalar_kind k' = true -> (list_compatible k k' = true <-> lists_reach k k').
Proof.
  intros P P'. split; [|apply lists_only; assumption]. intros H. unfold list_compatible, kind_compatible in H. destruct (may_become k k') eqn:E.
  - apply list_become; [|exact E]. destruct k; try reflexivity; try discriminate P; try discriminate E; discriminate H.
  - destruct k; try discriminate H; destruct k'; try discriminate H. exact list_narrow.
Qed.
Lemma each_parts k l l' : each_arrived k l l' = true <-> Forall2 (fun x y => arrived k x y = true) l l'.
Proof.
  revert l'. induction l as [|x l IH]; intros [|y l']; cbn [each_arrived]; split; intros H; try discriminate H; try (inversion H; fail); auto.
  - apply andb_true_iff in H. destruct H as [A B]. constructor; [exact A|apply IH, B].
  - inversion H as [|? ? ? ? A B]; subst. rewrite A. apply IH, B.
Qed.
Lemma list_exact_proof k k' : scalar_kind k = true -> scalar_kind k' = true -> (list_compatible k k' = true <->
  forall s s' v vs, reachable (listD k) s -> reachable (listD k') s' ->
  wts (listD k) (VStruct (v :: vs)) (SNamed 0) = true -> zlen (ser (message (listS k) (v :: vs) (msg (listS k) 0))) < 2^63 ->
  exists b w ws, fst (Marshal (listD k) (ptr 0 (v :: vs)) s) = Returns (Some b, None) /\
    fst (Unmarshal (listD k') b (ptr 0 (zeros (msg (listS k') 0))) s') = Returns (ptr 0 (w :: ws), None) /\
    Forall2 (fun x y => arrived k' x y = true) (elements v) (elements w)).
Proof.
  intros P P'. rewrite (lists_exact k k' P P'). split; intros G s s' v vs Hr Hr' W L; destruct (G s s' v vs Hr Hr' W L) as (b & w & ws & M & U & A); exists b, w, ws;
    (split; [exact M|]; split; [exact U|]); apply each_parts; exact A.
Qed.
