(** What is written, merged into a message that holds something: specification level. *)
From Coq Require Import ZifyBool ZifyNat ZifyN.
From Verif Require Import Base Wire GoType Leaf Codec Tag Walker Resolve Typing CodecSim SpecWire SpecTag SpecMsg SpecJoin
  WireFacts DecodeFacts GenFacts TypingFacts TagFacts EncFacts MsgResolve MsgEnc MsgDec MsgRound.
Local Open Scope Z_scope.
Ltac Zify.zify_post_hook ::= Z.div_mod_to_equations.

Lemma put_entry_norm a x x' : norm x = norm x' -> forall l l', map norm_kv l = map norm_kv l' ->
  map norm_kv (put_entry l a x) = map norm_kv (put_entry l' a x').
Proof.
  intros Hx. induction l as [|[k y] l IH]; intros [|[k' y'] l'] E; try discriminate E.
  - cbn. rewrite Hx. reflexivity.
  - cbn [map norm_kv] in E. inversion E; subst. cbn [put_entry]. destruct (same_key k' a); cbn [map norm_kv]; [congruence|].
    rewrite (IH l') by assumption. congruence.
Qed.

Section Join.
Variable sch : schema.
Variable D : decls.
Hypothesis HI : implements D sch = true.
Hypothesis HS : schema_ok sch = true.
Hypothesis HC : in_scope sch = true.
Notation mg := (mg sch).
Notation pl := (pl sch).
Notation put := (put sch).
Notation plain_put := (plain_put sch).
Notation records := (records sch).
Notation message := (message sch).
Notation kept := (kept sch).
Notation encodable := (encodable sch).
Notation encodable_msg := (encodable_msg sch).
Notation put_list := (put_list sch).
Notation joined := (joined sch).
Notation joined_msg := (joined_msg sch).

Definition joins (v : val) : Prop := forall n f x, wt D v (go_type f) = true -> wt D x (go_type f) = true -> ok_fty f = true -> (n < 2^61)%N ->
  encodable v f = true -> zlen (ser (records v n f)) < Z63 ->
  exists ps w, records v n f = recs n ps /\ put_list f x ps w /\ norm w = norm (joined x v f).

Lemma join_fields fs : forall pre dn xs ys, length dn = length pre -> nodup_N (numbers (pre ++ fs)) = true -> fields_ok fs ->
  all2 (wt D) xs (map fld_type fs) = true -> all2 (wt D) ys (map fld_type fs) = true -> Forall joins ys -> encodable_msg ys fs = true ->
  zlen (ser (message ys fs)) < Z63 ->
  exists zs, mg (pre ++ fs) (dn ++ xs) (ser (message ys fs)) = MOk (dn ++ zs) /\ map norm zs = map norm (joined_msg xs ys fs).
Proof.
  induction fs as [|f fs IH]; intros pre dn [|x xs] [|y ys] Hlen Hnd Hok Hx Hy Hg He Hsm; try discriminate.
  { exists []. cbn [SpecMsg.message map]. rewrite app_nil_r. split; reflexivity. }
  cbn [all2 map] in Hx, Hy. apply andb_true_iff in Hx, Hy. destruct Hx as [Wx Hx], Hy as [Wy Hy]. inversion Hg as [|? ? Gy Gys]; subst.
  assert (Hok' : fields_ok fs) by (intros n g Hin; apply Hok; right; exact Hin).
  assert (Hpre : forall a, pre ++ a :: fs = (pre ++ [a]) ++ fs) by (intros a; rewrite <- app_assoc; reflexivity).
  destruct f as [t|n f]; cbn [SpecMsg.message SpecMsg.encodable_msg SpecJoin.joined_msg fld_type] in *.
  - destruct (IH (pre ++ [Hidden t]) (dn ++ [x]) xs ys) as (zs & E1 & E2); try assumption.
    + rewrite !app_length, Hlen. reflexivity.
    + rewrite <- app_assoc. exact Hnd.
    + exists (x :: zs). rewrite Hpre. rewrite <- !app_assoc in E1. rewrite <- app_assoc. split; [exact E1|]. cbn [map]. rewrite E2. reflexivity.
  - apply andb_true_iff in He. destruct He as [He1 He]. rewrite ser_app in *. rewrite zlen_app in Hsm.
    pose proof (zlen_nonneg (ser (records y n f))). pose proof (zlen_nonneg (ser (message ys fs))).
    destruct (Hok n f (or_introl eq_refl)) as [Hf Hn].
    destruct (Gy n f x Wy Wx Hf Hn He1 ltac:(lia)) as (ps & w & Er & Hp & Nw). rewrite Er.
    assert (Hff : find_field 0 (pre ++ Field n f :: fs) n = Some (length dn, f)).
    { rewrite Hlen. apply (find_field_at sch D pre fs n f). rewrite numbers_app in Hnd. cbn [numbers] in Hnd. eapply nodup_app_not; exact Hnd. }
    destruct (IH (pre ++ [Field n f]) (dn ++ [w]) xs ys) as (zs & E1 & E2); try assumption; try lia.
    + rewrite !app_length, Hlen. reflexivity.
    + rewrite <- app_assoc. exact Hnd.
    + exists (w :: zs). rewrite (merge_recs sch n _ _ f Hn Hff ps _ w Hp).
      2:{ rewrite nth_error_app2, Nat.sub_diag by lia. reflexivity. }
      rewrite replace_at. rewrite <- !app_assoc in E1. cbn [app] in E1. split; [exact E1|]. cbn [map]. rewrite E2, Nw. reflexivity.
Qed.

Lemma join_entries n k e : scope_key k = true -> scope_val e = true -> (n < 2^61)%N -> forall l,
  forallb (fun kv => match kv with (a, x) => wt D a (TScalar (go_kind k)) && wt D x (go_type e) end) l = true ->
  forallb (fun kv => match kv with (_, x) => map_len_ok sch k e x && encodable x e end) l = true ->
  zlen (ser (records (VMap (Some l)) n (FMap k e))) < Z63 ->
  forall m old, map norm_kv (entries m) = map norm_kv old ->
  exists ps z, records (VMap (Some l)) n (FMap k e) = recs n ps /\ put_list (FMap k e) (VMap m) ps (VMap z) /\
    map norm_kv (entries z) = map norm_kv (fold_left (fun l kv => match kv with (a, y) => put_entry l a (kept y e) end) l old).
Proof.
  intros Hk Hv Hn. assert (Ka : not_sfixed k = true) by (destruct k; try discriminate; reflexivity).
  induction l as [|[a x] l IH]; intros Hw He Hsm m old Hm.
  { exists [], m. repeat split; [constructor|exact Hm]. }
  cbn [forallb] in Hw, He. btrue.
  assert (Er : records (VMap (Some ((a, x) :: l))) n (FMap k e) =
    (n, PLen (ser (message [a; x] (entry_fs k e)))) :: records (VMap (Some l)) n (FMap k e)) by (rewrite entry_msg; reflexivity).
  rewrite Er in Hsm |- *. change ((n, PLen (ser (message [a; x] (entry_fs k e)))) :: records (VMap (Some l)) n (FMap k e)) with
    ([(n, PLen (ser (message [a; x] (entry_fs k e))))] ++ records (VMap (Some l)) n (FMap k e)) in Hsm.
  rewrite ser_app, zlen_app in Hsm.
  pose proof (zlen_nonneg (ser [(n, PLen (ser (message [a; x] (entry_fs k e))))])).
  pose proof (zlen_nonneg (ser (records (VMap (Some l)) n (FMap k e)))).
  assert (Hse : zlen (ser (message [a; x] (entry_fs k e))) < Z63) by (apply (ser_len_lt D sch n); lia).
  destruct (good_fields sch D (entry_fs k e) [] [] [a; x]) as (ys & E1 & E2 & E3 & E4).
  - reflexivity.
  - reflexivity.
  - intros n' f' [Hin|[Hin|[]]]; inversion Hin; subst; (split; [|reflexivity]); [exact Ka|apply val_ok; exact Hv].
  - cbn [all2 map entry_fs fld_type go_type].
    repeat match goal with H : wt D _ _ = true |- _ => rewrite H; clear H end. reflexivity.
  - repeat constructor; apply good_all; assumption.
  - cbn [SpecMsg.encodable_msg entry_fs]. match goal with H : encodable x e = true |- _ => rewrite H end. destruct a; reflexivity.
  - exact Hse.
  - cbn [app] in E1, E3. destruct ys as [|a' [|x' [|? ?]]]; try discriminate E2. cbn [SpecMsg.kept_msg entry_fs map] in E2. inversion E2 as [[Na Nx]]. clear E2.
    assert (Ea : a' = a).
    { assert (Ka' : kept a (FAlways k) = a) by (destruct a; reflexivity). rewrite Ka' in Na.
      assert (Sa : scalar a = true) by (eapply wt_scalar; eassumption). apply (scalar_norm_inv a a' Sa). congruence. }
    subst a'.
    destruct (IH ltac:(assumption) ltac:(assumption) ltac:(lia) (Some (put_entry (entries m) a x')) (put_entry old a (kept x e))) as (ps & z & F1 & F2 & F3).
    + cbn [entries]. apply put_entry_norm; [exact Nx|exact Hm].
    + exists (PLen (ser (message [a; x] (entry_fs k e))) :: ps), z. split; [cbn [recs map]; rewrite F1; reflexivity|]. split; [|exact F3].
      econstructor; [split; [exact E4|exact Hse]|reflexivity| | |exact F2].
      * cbn [SpecMsg.put]. fold (entry_fs k e). rewrite E1. reflexivity.
      * cbn [SpecMsg.plain_put]. exact E3.
Qed.

Lemma one f n p w v x : pay_ok p -> wire_fty f = wire_of p -> put mg f p x = MOk w ->
  plain_put pl f p (length (ser_payload p)) = true -> norm w = norm (joined x v f) -> records v n f = [(n, p)] ->
  exists ps w, records v n f = recs n ps /\ put_list f x ps w /\ norm w = norm (joined x v f).
Proof.
  intros H1 H2 H3 H4 H5 H6. exists [p], w. rewrite H6. split; [reflexivity|]. split; [|exact H5]. econstructor; eauto. constructor.
Qed.
Lemma none f n v x : records v n f = [] -> joined x v f = x ->
  exists ps w, records v n f = recs n ps /\ put_list f x ps w /\ norm w = norm (joined x v f).
Proof. intros H1 H2. exists [], x. rewrite H1, H2. split; [reflexivity|]. split; [constructor|reflexivity]. Qed.

Lemma zeros_types fs : all2 (wt D) (zeros fs) (map fld_type fs) = true.
Proof. induction fs as [|f fs IH]; [reflexivity|]. cbn [zeros map all2]. unfold zeros in IH. rewrite IH, zero_wt. reflexivity. Qed.
Lemma put_list_grows e y ps z : put_list (FRepeated e) y ps z -> forall nn l sp nn' l' sp', y = VSlice nn l sp -> z = VSlice nn' l' sp' ->
  length l' = (length l + length ps)%nat.
Proof.
  induction 1 as [y|y p z ps w _ _ H _ _ IH]; intros nn l sp nn' l' sp' Ey Ez.
  - subst y. inversion Ez. cbn. lia.
  - subst y. cbn [SpecMsg.put] in H. destruct (put mg e p (zero (go_type e))); try discriminate H. cbn [mmap] in H. inversion H; subst z.
    rewrite (IH _ _ _ _ _ _ eq_refl Ez), app_length. cbn [length]. lia.
Qed.

Lemma joins_all : forall v, joins v.
Proof.
  induction v as [v IH] using val_ind2. intros n f y Hw Hy Hf Hn He Hsm.
  destruct (good_all sch D HI HS HC v n f Hw Hf Hn He Hsm) as (gps & gw & G1 & G2 & _).
  destruct f as [s|s|s|s| |m|e|k e]; cbn [ok_fty] in Hf.
  - (* implicit *)
    cbn [go_type] in Hw.
    assert (E : records v n (FImplicit s) = if is_zero v then [] else [(n, pay s v)]) by (destruct v; reflexivity).
    assert (K : joined y v (FImplicit s) = if is_zero v then y else v) by (destruct v; reflexivity).
    destruct (is_zero v) eqn:Z; [apply none; assumption|].
    rewrite E in Hsm. destruct (scalar_round sch D s v Hf Hw (small_pay D sch s v n Hf Hw Hsm)) as (P1 & P2 & P3 & P4).
    eapply one; [exact P1|symmetry; exact P2|cbn [SpecMsg.put]; rewrite P3; reflexivity|exact P4|rewrite K; reflexivity|exact E].
  - (* optional *)
    cbn [go_type] in Hw. wtd v. cbn [wt] in Hw. destruct some; [|apply none; reflexivity].
    cbn [SpecMsg.records] in Hsm. destruct (scalar_round sch D s v Hf Hw (small_pay D sch s v n Hf Hw Hsm)) as (P1 & P2 & P3 & P4).
    eapply one; [exact P1|symmetry; exact P2|cbn [SpecMsg.put]; rewrite P3; reflexivity|exact P4|reflexivity|reflexivity].
  - (* pointer *)
    cbn [go_type] in Hw. destruct (wt_ptr _ _ _ Hw) as ([x|] & -> & Hx); [|apply none; reflexivity].
    cbn [SpecMsg.records] in Hsm. destruct (scalar_round sch D s x Hf Hx (small_pay D sch s x n Hf Hx Hsm)) as (P1 & P2 & P3 & P4).
    eapply one; [exact P1|symmetry; exact P2|cbn [SpecMsg.put]; rewrite P3; reflexivity|exact P4|reflexivity|reflexivity].
  - (* always *)
    cbn [go_type] in Hw.
    assert (E : records v n (FAlways s) = [(n, pay s v)]) by (destruct v; reflexivity).
    assert (K : joined y v (FAlways s) = v) by (destruct v; reflexivity).
    rewrite E in Hsm. destruct (scalar_round sch D s v Hf Hw (small_pay D sch s v n Hf Hw Hsm)) as (P1 & P2 & P3 & P4).
    eapply one; [exact P1|symmetry; exact P2|cbn [SpecMsg.put]; rewrite P3; reflexivity|exact P4|rewrite K; reflexivity|exact E].
  - (* bytes *)
    cbn [go_type] in Hw. wtd v; [|apply none; reflexivity].
    cbn [SpecMsg.records] in Hsm. apply (ser_len_lt D sch) in Hsm.
    apply (one FBytes n (PLen l) (VBytes (Some l))); [split; [exact Hw|exact Hsm]|reflexivity..].
  - (* message *)
    cbn [go_type] in Hw, Hy. destruct (wt_msg _ _ _ Hw) as ([x|] & -> & Hx); [|apply none; reflexivity].
    destruct (wts_struct D x (SNamed m)) as (xs & -> & W); [discriminate|exact Hx|]. cbn [key_types] in W.
    rewrite (field_types_of D sch HI) in W. rewrite records_msg in Hsm. rewrite encodable_eq in He. apply (ser_len_lt D sch) in Hsm.
    destruct IH as [_ IH]. destruct (schema_ok_msg sch HS m) as (_ & Hnd & _).
    assert (Wo : all2 (wt D) (contents sch y m) (map fld_type (msg sch m)) = true).
    { destruct (wt_msg _ _ _ Hy) as ([o|] & -> & Ho).
      - destruct (wts_struct D o (SNamed m)) as (os & -> & Wo); [discriminate|exact Ho|]. cbn [key_types] in Wo.
        rewrite (field_types_of D sch HI) in Wo. exact Wo.
      - apply zeros_types. }
    destruct (join_fields (msg sch m) [] [] (contents sch y m) xs eq_refl Hnd (msg_fields_ok sch HS HC m) Wo W IH He Hsm) as (ys & E1 & E2).
    destruct (good_fields sch D (msg sch m) [] [] xs eq_refl Hnd (msg_fields_ok sch HS HC m) W) as (_ & _ & _ & E3 & E4); try assumption.
    { apply Forall_forall. intros z _. apply good_all; assumption. }
    cbn [app] in E1, E3.
    apply (one (FMessage m) n (PLen (ser (message xs (msg sch m)))) (VPtr (Some (VStruct ys)))); [split; [exact E4|exact Hsm]|reflexivity| |exact E3| |apply records_msg].
    + cbn [SpecMsg.put]. change (match y with VPtr (Some (VStruct xs)) => xs | _ => zeros (msg sch m) end) with (contents sch y m). rewrite E1. reflexivity.
    + change (joined y (VPtr (Some (VStruct xs))) (FMessage m)) with (VPtr (Some (VStruct (joined_msg (contents sch y m) xs (msg sch m))))). cbn [norm]. rewrite E2. reflexivity.
  - (* repeated *)
    cbn [go_type] in Hw, Hy. destruct (wt_slice _ _ _ Hw) as (nn & items & spare & -> & Hi & Hsp).
    destruct (wt_slice _ _ _ Hy) as (on & old & ospare & -> & _ & _).
    assert (GI : Forall (good sch D) items) by (apply Forall_forall; intros z _; apply good_all; assumption).
    destruct (good_items sch D n e Hf Hn items GI Hi He Hsm) as (ps & ws & E1 & E2 & E3).
    cbn [SpecJoin.joined]. destruct (flat_map (fun y => if is_nil y then [] else [kept y e]) items) as [|k0 ks] eqn:Ek.
    + destruct ws; [|discriminate E2]. destruct ps as [|p ps].
      * exists [], (VSlice on old ospare). split; [exact E1|]. split; [constructor|reflexivity].
      * exfalso. destruct (E3 false []) as [nn' E]. pose proof (put_list_grows e _ _ _ E _ _ _ _ _ _ eq_refl eq_refl) as L. discriminate L.
    + destruct ps as [|p ps].
      { destruct (E3 false []) as [nn' E]. destruct ws; [discriminate E2|]. inversion E. }
      destruct (E3 on old) as [nn' E]. exists (p :: ps), (VSlice nn' (old ++ ws) []). split; [exact E1|]. split.
      * inversion E as [|? ? z ? ? A1 A2 A3 A4 A5]; subst. econstructor; [exact A1|exact A2|exact A3|exact A4|exact A5].
      * rewrite !norm_slice, !map_app, E2. f_equal. destruct old; [|reflexivity]. destruct ws; [discriminate E2|reflexivity].
  - (* map *)
    cbn [go_type] in Hw, Hy. destruct (wt_map _ _ _ _ Hw) as (mm & -> & Hm). destruct (wt_map _ _ _ _ Hy) as (om & -> & _). clear Hw.
    apply andb_true_iff in Hf. destruct Hf as [Hk Hv].
    destruct mm as [[|kv l]|]; try discriminate He. destruct Hm as [Hm Hd].
    destruct (join_entries n k e Hk Hv Hn (kv :: l) Hm He Hsm om (entries om) eq_refl) as (ps & z & E1 & E2 & E3).
    exists ps, (VMap z). split; [exact E1|]. split; [exact E2|].
    cbn [SpecJoin.joined]. rewrite !norm_map. change (match om with Some old => old | None => [] end) with (entries om).
    cbn [entries]. destruct (entries z), (fold_left _ (kv :: l) (entries om)); try discriminate E3; [reflexivity|]. rewrite E3. reflexivity.
Qed.
End Join.
