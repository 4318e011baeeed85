(** Declarations that implement a schema in scope are supported. *)
From Coq Require Import String.
From Verif Require Import Base Wire GoType Leaf Codec Tag Walker Resolve Typing SpecWire SpecTag SpecMsg
  TypingFacts MsgResolve.

Section Fit.
Variables (D : decls) (sch : schema).
Hypothesis HI : implements D sch = true.
Hypothesis HS : schema_ok sch = true.
Hypothesis HC : in_scope sch = true.

Lemma gotype_eqb_refl t : gotype_eqb t t = true.
Proof. apply gotype_eqb_eq. reflexivity. Qed.
Lemma skind_eqb_refl t : skind_eqb t t = true.
Proof. apply skind_eqb_eq. reflexivity. Qed.

Lemma pref_fits n f : scope_field f = true -> msgs_exist (length sch) f = true -> codec_fits D (pref_of n f) (go_type f) = true.
Proof.
  intros Hs Hm. rewrite <- (implements_length D sch HI) in Hm.
  destruct f as [s|s|s|s| |m|e|k e]; cbn [scope_field] in Hs; try discriminate.
  - destruct s; try discriminate; reflexivity.
  - destruct s; try discriminate; reflexivity.
  - destruct s; try discriminate; reflexivity.
  - reflexivity.
  - cbn. cbn [msgs_exist] in Hm. rewrite Nat.eqb_refl. exact Hm.
  - cbn [pref_of go_type codec_fits]. rewrite gotype_eqb_refl. cbn [andb].
    destruct e as [s|s|s|s| |m|e|k e]; cbn [scope_elem] in Hs; try discriminate; try reflexivity.
    + destruct s; try discriminate; reflexivity.
    + cbn. cbn [msgs_exist] in Hm. rewrite Nat.eqb_refl. exact Hm.
  - apply andb_true_iff in Hs. destruct Hs as [Hk He].
    cbn [pref_of go_type codec_fits]. rewrite gotype_eqb_refl, skind_eqb_refl. unfold entry_fits. rewrite (resolve_entry k e Hk He).
    cbn [spec_fields mkfield f_codec]. cbn [msgs_exist] in Hm.
    assert (A : flat_fits D (pref_of 1 (FAlways k)) (TScalar (go_kind k)) = true) by (destruct k; try discriminate; reflexivity).
    assert (B : flat_fits D (pref_of 2 e) (go_type e) = true).
    { destruct e as [s|s|s|s| |m|e|k' e]; cbn [scope_val] in He; try discriminate; try reflexivity.
      - destruct s; try discriminate; reflexivity.
      - cbn. cbn [msgs_exist] in Hm. rewrite Nat.eqb_refl. exact Hm. }
    assert (C : flat_fits D (pref_of 1 (loose (FAlways k))) (TScalar (go_kind k)) = true) by (destruct k; try discriminate; reflexivity).
    assert (E : flat_fits D (pref_of 2 (loose e)) (go_type e) = true).
    { destruct e as [s|s|s|s| |m|e|k' e]; cbn [scope_val] in He; try discriminate; exact B. }
    cbn [pref_of] in A. rewrite A, B, C, E. reflexivity.
Qed.

(** The fields of a message, resolved, with their positions. *)
Lemma spec_fields_in fs : forall i g, In g (spec_fields i fs) ->
  exists j n f, nth_error fs j = Some (Field n f) /\ g = mkfield (i + j) (tag_of n f) (pref_of n f).
Proof.
  induction fs as [|[t|n f] fs IH]; intros i g; cbn [spec_fields]; [intros []| |].
  - intros H. destruct (IH _ _ H) as (j & n & f & E & ->). exists (S j), n, f. split; [exact E|]. rewrite Nat.add_succ_r. reflexivity.
  - intros [<-|H].
    + exists 0, n, f. split; [reflexivity|]. rewrite Nat.add_0_r. reflexivity.
    + destruct (IH _ _ H) as (j & n' & f' & E & ->). exists (S j), n', f'. split; [exact E|]. rewrite Nat.add_succ_r. reflexivity.
Qed.

Lemma in_decl gs : In gs D -> exists fs, In fs sch /\ implements_msg gs fs = true /\ pfields 0 gs = Some (spec_fields 0 fs) /\
  map gf_type gs = map fld_type fs /\ scope_msg fs = true /\ (forall n f, In (Field n f) fs -> msgs_exist (length sch) f = true).
Proof.
  intros Hin. apply In_nth_error in Hin. destruct Hin as [m Hm]. pose proof (implements_nth D sch HI m) as H. rewrite Hm in H.
  destruct (nth_error sch m) as [fs|] eqn:E; [|contradiction]. exists fs.
  destruct (schema_ok_msg sch HS m) as (A & _ & B). pose proof (scope_nth sch HC m) as C. rewrite (msg_nth _ _ _ E) in *.
  split; [eapply nth_error_In; exact E|]. split; [exact H|]. split; [apply resolve_fields; assumption|].
  split; [apply implements_types; exact H|]. split; [exact C|exact B].
Qed.

Lemma scope_in fs n f : scope_msg fs = true -> In (Field n f) fs -> scope_field f = true.
Proof. unfold scope_msg. rewrite forallb_forall. intros H Hin. exact (H _ Hin). Qed.

Lemma schema_fits : decls_fit D = true.
Proof.
  unfold decls_fit. apply forallb_forall. intros gs Hin. destruct (in_decl gs Hin) as (fs & _ & _ & Hp & Ht & Hsc & Hm).
  unfold struct_fits. rewrite Hp. apply forallb_forall. intros g Hg. apply spec_fields_in in Hg.
  destruct Hg as (j & n & f & E & ->). unfold field_fits. cbn [mkfield f_idx f_codec Nat.add].
  apply (map_nth_error fld_type) in E as E'. rewrite <- Ht in E'. rewrite nth_error_map in E'.
  destruct (nth_error gs j) as [g|]; [|discriminate]. cbn in E'. inversion E' as [E'']. rewrite E''.
  apply nth_error_In in E. apply pref_fits; [eapply scope_in; eassumption|eapply Hm; eassumption].
Qed.

(** ** What the walker remembers *)
Lemma flat_visits n f : scope_field f = true ->
  pref_visits (go_type f) (pref_of n f) = if remembered f then [(go_type f, pref_of n f)] else [].
Proof.
  intros Hs. destruct f as [s|s|s|s| |m|e|k e]; cbn [scope_field] in Hs; try discriminate; try reflexivity.
  - destruct e as [s|s|s|s| |m|e|k e]; cbn [scope_elem] in Hs; try discriminate; reflexivity.
  - apply andb_true_iff in Hs. destruct Hs as [_ He]. cbn [pref_of go_type pref_visits remembered].
    destruct e as [s|s|s|s| |m|e|k' e]; cbn [scope_val] in He; try discriminate; reflexivity.
Qed.
Lemma entry_none n f : scope_field f = true -> entry_visits (pref_of n f) = [].
Proof.
  destruct f as [s|s|s|s| |m|e|k e]; cbn [scope_field]; try reflexivity.
  intros Hs. apply andb_true_iff in Hs. destruct Hs as [Hk He]. cbn [pref_of entry_visits]. rewrite (resolve_entry k e Hk He).
  destruct e as [s|s|s|s| |m|e|k' e]; cbn [scope_val] in He; try discriminate; destruct k; try discriminate; reflexivity.
Qed.

Lemma visits_in x : In x (visits D) -> exists n f, In f (fields_of sch) /\ scope_field f = true /\ remembered f = true /\ x = (go_type f, pref_of n f).
Proof.
  unfold visits. rewrite in_flat_map. intros (gs & Hin & Hx). destruct (in_decl gs Hin) as (fs & Hfs & _ & Hp & Ht & Hsc & _).
  unfold struct_visits in Hx. rewrite Hp in Hx. apply in_app_or in Hx. destruct Hx as [Hx|Hx].
  - unfold fields_visits in Hx. apply in_flat_map in Hx. destruct Hx as (g & Hg & Hx). apply spec_fields_in in Hg.
    destruct Hg as (j & n & f & E & ->). cbn [mkfield f_idx f_codec Nat.add] in Hx.
    apply (map_nth_error fld_type) in E as E'. rewrite <- Ht in E'. rewrite nth_error_map in E'.
    destruct (nth_error gs j) as [g|]; [|discriminate]. cbn in E'. inversion E' as [E'']. rewrite E'' in Hx.
    apply nth_error_In in E. pose proof (scope_in _ _ _ Hsc E) as S. rewrite (flat_visits n f S) in Hx.
    destruct (remembered f) eqn:R; [|destruct Hx]. destruct Hx as [<-|[]]. exists n, f. split; [|auto].
    unfold fields_of. apply in_flat_map. exists fs. split; [exact Hfs|]. apply in_flat_map. exists (Field n f). split; [exact E|left; reflexivity].
  - apply in_flat_map in Hx. destruct Hx as (g & Hg & Hx). apply spec_fields_in in Hg. destruct Hg as (j & n & f & E & ->).
    apply nth_error_In in E. cbn [mkfield f_codec] in Hx. rewrite (entry_none n f (scope_in _ _ _ Hsc E)) in Hx. destruct Hx.
Qed.

Lemma kind_pref n n' f g : scope_field f = true -> scope_field g = true -> remembered f = true -> remembered g = true ->
  go_type f = go_type g -> kind_fty f = kind_fty g -> pref_of n f = pref_of n' g.
Proof.
  intros Hf Hg Rf Rg Ht Hk. destruct f as [s|s|s|s| |m|e|k e]; try discriminate Rf; destruct g as [s'|s'|s'|s'| |m'|e'|k' e']; try discriminate Rg; try discriminate Ht.
  - cbn [scope_field go_type kind_fty] in *. destruct s; try discriminate Hf; destruct s'; try discriminate Hg; try discriminate Ht; try discriminate Hk; reflexivity.
  - cbn [scope_field] in *. destruct e as [s|s|s|s| |m|e|k e]; try discriminate Hf; destruct e' as [s'|s'|s'|s'| |m'|e'|k' e']; try discriminate Hg; try discriminate Ht.
    + cbn [scope_elem go_type kind_fty] in *. destruct s; try discriminate Hf; destruct s'; try discriminate Hg; try discriminate Ht; try discriminate Hk; reflexivity.
    + reflexivity.
    + inversion Ht. reflexivity.
Qed.

Hypothesis HK : coherent sch = true.
Lemma schema_functional : functional (visits D) = true.
Proof.
  unfold functional. apply forallb_forall. intros x Hx. apply forallb_forall. intros y Hy.
  destruct (visits_in x Hx) as (n & f & If & Sf & Rf & ->). destruct (visits_in y Hy) as (n' & g & Ig & Sg & Rg & ->). cbn [fst snd].
  destruct (gotype_eqb (go_type f) (go_type g)) eqn:E; [|reflexivity]. cbn [negb orb]. apply gotype_eqb_eq in E.
  unfold coherent in HK. rewrite forallb_forall in HK. specialize (HK _ If). rewrite forallb_forall in HK. specialize (HK _ Ig).
  rewrite Rf in HK. assert (T : is_type (go_type f) (go_type g) = true) by (unfold is_type; destruct (gotype_eq_dec _ _); [reflexivity|contradiction]).
  rewrite T in HK. cbn [andb negb orb] in HK. apply String.eqb_eq in HK.
  destruct (pref_eq_dec _ _) as [|N]; [reflexivity|]. exfalso. apply N. apply kind_pref; assumption.
Qed.
Theorem schema_supported : supported D = true.
Proof. unfold supported. rewrite schema_fits, schema_functional. reflexivity. Qed.
End Fit.
