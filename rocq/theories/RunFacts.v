(** Proofs about runs of the plugin. *)
From Coq Require Import String ZifyBool ZifyNat.
From Verif Require Import Base GenFile SpecGenFile StructTagFacts GenFileFacts RefutePlugin Run SpecRun.
Local Open Scope list_scope.

Lemma skip_at gs x rest : Skip (length gs) (gs ++ x :: rest) = gs ++ {| o_name := o_name x; o_index := o_index x; o_skip := true |} :: rest.
Proof. induction gs as [|g gs IH]; cbn; [reflexivity|]. rewrite IH. reflexivity. Qed.

Section Files.
Variable files : list rfile.
Hypothesis Hord : ordered (map r_file files).
Definition entry (i : nat) (f : rfile) : ofile := {| o_name := String.append (r_prefix f) ".pb.go"; o_index := i; o_skip := false |}.

Lemma run_imports_spec gen f : (forall imp gs, In imp (f_imports (r_file f)) -> nth_error files (i_file imp) <> None ->
    exists g rest, gen (i_file imp) gs = Some (length gs, gs ++ g :: rest) /\ Forall (fun g => o_skip g = true) rest) ->
  forall imps gs, incl imps (f_imports (r_file f)) ->
  exists rest, runImports gen files f imps gs = Some (gs ++ rest) /\ Forall (fun g => o_skip g = true) rest.
Proof.
  intros G. induction imps as [|imp imps IH]; intros gs I; cbn [runImports].
  - exists []. rewrite app_nil_r. auto.
  - assert (K : exists rest, runImport gen files f imp gs = Some (gs ++ rest) /\ Forall (fun g => o_skip g = true) rest).
    { unfold runImport. destruct (nth_error files (i_file imp)) as [x|] eqn:E; [|exists []; rewrite app_nil_r; auto].
      destruct (String.eqb _ _); [exists []; rewrite app_nil_r; auto|]. destruct (negb _); [exists []; rewrite app_nil_r; auto|].
      destruct (G imp gs) as (g & rest & -> & F); [apply I; left; reflexivity|congruence|]. rewrite skip_at. eexists. split; [reflexivity|]. constructor; [reflexivity|exact F]. }
    destruct K as (r1 & -> & F1). destruct (IH (gs ++ r1)) as (r2 & -> & F2); [intros x Hx; apply I; right; exact Hx|].
    exists (r1 ++ r2). rewrite app_assoc. split; [reflexivity|]. apply Forall_app. auto.
Qed.
Lemma run_file_spec fuel : forall i f gs, (i < fuel)%nat -> nth_error files i = Some f ->
  exists rest, runFile fuel files i gs = Some (length gs, gs ++ entry i f :: rest) /\ Forall (fun g => o_skip g = true) rest.
Proof.
  induction fuel as [|fuel IH]; intros i f gs L E; [lia|]. cbn [runFile]. rewrite E.
  destruct (run_imports_spec (runFile fuel files) f) with (imps := f_imports (r_file f)) (gs := gs ++ [entry i f]) as (rest & R & F); [|apply incl_refl|].
  - intros imp gs' I N. assert (Li : (i_file imp < i)%nat). { apply (Hord i (r_file f)); [rewrite nth_error_map, E; reflexivity|exact I]. }
    destruct (nth_error files (i_file imp)) as [g|] eqn:Eg; [|contradiction].
    destruct (IH (i_file imp) g gs' ltac:(lia) Eg) as (rest & R & F). eauto.
  - unfold entry in R. rewrite R. exists rest. rewrite <- app_assoc. auto.
Qed.
Lemma contents_skipped rest : Forall (fun g => o_skip g = true) rest -> collect (contents files) rest = Some [].
Proof. induction 1 as [|g rest S F IH]; [reflexivity|]. cbn [collect]. unfold contents at 1. rewrite S, IH. reflexivity. Qed.
Lemma collect_app {A B} (f : A -> option (list B)) a b : collect f (a ++ b) = match collect f a, collect f b with Some x, Some y => Some (x ++ y) | _, _ => None end.
Proof.
  induction a as [|x a IH]; cbn; [destruct (collect f b); reflexivity|]. rewrite IH. destruct (f x), (collect f a), (collect f b); try reflexivity. rewrite app_assoc. reflexivity.
Qed.
Lemma contents_made i f : nth_error files i = Some f -> exists out, contents files (entry i f) = Some [out] /\ made_from files f out.
Proof.
  intros E. destruct (generated_decls_proof _ Hord i (r_file f)) as (ds & G & X); [rewrite nth_error_map, E; reflexivity|].
  unfold contents, entry. cbn [o_skip o_index o_name]. rewrite G. eexists. split; [reflexivity|]. split; [reflexivity|exact X].
Qed.
Lemma run_all_spec : forall rest pre gs, files = pre ++ rest ->
  exists gs', runAll files (length pre) rest gs = Some (gs ++ gs') /\ exists fs, collect (contents files) gs' = Some fs /\ Forall2 (made_from files) (filter r_generate rest) fs.
Proof.
  induction rest as [|f rest IH]; intros pre gs E; cbn [runAll filter].
  - exists []. rewrite app_nil_r. split; [reflexivity|]. exists []. split; [reflexivity|constructor].
  - assert (E' : files = (pre ++ [f]) ++ rest) by (rewrite <- app_assoc; exact E).
    assert (Ef : nth_error files (length pre) = Some f) by (rewrite E, nth_error_app2, Nat.sub_diag by lia; reflexivity).
    destruct (r_generate f).
    + destruct (run_file_spec (S (length pre)) (length pre) f gs (Nat.lt_succ_diag_r _) Ef) as (r1 & -> & F1).
      destruct (IH (pre ++ [f]) (gs ++ entry (length pre) f :: r1) E') as (gs' & R & fs & C & M).
      rewrite app_length in R. cbn [length] in R. rewrite Nat.add_comm in R. cbn [Nat.add] in R. rewrite R.
      exists ((entry (length pre) f :: r1) ++ gs'). rewrite app_assoc. split; [reflexivity|].
      destruct (contents_made _ _ Ef) as (out & Co & Mo). exists (out :: fs). split; [|constructor; assumption].
      rewrite collect_app, C. cbn [collect]. rewrite Co, (contents_skipped _ F1). reflexivity.
    + destruct (IH (pre ++ [f]) gs E') as (gs' & R & X). rewrite app_length in R. cbn [length] in R. rewrite Nat.add_comm in R. exists gs'. split; [exact R|exact X].
Qed.
Lemma plugin_response_proof : exists fs, run_plugin files = Some {| a_files := fs; a_features := 1 |} /\ Forall2 (made_from files) (filter r_generate files) fs.
Proof.
  destruct (run_all_spec files [] [] eq_refl) as (gs & R & fs & C & M). exists fs. unfold run_plugin. cbn [length app] in R. rewrite R, C. auto.
Qed.
Lemma plugin_names_proof fs n : run_plugin files = Some {| a_files := fs; a_features := n |} -> NoDup (map r_prefix files) -> NoDup (map fst fs).
Proof.
  intros E N. destruct plugin_response_proof as (fs' & E' & M). rewrite E in E'. injection E' as -> _.
  assert (N' : NoDup (map r_prefix (filter r_generate files))).
  { clear - N. induction files as [|f l IH]; cbn; [constructor|]. inversion N as [|? ? N1 N2]; subst. destruct (r_generate f); cbn; [|auto].
    constructor; [|auto]. intros H. apply N1. clear - H. induction l as [|g l IH]; cbn in *; [exact H|]. destruct (r_generate g); cbn in *; [destruct H; auto|auto]. }
  assert (Q : map fst fs' = map (fun f => String.append (r_prefix f) ".pb.go") (filter r_generate files)).
  { clear - M. induction M as [|f o l fs [H _] M IH]; cbn; [reflexivity|]. congruence. }
  rewrite Q. clear - N'. induction (filter r_generate files) as [|f l IH]; cbn in *; [constructor|]. inversion N' as [|? ? N1 N2]; subst.
  constructor; [|auto]. intros H. apply N1. rewrite in_map_iff in *. destruct H as (g & H & I). exists g. split; [|exact I].
  clear - H. revert H. generalize (r_prefix g) (r_prefix f). induction s as [|c s IH]; intros [|c' s'] H; cbn in H; [reflexivity| | |injection H as -> H; f_equal; auto].
  - exfalso. apply (f_equal String.length) in H. cbn in H. rewrite StructTagFacts.length_app_s in H. cbn in H. lia.
  - exfalso. apply (f_equal String.length) in H. cbn in H. rewrite StructTagFacts.length_app_s in H. cbn in H. lia.
Qed.
End Files.
