(** Consequences of calls being answered as for one alike schema: a program
    reads what it has written. *)
From Coq Require Import ZifyBool ZifyNat ZifyN String.
From Verif Require Import Base Wire GoType Leaf Codec Tag Walker Api Resolve Typing SpecWire SpecTag SpecMsg SpecProto SpecOut SpecIn SpecZig
  TypingFacts CodecSim WalkSeq MsgResolve MsgDec MsgRound MsgApi ProtoGen ProtoFacts ProtoFit ProtoThms OutFacts OutThms InThms ZigApi ZigThms SpecLib.
Local Close Scope string_scope.

Lemma answers_app D a : forall b s, answers D (a ++ b) s = answers D a s ++ answers D b (state_after D a s).
Proof. induction a as [|r a IH]; intros b s; [reflexivity|]. cbn [app answers]. rewrite IH. reflexivity. Qed.
Lemma answers_length D a : forall s, length (answers D a s) = length a.
Proof. induction a as [|r a IH]; intros s; [reflexivity|]. cbn [answers length]. rewrite IH. reflexivity. Qed.
Lemma F2_app {A B} (R : A -> B -> Prop) a b : forall a' b', length a = length a' -> Forall2 R (a ++ b) (a' ++ b') -> Forall2 R b b'.
Proof. induction a as [|x a IH]; intros [|y a'] b' L H; try discriminate; [exact H|]. inversion H; subst. cbn in L. eapply IH; [|eassumption]. congruence. Qed.

Section Alike.
Variables sch sch' : schema.
Hypothesis HA : alike sch sch'.
Lemma alike_msg m : Forall2 (alike_field sch) (msg sch m) (msg sch' m).
Proof.
  unfold msg. assert (G : forall a b m, Forall2 (Forall2 (alike_field sch)) a b -> Forall2 (alike_field sch) (nth m a []) (nth m b [])).
  { intros a b m0 H. revert m0. induction H; intros [|m0]; cbn; auto; constructor. }
  apply G. exact HA.
Qed.
Lemma alike_zeros fs fs' : Forall2 (alike_field sch) fs fs' -> zeros fs = zeros fs'.
Proof.
  unfold zeros. induction 1 as [|a b fs fs' Hab _ IH]; [reflexivity|]. cbn [map]. rewrite IH. f_equal. destruct Hab as [<-|(n & s & -> & -> & _)]; reflexivity.
Qed.
Lemma kept_fields (P : val -> Prop) : (forall x, P x -> forall f f', (f = f' \/ exists s s', f = FRepeated (FAlways s) /\ f' = FRepeated (FAlways s')) -> kept sch x f = kept sch' x f') ->
  forall xs, Forall P xs -> forall fs fs', Forall2 (alike_field sch) fs fs' -> kept_msg sch xs fs = kept_msg sch' xs fs'.
Proof.
  intros HP xs H. induction H as [|x xs Hx _ IH]; intros fs fs' F; [destruct F; reflexivity|]. destruct F as [|a b fs fs' Hab F]; [reflexivity|].
  specialize (IH _ _ F). destruct Hab as [<-|(n & s & -> & -> & _)].
  - destruct a as [t|n f]; cbn [kept_msg]; rewrite IH; [reflexivity|]. rewrite (HP x Hx f f (or_introl eq_refl)). reflexivity.
  - cbn [kept_msg]. rewrite IH. f_equal. apply HP; [exact Hx|]. right. eauto.
Qed.
Definition kept_same (v : val) : Prop := forall f f', (f = f' \/ exists s s', f = FRepeated (FAlways s) /\ f' = FRepeated (FAlways s')) -> kept sch v f = kept sch' v f'.
Lemma kept_all v : kept_same v.
Proof.
  induction v as [v IH] using val_ind2. intros f f' [<-|(s & s' & -> & ->)].
  - destruct f as [s|s|s|s| |m|e|k e]; try (destruct v; reflexivity).
    + destruct v as [| | | | | | | | | | | |[[| | | | | | | | | | | | |fs|]|]| |]; try reflexivity. destruct IH as [_ IH].
      change (VPtr (Some (VStruct (kept_msg sch fs (msg sch m)))) = VPtr (Some (VStruct (kept_msg sch' fs (msg sch' m))))).
      do 3 f_equal. apply (kept_fields kept_same); [auto|exact IH|apply alike_msg].
    + destruct v as [| | | | | | | | | |nn items spare| | | |]; try reflexivity. destruct IH as [IH _]. cbn [kept]. f_equal.
      induction IH as [|x l Hx _ IHl]; [reflexivity|]. cbn [flat_map]. rewrite IHl, (Hx e e (or_introl eq_refl)). reflexivity.
    + destruct v as [| | | | | | | | | | |[l|]| | |]; try reflexivity. cbn [kept]. do 2 f_equal.
      induction IH as [|[a x] l [_ Hx] _ IHl]; [reflexivity|]. cbn [map]. cbn [snd] in Hx. rewrite IHl, (Hx e e (or_introl eq_refl)). reflexivity.
  - destruct v as [| | | | | | | | | |nn items spare| | | |]; try reflexivity. cbn [kept]. f_equal. clear.
    induction items as [|x l IHl]; [reflexivity|]. cbn [flat_map]. rewrite IHl. destruct x as [| | | | | | | | | | | |[[]|]| |]; reflexivity.
Qed.
Lemma alike_kept m xs : kept_msg sch xs (msg sch m) = kept_msg sch' xs (msg sch' m).
Proof. apply (kept_fields kept_same); [auto|apply Forall_forall; intros; apply kept_all|apply alike_msg]. Qed.
Lemma scope_other s : scope_field (FRepeated (FAlways s)) = true -> scope_field (FRepeated (FAlways (other s))) = true.
Proof. destruct s; auto. Qed.
Lemma alike_scope : in_scope sch = true -> in_scope sch' = true.
Proof.
  unfold in_scope. assert (G : forall a b, Forall2 (Forall2 (alike_field sch)) a b -> forallb scope_msg a = true -> forallb scope_msg b = true).
  { induction 1 as [|fs fs' a b H _ IH]; [auto|]. cbn [forallb]. rewrite !andb_true_iff. intros [H1 H2]. split; [|auto]. unfold scope_msg in *.
    clear - H H1. induction H as [|x y fs fs' Hxy _ IH]; [reflexivity|]. cbn [forallb] in *. rewrite andb_true_iff in *. destruct H1 as [H1 H2]. split; [|auto].
    destruct Hxy as [<-|(n & s & -> & -> & _)]; [exact H1|apply scope_other; exact H1]. }
  apply G. exact HA.
Qed.
End Alike.
Lemma scope_in sch f : in_scope sch = true -> In f (fields_of sch) -> scope_field f = true.
Proof.
  intros H Hf. unfold fields_of in Hf. apply in_flat_map in Hf. destruct Hf as (fs & Hfs & Hf). apply in_flat_map in Hf. destruct Hf as ([t|n g] & Hg & Hf); [destruct Hf|].
  destruct Hf as [<-|[]]. unfold in_scope in H. rewrite forallb_forall in H. specialize (H _ Hfs). unfold scope_msg in H. rewrite forallb_forall in H. exact (H _ Hg).
Qed.
Lemma scope_separate sch : in_scope sch = true -> separate sch = true.
Proof.
  intros H. assert (N : forall s, scope_elem (FAlways s) = false -> lists_of sch s = false).
  { intros s Hs. destruct (lists_of sch s) eqn:E; [|reflexivity]. unfold lists_of in E. apply existsb_exists in E. destruct E as (f & Hf & E). apply (scope_in sch f H) in Hf.
    destruct f as [| | | | | |[| | |t| | | |]|]; try discriminate E. destruct (sty_eq_dec t s) as [->|]; [|discriminate]. cbn [scope_field] in Hf. congruence. }
  unfold separate. rewrite !(N Y_sfixed32), !(N Y_sfixed64) by reflexivity. rewrite !andb_false_r. reflexivity.
Qed.

Section Own.
Variables (D : decls) (sch : schema).
Hypothesis HI : implements D sch = true.
Hypothesis HS : schema_ok sch = true.
Hypothesis HM : all_made sch = true.
Hypothesis HC : in_scope sch = true.
Lemma ask_ok m xs : wts D (VStruct xs) (SNamed m) = true -> iface_ok D (ptr m xs) = true.
Proof. intros H. cbn [iface_ok]. destruct (wts_msg _ _ _ H) as [K _]. unfold user_key in K. first [exact K|rewrite K; exact H|rewrite K; reflexivity]. Qed.
Lemma own_reading_proof rs1 rs2 m xs : Forall (fun r => iface_ok D (request_arg r) = true) (rs1 ++ rs2) -> wts D (VStruct xs) (SNamed m) = true -> writable sch m xs ->
  exists b ys, fst (Marshal D (ptr m xs) (state_after D rs1 g_empty)) = Returns (Some b, None) /\
    fst (Unmarshal D b (ptr m (zeros (msg sch m))) (state_after D rs2 (snd (Marshal D (ptr m xs) (state_after D rs1 g_empty))))) = Returns (ptr m ys, None) /\
    map norm ys = map norm (kept_msg sch xs (msg sch m)) /\ wts D (VStruct ys) (SNamed m) = true.
Proof.
  intros HR Hw HW. pose proof (all_made_generable sch HM) as HG. apply Forall_app in HR. destruct HR as [HR1 HR2].
  pose proof (calls_alike_proof D sch HI HS HG (scope_separate sch HC)) as CA.
  pose proof (wts_msg _ _ _ Hw) as [Hk _].
  assert (Wz : wts D (VStruct (zeros (msg sch m))) (SNamed m) = true) by (rewrite <- (zero_struct_of D sch HI); apply zero_struct_wts; apply user_key_ok; exact Hk).
  assert (B : exists b, fst (Marshal D (ptr m xs) (state_after D rs1 g_empty)) = Returns (Some b, None)).
  { destruct (CA (rs1 ++ [AskMarshal (ptr m xs)])) as (sch' & A & F).
    { apply Forall_app. split; [exact HR1|]. constructor; [apply ask_ok; exact Hw|constructor]. }
    rewrite answers_app in F. apply F2_app in F; [|symmetry; apply answers_length]. inversion F as [|? ? ? ? R _]; subst. cbn [right_answer ask fst] in R.
    destruct (HW sch' A) as [E L]. destruct (retags_all sch D sch sch' HI A) as [I' T].
    assert (O := right_proof (retags D sch') sch' I' (generable_all_made _ (alike_generable _ _ _ A HG)) m xs (alike_scope sch sch' A HC)). rewrite <- (types_wts D _ T) in O.
    specialize (O Hw E). rewrite O in R. cbn [just fst snd] in R. eexists. apply R; [exact Hw|]. unfold zlen in L. lia. }
  destruct B as [b B]. exists b.
  destruct (CA (rs1 ++ [AskMarshal (ptr m xs)] ++ rs2 ++ [AskUnmarshal b (ptr m (zeros (msg sch m)))])) as (sch' & A & F).
  { apply Forall_app. split; [exact HR1|]. apply Forall_app. split; [constructor; [apply ask_ok; exact Hw|constructor]|]. apply Forall_app. split; [exact HR2|]. constructor; [apply ask_ok; exact Wz|constructor]. }
  rewrite answers_app in F. apply F2_app in F; [|symmetry; apply answers_length]. cbn [app answers ask fst snd] in F.
  inversion F as [|? ? ? ? R F2]; subst. rewrite answers_app in F2. apply F2_app in F2; [|symmetry; apply answers_length]. cbn [answers ask fst] in F2.
  inversion F2 as [|? ? ? ? U _]; subst.
  destruct (HW sch' A) as [E L]. destruct (retags_all sch D sch sch' HI A) as [I' T]. pose proof (alike_scope sch sch' A HC) as C'. pose proof (alike_ok _ _ _ A HS) as S'.
  assert (Hw2 := Hw). rewrite (types_wts D _ T) in Hw2.
  pose proof (right_proof (retags D sch') sch' I' (generable_all_made _ (alike_generable _ _ _ A HG)) m xs C' Hw2 E) as O.
  cbn [right_answer] in R. rewrite O in R. cbn [just fst snd] in R.
  assert (Eb : b = ser (message sch' xs (msg sch' m))).
  { assert (X : fst (Marshal D (ptr m xs) (state_after D rs1 g_empty)) = Returns (Some (ser (message sch' xs (msg sch' m))), None)) by (apply R; [exact Hw|unfold zlen in L; lia]). congruence. }
  destruct (merge_message sch' (retags D sch') I' S' C' m xs (proj2 (wts_msg _ _ _ Hw2)) E L) as (zs & G & N & P & Bo).
  cbn [right_answer] in U. rewrite <- Eb in *.
  specialize (U Wz (zeros_fresh _) Bo L (zeros (msg sch m)) eq_refl).
  rewrite (reads_right_proof sch' C'), (lib_plain sch' _ _ _ _ P) in U. unfold mg in G. rewrite <- (alike_zeros sch _ _ (alike_msg sch sch' A m)) in G. rewrite G in U.
  destruct U as (ys & U & Ny & _ & Wy). exists ys. split; [exact B|]. split; [exact U|]. split; [|exact Wy]. rewrite Ny, N. rewrite (alike_kept sch sch' A). reflexivity.
Qed.
End Own.
