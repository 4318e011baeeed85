(** What generated files declare. *)
From Coq Require Import String Lia Permutation.
From Verif Require Import Base GenFile SpecGenFile.
Local Open Scope list_scope.

(** Induction over messages. *)
Lemma pmsg_ind' : forall P : pmsg -> Prop, (forall n e o es ms, Forall P ms -> P (PMsg n e o es ms)) -> forall m, P m.
Proof.
  intros P H. fix IH 1. intros [n e o es ms]. apply H. induction ms as [|m ms IHms]; constructor; [apply IH|exact IHms].
Qed.
Lemma walk_eq : forall A (f : pmsg -> list A) m, walkMessage f m = f m ++ walkMessages f (g_nested m).
Proof. intros A f [n e o es ms]. reflexivity. Qed.
Lemma subtree_eq : forall m, subtree m = m :: concat (map subtree (g_nested m)).
Proof. intros [n e o es ms]. cbn [subtree g_nested]. f_equal. induction ms as [|m ms IH]; [reflexivity|]. cbn. f_equal. exact IH. Qed.

Lemma walk_subtree : forall A (f : pmsg -> list A) m, walkMessage f m = flat_map f (subtree m).
Proof.
  intros A f. apply pmsg_ind'. intros n e o es ms IH. rewrite walk_eq, subtree_eq. cbn [flat_map g_nested]. f_equal.
  unfold walkMessages. induction IH as [|m ms E _ IHms]; [reflexivity|]. cbn [flat_map map concat]. rewrite flat_map_app, E, IHms. reflexivity.
Qed.
Lemma walks_tree : forall A (f : pmsg -> list A) ms, walkMessages f ms = flat_map f (concat (map subtree ms)).
Proof.
  intros A f ms. unfold walkMessages. induction ms as [|m ms IH]; [reflexivity|]. cbn [flat_map map concat]. rewrite flat_map_app, walk_subtree, IH. reflexivity.
Qed.
Lemma tree_perm : forall ms, Permutation (ms ++ flat_map g_nested (concat (map subtree ms))) (concat (map subtree ms)).
Proof.
  assert (S : forall m, Permutation (m :: flat_map g_nested (subtree m)) (subtree m)).
  { apply pmsg_ind'. intros n e o es ms IH. rewrite subtree_eq. cbn [g_nested flat_map]. constructor.
    induction IH as [|m ms E _ IHms]; [constructor|]. cbn [map concat]. rewrite flat_map_app.
    apply Permutation_trans with ((m :: flat_map g_nested (subtree m)) ++ (ms ++ flat_map g_nested (concat (map subtree ms)))).
    - cbn [app]. constructor. rewrite !app_assoc. apply Permutation_app_tail. apply Permutation_app_comm.
    - apply Permutation_app; assumption. }
  induction ms as [|m ms IH]; [constructor|]. cbn [map concat]. rewrite flat_map_app.
  apply Permutation_trans with ((m :: flat_map g_nested (subtree m)) ++ (ms ++ flat_map g_nested (concat (map subtree ms)))).
  - cbn [app]. constructor. rewrite !app_assoc. apply Permutation_app_tail. apply Permutation_app_comm.
  - apply Permutation_app; [apply S|exact IH].
Qed.
Lemma all_messages_proof : forall f, Permutation (allMessages f) (tree f).
Proof. intro f. unfold allMessages, tree. rewrite walks_tree. apply tree_perm. Qed.
Lemma all_enums_proof : forall f, allEnums f = f_enums f ++ flat_map g_enums (tree f).
Proof. intro f. unfold allEnums, tree. rewrite walks_tree. reflexivity. Qed.

(** Parents come first. *)
Definition parented (ms l : list pmsg) : Prop :=
  forall l1 m l2, l = l1 ++ m :: l2 -> In m ms \/ exists p, In p l1 /\ In m (g_nested p).
Lemma split_app : forall A (l l' l1 l2 : list A) m, l ++ l' = l1 ++ m :: l2 ->
  (exists r, l = l1 ++ m :: r /\ l2 = r ++ l') \/ (exists r, l1 = l ++ r /\ l' = r ++ m :: l2).
Proof.
  induction l as [|x l IH]; intros l' l1 l2 m E; [right; exists l1; auto|]. destruct l1 as [|y l1]; cbn in E; injection E as <- E.
  - left. exists l. auto.
  - destruct (IH _ _ _ _ E) as [(r & -> & ->)|(r & -> & ->)]; [left|right]; exists r; auto.
Qed.
Lemma subtree_parented : forall m, parented [m] (subtree m).
Proof.
  assert (C : forall ms, Forall (fun m => parented [m] (subtree m)) ms -> parented ms (concat (map subtree ms))).
  { intros ms H. induction H as [|m ms S _ IH]; intros l1 x l2 E; cbn in E; [destruct l1; discriminate E|].
    destruct (split_app _ _ _ _ _ _ E) as [(r & E1 & _)|(r & -> & E2)].
    - destruct (S _ _ _ E1) as [[->|[]]|(p & I & N)]; [left; left; reflexivity|right; eauto].
    - destruct (IH _ _ _ E2) as [I|(p & I & N)]; [left; right; exact I|right]. exists p. split; [apply in_or_app; auto|exact N]. }
  apply pmsg_ind'. intros n e o es ms IH. rewrite subtree_eq. intros l1 x l2 E. destruct l1 as [|y l1]; cbn in E; injection E as <- E; [left; left; reflexivity|].
  right. destruct (C _ IH _ _ _ E) as [I|(p & I & N)]; [eexists; split; [left; reflexivity|exact I]|].
  exists p. split; [right; exact I|exact N].
Qed.
Lemma tree_parented : forall ms, parented ms (concat (map subtree ms)).
Proof.
  induction ms as [|m ms IH]; intros l1 x l2 E; cbn in E; [destruct l1; discriminate E|].
  destruct (split_app _ _ _ _ _ _ E) as [(r & E1 & _)|(r & -> & E2)].
  - destruct (subtree_parented m _ _ _ E1) as [[->|[]]|(p & I & N)]; [left; left; reflexivity|right; eauto].
  - destruct (IH _ _ _ E2) as [I|(p & I & N)]; [left; right; exact I|right]. exists p. split; [apply in_or_app; auto|exact N].
Qed.
Lemma flat_split : forall A B (f : A -> list B) l l1 m l2, flat_map f l = l1 ++ m :: l2 ->
  exists v1 p v2 r, l = v1 ++ p :: v2 /\ In m (f p) /\ l1 = flat_map f v1 ++ r.
Proof.
  intros A B f. induction l as [|x l IH]; intros l1 m l2 E; cbn in E; [destruct l1; discriminate E|].
  destruct (split_app _ _ _ _ _ _ E) as [(r & E1 & _)|(r & -> & E2)].
  - exists [], x, l, l1. split; [reflexivity|]. split; [rewrite E1; apply in_or_app; right; left; reflexivity|reflexivity].
  - destruct (IH _ _ _ E2) as (v1 & p & v2 & q & -> & I & ->). exists (x :: v1), p, v2, q. split; [reflexivity|]. split; [exact I|]. cbn. apply app_assoc.
Qed.
Lemma parents_first_proof : forall f l1 m l2, allMessages f = l1 ++ m :: l2 ->
  In m (f_messages f) \/ exists p, In p l1 /\ In m (g_nested p).
Proof.
  intros f l1 m l2 E. unfold allMessages in E. rewrite walks_tree in E.
  destruct (split_app _ _ _ _ _ _ E) as [(r & E1 & _)|(r & -> & E2)]; [left; rewrite E1; apply in_or_app; right; left; reflexivity|].
  destruct (flat_split _ _ _ _ _ _ _ E2) as (v1 & p & v2 & q & Ev & I & ->). right. exists p. split; [|exact I].
  destruct (tree_parented _ _ _ _ Ev) as [T|(p' & I' & N)]; apply in_or_app; [left; exact T|right].
  apply in_or_app; left. apply in_flat_map. eauto.
Qed.

(** Messages of a file. *)
Lemma inside_tree : forall f m, inside f m <-> In m (tree f).
Proof.
  intros f m. split.
  - assert (D : forall p l, In p (concat (map subtree l)) -> forall x, In x (g_nested p) -> In x (concat (map subtree l))).
    { assert (S : forall q p, In p (subtree q) -> forall x, In x (g_nested p) -> In x (subtree q)).
      { apply (pmsg_ind' (fun q => forall p, In p (subtree q) -> forall x, In x (g_nested p) -> In x (subtree q))).
        intros n e o es ms IH p. rewrite subtree_eq. cbn [g_nested]. intros [<-|I] x N; right.
        - cbn [g_nested] in N. apply in_concat. exists (subtree x). split; [apply in_map; exact N|rewrite subtree_eq; left; reflexivity].
        - apply in_concat in I as (s & Is & Ip). apply in_map_iff in Is as (q & <- & Iq). rewrite Forall_forall in IH.
          apply in_concat. exists (subtree q). split; [apply in_map; exact Iq|]. eapply IH; eauto. }
      intros p l I x N. apply in_concat in I as (s & Is & Ip). apply in_map_iff in Is as (q & <- & Iq).
      apply in_concat. exists (subtree q). split; [apply in_map; exact Iq|]. eapply S; eauto. }
    induction 1 as [m I|p m _ IH N]; [|eapply D; eauto]. apply in_concat. exists (subtree m). split; [apply in_map; exact I|rewrite subtree_eq; left; reflexivity].
  - intro I. apply in_split in I as (l1 & l2 & E).
    assert (H : forall k l1 l2 m, (length l1 < k)%nat -> tree f = l1 ++ m :: l2 -> inside f m).
    { induction k as [|k IH]; intros a b x L Ex; [lia|]. destruct (tree_parented _ _ _ _ Ex) as [T|(p & Ip & N)]; [constructor; exact T|].
      apply inside_nested with p; [|exact N]. apply in_split in Ip as (a1 & a2 & ->). apply (IH a1 (a2 ++ x :: b)).
      - rewrite app_length in L. cbn in L. lia.
      - rewrite Ex. rewrite <- app_assoc. reflexivity. }
    eapply H; eauto.
Qed.
Lemma inside_all : forall f m, inside f m <-> In m (allMessages f).
Proof.
  intros f m. rewrite inside_tree. split; intro I.
  - apply (Permutation_in _ (Permutation_sym (all_messages_proof f)) I).
  - apply (Permutation_in _ (all_messages_proof f) I).
Qed.
Lemma enum_all : forall f e, enum_of f e <-> In e (allEnums f).
Proof.
  intros f e. rewrite all_enums_proof, in_app_iff, in_flat_map. split.
  - intros [T|m I E]; [auto|right; exists m; split; [apply inside_tree; exact I|exact E]].
  - intros [T|(m & I & E)]; [constructor; exact T|apply enum_nested with m; [apply inside_tree; exact I|exact E]].
Qed.

Lemma declares_eq : forall f d, declares f d <-> In d (flat_map genEnum (allEnums f) ++ flat_map genMessageDecls (allMessages f)).
Proof.
  intros f d. rewrite in_app_iff, !in_flat_map. split.
  - intros [e E|e n z E V|m M X|m o M X O S|m o n M X O S N]; [left; exists e; split; [apply enum_all; exact E|left; reflexivity]| | | |].
    + left; exists e; split; [apply enum_all; exact E|right]. apply in_map_iff. exists (n, z). split; [reflexivity|exact V].
    + right; exists m; split; [apply inside_all; exact M|]. unfold genMessageDecls. rewrite X. left; reflexivity.
    + right; exists m; split; [apply inside_all; exact M|]. unfold genMessageDecls. rewrite X. right. apply in_flat_map. exists o. split; [exact O|].
      unfold genOneof. rewrite S. left; reflexivity.
    + right; exists m; split; [apply inside_all; exact M|]. unfold genMessageDecls. rewrite X. right. apply in_flat_map. exists o. split; [exact O|].
      unfold genOneof. rewrite S. right. apply in_map_iff. exists n. split; [reflexivity|exact N].
  - intros [(e & E & I)|(m & M & I)].
    + apply enum_all in E. destruct I as [<-|I]; [constructor; exact E|]. apply in_map_iff in I as ((n & z) & <- & V). econstructor; eauto.
    + apply inside_all in M. unfold genMessageDecls in I. destruct (g_entry m) eqn:X; [destruct I|]. destruct I as [<-|I]; [constructor; assumption|].
      apply in_flat_map in I as (o & O & I). unfold genOneof in I. destruct (o_synthetic o) eqn:S; [destruct I|].
      destruct I as [<-|I]; [eapply D_oneof; eauto|]. apply in_map_iff in I as (n & <- & N). eapply D_member; eauto.
Qed.
Lemma declares_no_selector : forall f d, declares f d -> match g_expr d with Selector _ _ => False | _ => True end.
Proof. intros f d []; exact I. Qed.

Lemma forward_in : forall imp d d', In d' (genForward imp d) <->
  upper (g_ident d) = true /\ g_ident d <> f_descriptor imp /\ (match g_expr d with Selector _ _ => False | _ => True end) /\
  d' = {| g_tok := g_tok d; g_ident := g_ident d; g_expr := Selector (f_package imp) (g_ident d) |}.
Proof.
  intros imp d d'. unfold genForward. destruct (upper (g_ident d)); cbn [negb]; [|split; [intros []|intros (E & _); discriminate E]].
  destruct (String.eqb_spec (g_ident d) (f_descriptor imp)) as [E|N]; [split; [intros []|tauto]|].
  destruct (g_expr d); cbn [In]; (split; [try (intros [<-|[]]; auto 6); intros []|intros (_ & _ & S & ->); auto]).
Qed.
Lemma imports_in : forall gen files f imps ds, genImports gen files f imps = Some ds ->
  (forall imp, In imp imps -> exists a, genImport gen files f imp = Some a) /\
  (forall d, In d ds <-> exists imp a, In imp imps /\ genImport gen files f imp = Some a /\ In d a).
Proof.
  intros gen files f. induction imps as [|imp imps IH]; intros ds E; cbn [genImports] in E.
  - injection E as <-. split; [intros imp []|]. intro d. split; [intros []|intros (imp & a & [] & _)].
  - destruct (genImport gen files f imp) as [a|] eqn:Ea; [|discriminate E]. destruct (genImports gen files f imps) as [b|] eqn:Eb; [|discriminate E].
    injection E as <-. destruct (IH _ eq_refl) as (T & H). split.
    + intros i [<-|I]; eauto.
    + intro d. rewrite in_app_iff, H. split.
      * intros [I|(i & c & I & Ec & Id)]; [exists imp, a; split; [left; reflexivity|auto]|exists i, c; split; [right; exact I|auto]].
      * intros (i & c & [<-|I] & Ec & Id); [left; congruence|right; eauto].
Qed.
Lemma generate_in : forall files, forall fuel i f ds, nth_error files i = Some f -> generateFile fuel files i = Some ds ->
  forall d, In d ds <-> declares f d \/ forwards files f d.
Proof.
  intros files. induction fuel as [|fuel IH]; intros i f ds Ef E d; [discriminate E|]. cbn [generateFile] in E. rewrite Ef in E.
  destruct (genImports _ _ _ _) as [fw|] eqn:EI; [|discriminate E]. cbn [option_map] in E. injection E as <-. rewrite in_app_iff, <- declares_eq.
  apply imports_in in EI as (Tot & H). rewrite H. clear H. rewrite or_comm. apply or_iff_compat_l. split.
  - intros (imp & a & I & Ea & Id). unfold genImport in Ea. destruct (nth_error files (i_file imp)) as [g|] eqn:Eg; [|injection Ea as <-; destruct Id].
    destruct (String.eqb_spec (f_package g) (f_package f)) as [Ep|Np]; [injection Ea as <-; destruct Id|].
    destruct (i_public imp) eqn:Pu; cbn [negb] in Ea; [|injection Ea as <-; destruct Id].
    destruct (generateFile fuel files (i_file imp)) as [gd|] eqn:Egd; [|discriminate Ea]. cbn [option_map] in Ea. injection Ea as <-.
    apply in_flat_map in Id as (d0 & I0 & F). apply forward_in in F as (U & N & S & ->).
    apply (IH _ _ _ Eg Egd) in I0 as [D|Fw]; [|inversion Fw; subst; cbn in S; destruct S]. econstructor; eauto.
  - intros [imp g d0 I Pu Eg Np D U N]. destruct (Tot _ I) as (a & Ea). exists imp, a. split; [exact I|]. split; [exact Ea|].
    unfold genImport in Ea. rewrite Eg in Ea. destruct (String.eqb_spec (f_package g) (f_package f)) as [Ep|_]; [contradiction|]. rewrite Pu in Ea. cbn [negb] in Ea.
    destruct (generateFile fuel files (i_file imp)) as [gd|] eqn:Egd; [|discriminate Ea]. cbn [option_map] in Ea. injection Ea as <-.
    apply in_flat_map. exists d0. split; [apply (IH _ _ _ Eg Egd); left; exact D|]. apply forward_in.
    split; [exact U|]. split; [exact N|]. split; [exact (declares_no_selector _ _ D)|reflexivity].
Qed.
Lemma generate_some : forall files, ordered files -> forall fuel i, (i < fuel)%nat -> generateFile fuel files i <> None.
Proof.
  intros files O. induction fuel as [|fuel IH]; intros i L; [lia|]. cbn [generateFile]. destruct (nth_error files i) as [f|] eqn:Ef; [|discriminate].
  assert (H : genImports (generateFile fuel files) files f (f_imports f) <> None).
  { pose proof (fun imp => O i f imp Ef) as Oi. induction (f_imports f) as [|imp imps IHi]; [discriminate|]. cbn [genImports].
    assert (A : genImport (generateFile fuel files) files f imp <> None).
    { unfold genImport. destruct (nth_error files (i_file imp)) as [g|]; [|discriminate]. destruct (String.eqb (f_package g) (f_package f)); [discriminate|]. destruct (negb (i_public imp)); [discriminate|].
      assert (B : generateFile fuel files (i_file imp) <> None) by (apply IH; specialize (Oi imp (or_introl eq_refl)); lia).
      destruct (generateFile fuel files (i_file imp)); [discriminate|contradiction]. }
    destruct (genImport (generateFile fuel files) files f imp); [|contradiction]. assert (B := IHi (fun i I => Oi i (or_intror I))).
    destruct (genImports (generateFile fuel files) files f imps); [discriminate|contradiction]. }
  destruct (genImports (generateFile fuel files) files f (f_imports f)); [discriminate|contradiction].
Qed.
Lemma generated_decls_proof : forall files, ordered files -> forall i f, nth_error files i = Some f ->
  exists ds, GenerateFile files i = Some ds /\ forall d, In d ds <-> declares f d \/ forwards files f d.
Proof.
  intros files O i f Ef. pose proof (generate_some files O (S i) i (Nat.lt_succ_diag_r i)) as N. unfold GenerateFile.
  destruct (generateFile (S i) files i) as [ds|] eqn:E; [|contradiction]. exists ds. split; [reflexivity|]. eapply generate_in; eauto.
Qed.

(** Names. *)
Lemma flat_perm : forall A B (f : A -> list B) l l', Permutation l l' -> Permutation (flat_map f l) (flat_map f l').
Proof.
  induction 1; cbn; [constructor|apply Permutation_app_head; assumption| |eapply Permutation_trans; eauto].
  rewrite !app_assoc. apply Permutation_app_tail, Permutation_app_comm.
Qed.
Definition own_decls (f : pfile) : list gdecl := flat_map genEnum (allEnums f) ++ flat_map genMessageDecls (allMessages f).
Lemma map_flat : forall A B C (h : B -> C) (f : A -> list B) l, map h (flat_map f l) = flat_map (fun x => map h (f x)) l.
Proof. induction l as [|x l IH]; cbn; [reflexivity|]. rewrite map_app, IH. reflexivity. Qed.
Lemma map_id_eq : forall A (f : A -> A) l, (forall x, f x = x) -> map f l = l.
Proof. induction l as [|x l IH]; intro H; cbn; [reflexivity|]. rewrite H, IH; auto. Qed.
Lemma own_decls_names : forall f, Permutation (map g_ident (own_decls f)) (own_names f).
Proof.
  intro f. unfold own_decls, own_names. rewrite map_app, !map_flat, <- !flat_map_concat_map. apply Permutation_app.
  - rewrite all_enums_proof. rewrite (flat_map_ext _ enum_names); [reflexivity|]. intro e. unfold genEnum, enum_names. cbn. rewrite map_map. reflexivity.
  - rewrite (flat_map_ext _ message_names); [apply flat_perm, all_messages_proof|]. intro m. unfold genMessageDecls, message_names.
    destruct (g_entry m); [reflexivity|]. cbn. f_equal. rewrite map_flat, <- flat_map_concat_map. apply flat_map_ext. intro o. unfold genOneof, oneof_names.
    destruct (o_synthetic o); [reflexivity|]. cbn. f_equal. rewrite map_map. apply map_id_eq. reflexivity.
Qed.
Definition selector (d : gdecl) : Prop := exists p n, g_expr d = Selector p n.
Lemma imports_selectors : forall gen files f imps ds, genImports gen files f imps = Some ds -> Forall selector ds.
Proof.
  intros gen files f imps ds E. apply imports_in in E as (_ & H). apply Forall_forall. intros d I. apply H in I as (imp & a & _ & Ea & Id).
  unfold genImport in Ea. destruct (nth_error files (i_file imp)) as [g|]; [|injection Ea as <-; destruct Id].
  destruct (String.eqb _ _); [injection Ea as <-; destruct Id|]. destruct (negb _); [injection Ea as <-; destruct Id|].
  destruct (gen (i_file imp)) as [l|]; [|discriminate Ea]. cbn [option_map] in Ea. injection Ea as <-. apply in_flat_map in Id as (x & _ & Ix).
  apply forward_in in Ix as (_ & _ & _ & ->). eexists _, _; reflexivity.
Qed.
Lemma generate_shape : forall fuel files i f ds, nth_error files i = Some f -> generateFile fuel files i = Some ds ->
  exists fw, genImports (generateFile (pred fuel) files) files f (f_imports f) = Some fw /\ ds = fw ++ own_decls f /\ Forall selector fw.
Proof.
  intros [|fuel] files i f ds Ef E; [discriminate E|]. cbn [generateFile] in E. rewrite Ef in E. cbn [pred].
  destruct (genImports (generateFile fuel files) files f (f_imports f)) as [fw|] eqn:EI; [|discriminate E]. injection E as <-. exists fw.
  split; [reflexivity|]. split; [reflexivity|]. eapply imports_selectors; exact EI.
Qed.
Lemma forward_selectors : forall g l, Forall selector l -> flat_map (genForward g) l = [].
Proof.
  induction 1 as [|d l (p & n & S) _ IH]; [reflexivity|]. cbn [flat_map]. rewrite IH, app_nil_r. unfold genForward. rewrite S.
  destruct (negb _); [reflexivity|]. destruct (String.eqb _ _); reflexivity.
Qed.
Definition forwarded (g : pfile) (n : string) : bool := upper n && negb (String.eqb n (f_descriptor g)).
Lemma forward_names : forall g l, (forall d, In d l -> match g_expr d with Selector _ _ => False | _ => True end) ->
  map g_ident (flat_map (genForward g) l) = filter (forwarded g) (map g_ident l).
Proof.
  induction l as [|d l IH]; intro H; [reflexivity|]. cbn [flat_map map filter]. rewrite map_app, IH by (intros x I; apply H; right; exact I).
  specialize (H d (or_introl eq_refl)). unfold genForward, forwarded at 2. destruct (upper (g_ident d)); [|reflexivity]. cbn [negb andb].
  destruct (String.eqb _ _); [reflexivity|]. cbn [negb]. destruct (g_expr d); reflexivity || contradiction.
Qed.
Lemma filter_perm : forall A (p : A -> bool) l l', Permutation l l' -> Permutation (filter p l) (filter p l').
Proof.
  intros A p l l' P. induction P; cbn; repeat match goal with |- context [if p ?x then _ else _] => destruct (p x) end; auto; [constructor|eapply Permutation_trans; eauto].
Qed.
Lemma import_names_proof : forall fuel files f imps fw, genImports (generateFile fuel files) files f imps = Some fw ->
  Permutation (map g_ident fw) (concat (map (import_names files f) imps)).
Proof.
  intros fuel files f. induction imps as [|imp imps IH]; intros fw E; cbn [genImports] in E; [injection E as <-; constructor|].
  destruct (genImport _ _ _ _) as [a|] eqn:Ea; [|discriminate E]. destruct (genImports _ _ _ _) as [b|]; [|discriminate E]. injection E as <-.
  rewrite map_app. cbn [map concat]. apply Permutation_app; [|apply IH; reflexivity]. clear IH. unfold genImport in Ea. unfold import_names.
  destruct (nth_error files (i_file imp)) as [g|] eqn:Eg; [|injection Ea as <-; constructor].
  destruct (String.eqb _ _); [injection Ea as <-; rewrite andb_false_r; constructor|]. destruct (i_public imp); [|injection Ea as <-; constructor].
  cbn [negb andb] in *. destruct (generateFile fuel files (i_file imp)) as [ds|] eqn:Ed; [|discriminate Ea]. injection Ea as <-.
  destruct (generate_shape _ _ _ _ _ Eg Ed) as (fw & _ & -> & Sel). rewrite flat_map_app, (forward_selectors g fw Sel). cbn [app].
  rewrite forward_names; [apply filter_perm, own_decls_names|]. intros d I. apply (declares_no_selector g). apply declares_eq. exact I.
Qed.
Lemma generated_names_proof : forall files, ordered files -> forall i f, nth_error files i = Some f ->
  exists ds, GenerateFile files i = Some ds /\ Permutation (map g_ident ds) (concat (map (import_names files f) (f_imports f)) ++ own_names f).
Proof.
  intros files O i f Ef. pose proof (generate_some files O (S i) i (Nat.lt_succ_diag_r i)) as N. unfold GenerateFile.
  destruct (generateFile (S i) files i) as [ds|] eqn:E; [|contradiction]. exists ds. split; [reflexivity|].
  destruct (generate_shape _ _ _ _ _ Ef E) as (fw & EI & -> & _). cbn [pred] in EI. rewrite map_app. apply Permutation_app; [|apply own_decls_names].
  eapply import_names_proof; exact EI.
Qed.
