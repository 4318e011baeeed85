(** Calls that panic leave entries behind in sliceMap, one more with every call. *)
From Coq Require Import ZifyBool ZifyNat ZifyN String.
From Verif Require Import Base Wire GoType Leaf Codec Tag Walker Api Typing WalkSeq AnyWalk SpecFirst.
Local Open Scope nat_scope.
Local Open Scope string_scope.

(** [struct { F []*int32 `protobuf:"varint,1,rep"`; G func() `protobuf:"varint,2,opt"` }] *)
Definition leakD : decls :=
  [[ {| gf_exported := true; gf_tag := Some "varint,1,rep"; gf_key := ""; gf_val := ""; gf_type := TSlice (TPtr (TScalar KInt32)) |};
     {| gf_exported := true; gf_tag := Some "varint,2,opt"; gf_key := ""; gf_val := ""; gf_type := TOther |} ]].

(** What holds between calls. *)
Definition leaky (s : gstate) : Prop :=
  g_infoCache s = [] /\ (forall c d, In (c, d) (g_sliceMap s) -> exists j, c = CCell j /\ j < List.length (g_cells s)) /\
  NoDup (map fst (g_sliceMap s)).
Lemma assoc_fresh (s : gstate) : leaky s -> forall n, List.length (g_cells s) <= n -> assoc cref_eq_dec (CCell n) (g_sliceMap s) = None.
Proof.
  intros (_ & H & _) n Hn. destruct (assoc cref_eq_dec (CCell n) (g_sliceMap s)) as [d|] eqn:E; [|reflexivity].
  apply assoc_In in E. apply H in E. destruct E as (j & E & Hj). inversion E. subst. lia.
Qed.
Lemma leak_run cs is0 cc sm : assoc cref_eq_dec (CCell (List.length cs)) sm = None ->
  exists cs' is' d, Size leakD (IPtr (SNamed 0) None) {| g_cells := cs; g_infos := is0; g_infoCache := []; g_codecCache := cc; g_sliceMap := sm |} =
    (Panics Unsupported, {| g_cells := cs'; g_infos := is'; g_infoCache := []; g_codecCache := cc; g_sliceMap := (CCell (List.length cs), d) :: sm |}) /\
    List.length cs < List.length cs'.
Proof.
  intros F. unfold Size, with_info.
  replace (walk_fuel leakD) with (S (S (S (S (S (S (S (S (walk_fuel leakD - 8))))))))) by (vm_compute; reflexivity).
  generalize (walk_fuel leakD - 8). intros n. revert F.
  lazy -[cref_eq_dec app List.length list_set lt].
  intros F. rewrite F.
  lazy -[cref_eq_dec app List.length list_set lt].
  rewrite F. do 3 eexists. split; [reflexivity|]. change (list_set (A:=hbody)) with (@upd hbody). rewrite upd_length, !app_length, upd_length, app_length. cbn. lia.
Qed.
Lemma leak_step s : leaky s -> exists s', Size leakD (IPtr (SNamed 0) None) s = (Panics Unsupported, s') /\ leaky s' /\
  List.length (g_sliceMap s') = S (List.length (g_sliceMap s)).
Proof.
  intros L. pose proof (assoc_fresh s L (List.length (g_cells s)) (le_n _)) as F. destruct s as [cs is0 ic cc sm].
  destruct L as (L1 & L2 & L3). cbn in L1, L2, L3, F. subst ic.
  destruct (leak_run cs is0 cc sm F) as (cs' & is' & d & E & Hl). rewrite E. eexists. split; [reflexivity|]. split; [|reflexivity].
  split; [reflexivity|]. cbn. split.
  - intros c d' [H|H]; [inversion H; subst; eauto|]. destruct (L2 _ _ H) as (j & -> & Hj). exists j. split; [reflexivity|lia].
  - constructor; [|exact L3]. intros H. apply in_map_iff in H. destruct H as ([c d'] & Hc & H). cbn in Hc. subst c.
    destruct (L2 _ _ H) as (j & Hj & Hj'). inversion Hj. lia.
Qed.
Lemma leak_all n : exists s, reachable leakD s /\ leaky s /\ List.length (g_sliceMap s) = n.
Proof.
  induction n as [|n (s & H1 & H2 & H3)].
  - exists g_empty. split; [constructor|]. split; [|reflexivity]. split; [reflexivity|]. split; [intros c d []|constructor].
  - destruct (leak_step s H2) as (s' & E & L & Hs). exists s'. split; [|split; [exact L|lia]].
    replace s' with (snd (Size leakD (IPtr (SNamed 0) None) s)) by (rewrite E; reflexivity). apply reach_size; [exact H1|reflexivity].
Qed.
Lemma leak_proof : exists D, forall bound, exists s, reachable D s /\ NoDup (map fst (g_sliceMap s)) /\ bound < List.length (g_sliceMap s).
Proof.
  exists leakD. intros b. destruct (leak_all (S b)) as (s & H1 & (_ & _ & H2) & H3). exists s. split; [exact H1|]. split; [exact H2|lia].
Qed.
