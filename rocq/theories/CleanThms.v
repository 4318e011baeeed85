(** What is stated in PropsClean.v. *)
From Coq Require Import ZifyBool ZifyNat ZifyN String.
From Verif Require Import Base Wire GoType Leaf Codec Tag Walker Api Resolve Typing SpecReject SpecClean
  TypingFacts CodecSim WalkFuel WalkSeq AnyWalk RejectFacts CleanWalk CleanApi CleanFirst Sample RefuteConc.
Local Close Scope string_scope.

Lemma isolated_clean D : tame D = true -> coherent D = true -> forall s k p, reachable D s -> user_key D k = true ->
  (forall m, k = SNamed m -> ~ broken D m) ->
  fst (Size D (IPtr k p) s) = fst (Size D (IPtr k p) g_empty) /\
  fst (Marshal D (IPtr k p) s) = fst (Marshal D (IPtr k p) g_empty) /\
  forall b, fst (Unmarshal D b (IPtr k p) s) = fst (Unmarshal D b (IPtr k p) g_empty).
Proof.
  intros HT HF s k p Hs Hk Hb. apply isolated_proof; auto. destruct k as [m| |]; cbn [usable]; [apply Hb; reflexivity|discriminate|exact Logic.I].
Qed.
Lemma accepted_clean D : tame D = true -> coherent D = true -> forall s m, quiet D s -> m < length D ->
  (broken D m -> fst (Size D (IPtr (SNamed m) None) s) = Panics Unsupported) /\
  (~ broken D m -> fst (Size D (IPtr (SNamed m) None) s) = Returns 0%Z).
Proof.
  intros HT HF s m Hq Hm. split; intros Hb.
  - destruct (broken_first_proof D m s None [0%N] (VStruct []) Hm Hb Hq ltac:(discriminate)) as [A _]. exact A.
  - destruct (quiet_reach D s Hq) as [R _]. rewrite (size_clean D HT HF s (SNamed m) None (reachable_CS D HT HF s R)); [reflexivity| |exact Hb].
    cbn. apply Nat.ltb_lt. exact Hm.
Qed.

(** Supported declarations are tame, coherent, and none of them is broken. *)
Lemma hopeless_none f tag t : gf_exported f = true -> gf_tag f = Some tag -> parseStructTag tag = (t, None) -> hopeless_field f = true -> pfield t f = None.
Proof.
  intros He Ht Hp Hh. unfold hopeless_field in Hh. rewrite He, Ht, Hp in Hh. unfold pfield. destruct (static_choice t (gf_type f)); [discriminate|].
  pose proof pcodec_hopeless as N.
  destruct (gf_type f) as [ks| |ko|e|key e|e|m|]; cbn [hopeless_type baseTypeOf] in *; try discriminate; try reflexivity.
  - rewrite N by exact Hh. reflexivity.
  - rewrite (N e) by exact Hh. destruct (pcodec (TScalar key) _ true); reflexivity.
  - destruct (baseTypeOf e); try discriminate; try reflexivity; apply N; exact Hh.
Qed.
Lemma hopeless_tagged f : hopeless_field f = true -> exists tag, gf_exported f = true /\ gf_tag f = Some tag.
Proof. unfold hopeless_field. destruct (gf_exported f); [|discriminate]. destruct (gf_tag f); [eauto|discriminate]. Qed.
Section Supported.
Variable D : decls.
Hypothesis HD : supported D = true.
Lemma sup_field fs f tag : In fs D -> In f fs -> gf_exported f = true -> gf_tag f = Some tag -> exists l x t,
  pfields 0 fs = Some l /\ In x l /\ nth_error fs (f_idx x) = Some f /\ parseStructTag tag = (t, None) /\ pfield t f = Some (f_codec x) /\ codec_fits D (f_codec x) (gf_type f) = true.
Proof.
  intros Hfs Hf He Ht. pose proof HD as H. unfold supported in H. apply andb_prop in H. destruct H as [H _]. unfold decls_fit in H.
  rewrite forallb_forall in H. apply H in Hfs. unfold struct_fits in Hfs. destruct (pfields 0 fs) as [l|] eqn:El; [|discriminate].
  destruct (In_nth_error _ _ Hf) as [j Hj]. destruct (pfields_all _ _ _ _ _ _ El Hj He Ht) as (t & x & A & B & C & E). cbn in E.
  exists l, x, t. rewrite forallb_forall in Hfs. pose proof (Hfs x C) as F. unfold field_fits in F. rewrite E, Hj in F.
  split; [reflexivity|]. split; [exact C|]. rewrite E. auto.
Qed.
Lemma sup_not_broken m : ~ broken D m.
Proof.
  induction 1 as [m fs f Em Hf Hh|m fs f m' Em Hf Ht Hm Hb IH]; [|exact IH].
  destruct (hopeless_tagged f Hh) as (tag & He & Ht). destruct (sup_field fs f tag (nth_error_In _ _ Em) Hf He Ht) as (l & x & t & _ & _ & _ & A & B & _).
  rewrite (hopeless_none f tag t He Ht A Hh) in B. discriminate.
Qed.
Lemma sup_tame : tame D = true.
Proof.
  unfold tame. apply forallb_forall. intros fs Hfs. apply forallb_forall. intros f Hf. unfold field_tame.
  destruct (gf_exported f) eqn:He; [|reflexivity]. destruct (gf_tag f) as [tag|] eqn:Ht; [|reflexivity].
  destruct (sup_field fs f tag Hfs Hf He Ht) as (l & x & t & _ & _ & _ & A & B & F). rewrite A, B. apply Bool.orb_true_iff. right.
  destruct (f_codec x); auto. cbn [codec_fits] in F. destruct (gf_type f); try discriminate. apply andb_prop in F. destruct F as [_ F]. unfold entry_fits in F.
  destruct (pfields 0 (entry_fields key val ktag vtag)); [reflexivity|discriminate].
Qed.
Lemma sup_coherent : coherent D = true.
Proof.
  assert (I : incl (flat_map (flat_map field_asks) D) (visits D)).
  { intros z Hz. apply in_flat_map in Hz. destruct Hz as (fs & Hfs & Hz). apply in_flat_map in Hz. destruct Hz as (f & Hf & Hz). unfold field_asks in Hz.
    destruct (gf_exported f) eqn:He; [|destruct Hz]. destruct (gf_tag f) as [tag|] eqn:Ht; [|destruct Hz].
    destruct (sup_field fs f tag Hfs Hf He Ht) as (l & x & t & El & Hx & Hn & A & B & _). rewrite A, B in Hz.
    unfold visits. apply in_flat_map. exists fs. split; [exact Hfs|]. unfold struct_visits. rewrite El. apply in_or_app. apply in_app_or in Hz. destruct Hz as [Hz|Hz].
    - left. unfold fields_visits. apply in_flat_map. exists x. split; [exact Hx|]. rewrite Hn. exact Hz.
    - right. apply in_flat_map. exists x. auto. }
  pose proof HD as H. unfold supported in H. apply andb_prop in H. destruct H as [_ H]. unfold coherent, functional.
  apply forallb_forall. intros [t p] Hx. apply forallb_forall. intros [u q] Hy. cbn [fst snd]. unfold gotype_eqb. destruct (gotype_eq_dec t u) as [->|]; [|reflexivity].
  pose proof (functional_In _ _ _ _ H (I _ Hx) (I _ Hy)) as ->. destruct (pref_eq_dec q q); [reflexivity|contradiction].
Qed.
Lemma supported_clean : tame D = true /\ coherent D = true /\ forall m, ~ broken D m.
Proof. split; [exact sup_tame|]. split; [exact sup_coherent|exact sup_not_broken]. Qed.
End Supported.

(** The types of [badD] and type Fine struct { Kids []*Fine; Count map[int32]int32; P *int64 }. *)
Definition mixedD : decls :=
  (List.app badD [[ sfield "bytes,1,rep" (TSlice (TMsg 2));
    {| gf_exported := true; gf_tag := Some "bytes,2,rep"; gf_key := "varint,1,opt"; gf_val := "varint,2,opt"; gf_type := TMap KInt32 (TScalar KInt32) |};
    sfield "varint,3,opt" (TPtr (TScalar KInt64)) ]])%string%list.
Definition fine_val : val :=
  VStruct [VSlice true [VPtr (Some (VStruct [VSlice false [] []; VMap None; VPtr (Some (VI64 7))]))] []; VMap (Some [(VI32 3, VI32 1)]); VPtr None].
