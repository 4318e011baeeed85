(** Calls on generated messages, lists of one Go type not all of one protobuf
    type: answered as for one alike schema. *)
From Coq Require Import ZifyBool ZifyNat ZifyN String.
From Verif Require Import Base Wire GoType Leaf Codec Tag Walker Api Resolve Typing SpecWire SpecTag SpecMsg SpecProto SpecOut SpecIn SpecZig
  WireFacts DecodeFacts TypingFacts CodecSim TagFacts EncFacts WalkInv WalkFuel WalkSeq ApiFacts MsgResolve MsgFit MsgApi ProtoGen ProtoFacts ProtoFit
  OutFacts InFacts InThms CleanApi ZigWalk ZigApi.
Local Close Scope string_scope.

Lemma F2_length {A B} (R : A -> B -> Prop) l m : Forall2 R l m -> length l = length m.
Proof. induction 1; cbn; congruence. Qed.
Lemma F2_impl {A B} (R S : A -> B -> Prop) l m : (forall a b, R a b -> S a b) -> Forall2 R l m -> Forall2 S l m.
Proof. intros H. induction 1; constructor; auto. Qed.

(** ** Declarations for an alike schema *)
Definition retag (g : gofield) (f : sfld) : gofield :=
  match f with
  | Field n f => {| gf_exported := gf_exported g; gf_tag := Some (kind_fty f ++ "," ++ numeral n ++ "," ++ (if is_rep f then "rep" else "opt"))%string;
      gf_key := gf_key g; gf_val := gf_val g; gf_type := gf_type g |}
  | Hidden _ => g
  end.
Fixpoint zipped {A B C} (f : A -> B -> C) (l : list A) (m : list B) : list C :=
  match l, m with x :: l, y :: m => f x y :: zipped f l m | _, _ => [] end.
Definition retags (D : decls) (sch : schema) : decls := zipped (zipped retag) D sch.
Lemma retag_type g f : gf_type (retag g f) = gf_type g.
Proof. destruct f; reflexivity. Qed.
Lemma strip_self s : strip s s = Some EmptyString.
Proof. induction s as [|c s IH]; [reflexivity|]. cbn [strip]. rewrite Ascii.eqb_refl. exact IH. Qed.
Lemma other_kind s : go_kind (other s) = go_kind s.
Proof. destruct s; reflexivity. Qed.
Lemma retag_field sch g a b : implements_field g a = true -> alike_field sch a b -> implements_field (retag g b) b = true.
Proof.
  intros Hg Ha.
  assert (S : forall n f, implements_field g (Field n f) = true -> implements_field (retag g (Field n f)) (Field n f) = true).
  { intros n f H. cbn [implements_field retag gf_exported gf_type gf_tag gf_key gf_val] in *.
    unfold tag_is at 1. rewrite strip_self. cbn [tail_ok]. rewrite !andb_true_iff in H. destruct H as [[[H1 H2] _] H3]. rewrite H1, H2. exact H3. }
  destruct Ha as [<-|(n & s & -> & -> & _)]; [destruct a as [t|n f]; [exact Hg|apply S; exact Hg]|].
  cbn [implements_field retag gf_exported gf_type gf_tag] in *. unfold tag_is. rewrite strip_self. cbn [tail_ok].
  cbn [go_type]. rewrite other_kind. rewrite !andb_true_iff in Hg. destruct Hg as [[[H1 H2] _] _]. rewrite H1. cbn [go_type] in H2. rewrite H2. reflexivity.
Qed.
Lemma retag_msg sch gs : forall fs fs', implements_msg gs fs = true -> Forall2 (alike_field sch) fs fs' ->
  implements_msg (zipped retag gs fs') fs' = true /\ map gf_type gs = map gf_type (zipped retag gs fs').
Proof.
  induction gs as [|g gs IH]; intros fs fs' H A; destruct A as [|a b fs fs' Hab A]; cbn [implements_msg] in H; try discriminate; [split; reflexivity|].
  apply andb_true_iff in H. destruct H as [H1 H2]. destruct (IH _ _ H2 A) as [I1 I2]. cbn [zipped implements_msg map]. rewrite I1, I2, retag_type, (retag_field sch g a b H1 Hab). auto.
Qed.
Lemma retags_all sch0 D : forall sch sch', implements D sch = true -> Forall2 (Forall2 (alike_field sch0)) sch sch' ->
  implements (retags D sch') sch' = true /\ map (map gf_type) D = map (map gf_type) (retags D sch').
Proof.
  induction D as [|gs D IH]; intros sch sch' H A; destruct A as [|a b fs fs' Hab A]; cbn [implements] in H; try discriminate; [split; reflexivity|].
  apply andb_true_iff in H. destruct H as [H1 H2]. destruct (IH _ _ H2 A) as [I1 I2]. destruct (retag_msg _ _ _ _ H1 Hab) as [J1 J2].
  unfold retags in *. cbn [zipped implements map]. rewrite I1, J1, <- I2, <- J2. auto.
Qed.
Lemma alike_numbers sch fs fs' : Forall2 (alike_field sch) fs fs' -> numbers fs = numbers fs'.
Proof.
  induction 1 as [|a b fs fs' [<-|(n & s & -> & -> & _)] _ IH]; [reflexivity|destruct a; cbn [numbers]; congruence|cbn [numbers]; congruence].
Qed.
Lemma alike_forallb sch (P : fty -> bool) fs fs' : (forall s, P (FRepeated (FAlways s)) = true) -> Forall2 (alike_field sch) fs fs' ->
  forallb (fun f => match f with Field _ f => P f | Hidden _ => true end) fs = true ->
  forallb (fun f => match f with Field _ f => P f | Hidden _ => true end) fs' = true.
Proof.
  intros HP. induction 1 as [|a b fs fs' Hab _ IH]; [auto|]. cbn [forallb]. rewrite !andb_true_iff. intros [H1 H2]. split; [|auto].
  destruct Hab as [<-|(n & s & -> & -> & _)]; [exact H1|apply HP].
Qed.
Lemma alike_ok sch0 sch sch' : Forall2 (Forall2 (alike_field sch0)) sch sch' -> schema_ok sch = true -> schema_ok sch' = true.
Proof.
  intros A. pose proof (F2_length _ _ _ A) as L. unfold schema_ok. rewrite <- L. generalize (length sch). intros n. clear L.
  induction A as [|fs fs' sch sch' H _ IH]; [auto|]. cbn [forallb]. rewrite !andb_true_iff. rewrite <- (alike_numbers _ _ _ H). intros [[H1 H2] H3]. split; [|auto]. split; [exact H1|].
  eapply (alike_forallb _ (msgs_exist n)); [reflexivity|exact H|exact H2].
Qed.
Lemma alike_generable sch0 sch sch' : Forall2 (Forall2 (alike_field sch0)) sch sch' -> forallb generable_msg sch = true -> forallb generable_msg sch' = true.
Proof.
  induction 1 as [|fs fs' sch sch' H _ IH]; [auto|]. cbn [forallb]. rewrite !andb_true_iff. intros [H1 H2]. split; [|auto].
  eapply (alike_forallb _ generable); [reflexivity|exact H|exact H1].
Qed.

(** ** The codecs lists ask for *)
Section Gen.
Variables (D : decls) (sch : schema).
Hypothesis HI : implements D sch = true.
Hypothesis HS : schema_ok sch = true.
Hypothesis HG : forallb generable_msg sch = true.
Hypothesis HP : separate sch = true.

Definition wanted : list (gotype * pref) :=
  flat_map (fun f => match f with FRepeated e => [(TSlice (go_type e), PSlice (go_type e) (act_elem e))] | _ => [] end) (fields_of sch).
Lemma wanted_in t p : In (t, p) wanted -> exists e, In (FRepeated e) (fields_of sch) /\ t = TSlice (go_type e) /\ p = PSlice (go_type e) (act_elem e).
Proof. unfold wanted. rewrite in_flat_map. intros (f & Hf & H). destruct f; try destruct H. inversion H; subst. eauto. destruct H. Qed.
Lemma in_wanted e : In (FRepeated e) (fields_of sch) -> In (TSlice (go_type e), PSlice (go_type e) (act_elem e)) wanted.
Proof. intros H. unfold wanted. apply in_flat_map. exists (FRepeated e). split; [exact H|left; reflexivity]. Qed.
Definition met_key (k : skey) : Prop :=
  match k with
  | SEntry key val kt vt => exists s e, generable_elem e = true /\ key = go_kind s /\ val = go_type e /\ kt = tag_of 1 (FAlways s) /\ vt = tag_of 2 e
  | _ => True
  end.
Lemma in_fields fs n f : In fs sch -> In (Field n f) fs -> In f (fields_of sch).
Proof. intros H1 H2. unfold fields_of. apply in_flat_map. exists fs. split; [exact H1|]. apply in_flat_map. exists (Field n f). split; [exact H2|left; reflexivity]. Qed.
Lemma field_generable f : In f (fields_of sch) -> generable f = true.
Proof. pose proof (generable_all_made sch HG) as M. unfold all_made in M. rewrite forallb_forall in M. exact (M f). Qed.
Lemma implements_in gs : forall fs g tag, implements_msg gs fs = true -> In g gs -> gf_exported g = true -> gf_tag g = Some tag ->
  exists n f, In (Field n f) fs /\ implements_field g (Field n f) = true.
Proof.
  induction gs as [|g0 gs IH]; intros [|f fs] g tag; cbn [implements_msg]; try discriminate; [intros _ []|].
  intros H Hin He Ht. apply andb_true_iff in H. destruct H as [H1 H2]. destruct Hin as [->|Hin].
  - destruct f as [t|n f]; [|exists n, f; split; [left; reflexivity|exact H1]]. cbn [implements_field] in H1. rewrite He, Ht, andb_false_r in H1. discriminate.
  - destruct (IH fs g tag H2 Hin He Ht) as (n & f' & A & B). exists n, f'. split; [right; exact A|exact B].
Qed.
Lemma w_fun t p q : In (t, p) wanted -> In (t, q) wanted -> (forall e, t <> TSlice e) -> p = q.
Proof. intros H _ N. apply wanted_in in H. destruct H as (e & _ & -> & _). destruct (N _ eq_refl). Qed.
Lemma loose_visits e t : generable_elem e = true -> pref_visits t (act_loose e) = [] /\ match act_loose e with PMap _ _ _ _ _ _ _ => False | _ => True end.
Proof. intros He. destruct e; try discriminate He; cbn; destruct t; auto. Qed.
Lemma w_vk k f tag : met_key k -> In f (struct_fields D k) -> gf_exported f = true -> gf_tag f = Some tag ->
  exists t p, parseStructTag tag = (t, None) /\ pfield t f = Some p /\ incl (pref_visits (gf_type f) p) wanted /\
    match p with PMap _ kt vt key val _ _ => met_key (SEntry key val kt vt) | _ => True end.
Proof.
  intros Hk Hin He Ht. destruct k as [m|key val kt vt|kk]; cbn [struct_fields] in Hin.
  - pose proof (implements_nth D sch HI m) as H. destruct (nth_error D m) as [gs|]; [|destruct Hin]. destruct (nth_error sch m) as [fs|] eqn:Em; [|contradiction].
    destruct (implements_in gs fs f tag H Hin He Ht) as (n & g & Hg & If). pose proof (in_fields fs n g (nth_error_In _ _ Em) Hg) as Hf.
    pose proof (field_generable g Hf) as Gg. destruct (schema_ok_msg sch HS m) as (A & _). rewrite (msg_nth _ _ _ Em) in A.
    assert (Hn : (n < 2^61)%N).
    { unfold nums_ok in A. rewrite forallb_forall in A. assert (B : In n (numbers fs)).
      { clear - Hg. induction fs as [|[t|n' f'] fs IH]; cbn [numbers]; [destruct Hg| |].
        - destruct Hg as [Hg|Hg]; [discriminate|auto].
        - destruct Hg as [Hg|Hg]; [inversion Hg; left; reflexivity|right; auto]. }
      specialize (A n B). lia. }
    destruct (act_field f n g 0 If Hn Gg) as (tag' & _ & Et & Pt & Pf & _). rewrite Ht in Et. inversion Et; subst tag'.
    eexists. exists (act n g). split; [exact Pt|]. split; [exact Pf|].
    assert (Ty : gf_type f = go_type g).
    { cbn [implements_field] in If. rewrite !andb_true_iff in If. destruct If as [[[_ If] _] _]. apply is_type_eq. exact If. }
    rewrite Ty, (act_visits n g Gg). split.
    + destruct g as [s|s|s|s| |m'|e|s e]; try (intros z []; fail). intros z [<-|[]]. apply in_wanted. exact Hf.
    + destruct g as [s|s|s|s| |m'|e|s e]; try exact Logic.I; try discriminate Gg. cbn [act met_key]. exists s, e. auto.
  - destruct Hk as (s & e & Ge & -> & -> & -> & ->). pose proof (act_entry s e Ge) as P. apply In_nth_error in Hin. destruct Hin as [j Hj].
    destruct (pfields_all _ _ _ _ _ _ P Hj He Ht) as (t & x & Pt & Pf & Hx & _). exists t, (f_codec x). split; [exact Pt|]. split; [exact Pf|].
    assert (L : exists a, generable_elem a = true /\ f_codec x = act_loose a) by (destruct Hx as [<-|[<-|[]]]; cbn [mkfield f_codec]; [exists (FAlways s)|exists e]; auto).
    destruct L as (a & Ga & ->). destruct (loose_visits a (gf_type f) Ga) as [-> N]. split; [intros y []|]. destruct (act_loose a); auto. contradiction.
  - destruct Hin as [<-|[<-|[]]]; discriminate.
Qed.
Lemma w_vl k : met_key k -> pfields 0 (struct_fields D k) <> None.
Proof.
  intros Hk. destruct k as [m|key val kt vt|kk]; cbn [struct_fields].
  - destruct (nth_error D m) as [gs|] eqn:E; [|discriminate]. destruct (gen_decl D sch HI HS HG gs (nth_error_In _ _ E)) as (fs & _ & -> & _). discriminate.
  - destruct Hk as (s & e & Ge & -> & -> & -> & ->). rewrite (act_entry s e Ge). discriminate.
  - discriminate.
Qed.
Lemma w_ptr t p : In (t, p) wanted -> Walker.struct_ptr t = None.
Proof. intros H. apply wanted_in in H. destruct H as (e & _ & -> & _). reflexivity. Qed.
Lemma w_map key val p : ~ In (TMap key val, p) wanted.
Proof. intros H. apply wanted_in in H. destruct H as (e & _ & E & _). discriminate. Qed.

(** ** A schema for the codecs chosen *)
Lemma lists_in s : In (FRepeated (FAlways s)) (fields_of sch) -> lists_of sch s = true.
Proof. intros H. unfold lists_of. apply existsb_exists. exists (FRepeated (FAlways s)). split; [exact H|]. destruct (sty_eq_dec s s); [reflexivity|contradiction]. Qed.
Lemma other_list s s' : In (FRepeated (FAlways s)) (fields_of sch) -> In (FRepeated (FAlways s')) (fields_of sch) -> go_kind s' = go_kind s ->
  act_elem (FAlways s') = act_elem (FAlways s) \/ s' = other s.
Proof.
  intros H1 H2 E. apply lists_in in H1, H2. unfold separate in HP. rewrite andb_true_iff, !negb_true_iff in HP. destruct HP as [P1 P2].
  destruct s, s'; try discriminate E; try (left; reflexivity); try (right; reflexivity); exfalso; rewrite H1, H2 in *; discriminate.
Qed.
Lemma chosen_alike fs : forall i l, Forall2 (fchosen wanted) (act_fields i fs) l -> (forall n f, In (Field n f) fs -> In f (fields_of sch)) ->
  exists fs', Forall2 (alike_field sch) fs fs' /\ act_fields i fs' = l.
Proof.
  induction fs as [|[t|n f] fs IH]; intros i l; cbn [act_fields]; intros H Hin.
  - inversion H. exists []. split; [constructor|reflexivity].
  - destruct (IH _ _ H) as (fs' & A & B); [intros; eapply Hin; right; eassumption|]. exists (Hidden t :: fs'). split; [constructor; [left; reflexivity|exact A]|exact B].
  - inversion H as [|x g y l' Hg Hl]; subst. destruct (IH _ _ Hl) as (fs' & A & B); [intros; eapply Hin; right; eassumption|].
    destruct Hg as (G1 & G2 & G3). destruct g as [gi gm gc]. cbn [mkfield f_idx f_meta f_codec] in *. subst gi gm.
    pose proof (Hin n f (or_introl eq_refl)) as Hf. pose proof (field_generable f Hf) as Gf.
    assert (Same : gc = act n f -> exists fs', Forall2 (alike_field sch) (Field n f :: fs) fs' /\
      act_fields i fs' = {| f_idx := i; f_meta := meta_of (tag_of n f); f_codec := gc |} :: l').
    { intros ->. exists (Field n f :: fs'). split; [constructor; [left; reflexivity|exact A]|]. cbn [act_fields]. rewrite B. reflexivity. }
    destruct G3 as [G3|(e0 & q0 & G3 & G4)]; [exact (Same G3)|].
    destruct f as [s|s|s|s| |m|e|s e]; cbn [act] in G3; try discriminate G3; try discriminate Gf. inversion G3; subst e0 q0.
    apply wanted_in in G4. destruct G4 as (e' & He' & T & ->). assert (T' : go_type e = go_type e') by congruence. clear T. pose proof (field_generable _ He') as Ge'. cbn [generable] in Gf, Ge'.
    destruct e as [s|s|s|s| |m|e|k e]; try discriminate Gf; destruct e' as [s'|s'|s'|s'| |m'|e'|k' e']; try discriminate Ge'; try discriminate T';
      try (apply Same; cbn [act]; inversion T'; reflexivity).
    assert (T'' : go_kind s' = go_kind s) by (cbn in T'; congruence). destruct (other_list s s' Hf He' T'') as [E|E].
    + apply Same. cbn [act]. rewrite E. cbn [go_type]. rewrite T''. reflexivity.
    + subst s'. exists (Field n (FRepeated (FAlways (other s))) :: fs'). split.
      * constructor; [|exact A]. right. exists n, s. auto.
      * cbn [act_fields act]. rewrite B. f_equal. unfold mkfield. f_equal. destruct s; reflexivity.
Qed.
End Gen.

Lemma finite_choice {A} (P : nat -> list A -> Prop) n : (forall m, exists y, P m y) -> exists l, length l = n /\ forall m, m < n -> P m (nth m l []).
Proof.
  intros H. induction n as [|n (l & L & Hl)]; [exists []; split; [reflexivity|lia]|].
  destruct (H n) as [y Hy]. exists (l ++ [y]). split; [rewrite app_length; cbn; lia|]. intros m Hm. destruct (Nat.lt_ge_cases m n).
  - rewrite app_nth1 by lia. auto.
  - rewrite app_nth2 by lia. replace (m - length l) with 0 by lia. replace m with n by lia. exact Hy.
Qed.
Lemma Forall2_nth' {A} (R : list A -> list A -> Prop) l : forall l', length l' = length l -> (forall m, m < length l -> R (nth m l []) (nth m l' [])) -> Forall2 R l l'.
Proof.
  induction l as [|x l IH]; intros [|y l'] L H; try discriminate; [constructor|]. constructor; [apply (H 0); cbn; lia|].
  apply IH; [cbn in L; lia|]. intros m Hm. apply (H (S m)). cbn. lia.
Qed.

Section Final.
Variables (D : decls) (sch : schema).
Hypothesis HI : implements D sch = true.
Hypothesis HS : schema_ok sch = true.
Hypothesis HG : forallb generable_msg sch = true.
Hypothesis HP : separate sch = true.
Notation VV := (wanted sch).

Lemma same_chosen l : forall l', (forall f, In f l -> match f_codec f with PSlice _ _ => False | _ => True end) -> Forall2 (fchosen VV) l l' -> l' = l.
Proof.
  induction l as [|f l IH]; intros l' N H; inversion H as [|a g b l2 Hg Hl]; subst; [reflexivity|].
  f_equal; [|apply IH; [intros; apply N; right; assumption|exact Hl]]. destruct Hg as (G1 & G2 & G3). specialize (N f (or_introl eq_refl)).
  destruct f, g; cbn in *. subst. f_equal. destruct G3 as [->|(e & q & -> & _)]; [reflexivity|contradiction].
Qed.
Lemma final_schema G s : CS D VV met_key G s -> exists sch', alike sch sch' /\ fit (retags D sch') G s.
Proof.
  intros HC.
  destruct (finite_choice (fun m fs' => Forall2 (alike_field sch) (msg sch m) fs' /\
    forall i x, iref_is G i (SNamed m) -> nth_error (g_infos s) i = Some x -> Forall2 (field_rel (cref_is G)) (i_fields x) (act_fields 0 fs')) (length sch)) as (sch' & L & H).
  { intros m. destruct (in_dec skey_eq_dec (SNamed m) (hi G)) as [Hm|Hm].
    - apply In_nth_error in Hm. destruct Hm as [i Hi]. assert (Li : i < length (hi G)) by (apply nth_error_Some; congruence).
      rewrite (c_li _ _ _ _ _ _ _ _ HC) in Li. apply nth_error_Some in Li. destruct (nth_error (g_infos s) i) as [x|] eqn:Ex; [|contradiction].
      destruct (c_infos _ _ _ _ _ _ _ _ HC i x (SNamed m) Ex Hi) as [[]|[(l & F1 & F2) _]]. rewrite (act_info D sch HI HS HG m) in F1. cbn [i_fields] in F1.
      destruct (chosen_alike sch HG HP (msg sch m) 0 l F1) as (fs' & A & B).
      { intros n f Hf. unfold msg in Hf. destruct (nth_in_or_default m sch []) as [J|J]; [eapply in_fields; eassumption|rewrite J in Hf; destruct Hf]. }
      exists fs'. split; [exact A|]. intros j y Hj Hy. assert (j = i) by (eapply (c_un _ _ _ _ _ _ _ _ HC); eassumption). subst j. rewrite B. congruence.
    - exists (msg sch m). split; [|intros i x Hi _; exfalso; apply Hm; eapply nth_error_In; exact Hi].
      clear. induction (msg sch m); constructor; [left; reflexivity|assumption]. }
  assert (A : alike sch sch') by (apply Forall2_nth'; [exact L|]; intros m Hm; apply (H m Hm)).
  exists sch'. split; [exact A|]. destruct (retags_all sch D sch sch' HI A) as [I' _].
  intros i x k Hi Hx. destruct (c_infos _ _ _ _ _ _ _ _ HC i x k Hx Hi) as [[]|[(l & F1 & F2) _]]. destruct k as [m|key val kt vt|kk].
  - rewrite (act_info (retags D sch') sch' I' (alike_ok _ _ _ A HS) (alike_generable _ _ _ A HG) m). cbn [i_fields].
    destruct (Nat.lt_ge_cases m (length sch)) as [Hm|Hm]; [apply (proj2 (H m Hm) i x Hi Hx)|].
    rewrite (act_info D sch HI HS HG m) in F1. cbn [i_fields] in F1. unfold msg in *. rewrite nth_overflow in F1 |- * by lia. inversion F1; subst l. exact F2.
  - change (piget (retags D sch') (SEntry key val kt vt)) with (piget D (SEntry key val kt vt)). cut (l = i_fields (piget D (SEntry key val kt vt))); [intros ->; exact F2|]. apply same_chosen; [|exact F1].
    destruct (c_vk _ _ _ _ _ _ _ _ HC i _ Hi) as (ks & e & Ge & -> & -> & -> & ->). unfold piget, pinfo. cbn [struct_fields]. rewrite (act_entry ks e Ge).
    cbn [i_fields]. intros f [<-|[<-|[]]]; cbn [mkfield f_codec act_loose]; [exact Logic.I|]. destruct e; try discriminate Ge; exact Logic.I.
  - change (piget (retags D sch') (SOpt kk)) with (piget D (SOpt kk)). cut (l = i_fields (piget D (SOpt kk))); [intros ->; exact F2|]. apply same_chosen; [|exact F1]. intros f [].
Qed.
Lemma right_pure sch' E r a : implements E sch' = true -> schema_ok sch' = true -> forallb generable_msg sch' = true ->
  map (map gf_type) D = map (map gf_type) E -> pure_answer E r a -> right_answer D sch' r a.
Proof.
  intros I' S' G' T H.
  destruct r as [v|v|b v]; destruct v as [| | |k [x|]]; cbn [pure_answer] in H; try (destruct H as (y & Hy); rewrite Hy; try destruct k; exact Logic.I).
  - subst a. destruct k as [m| |]; try exact Logic.I. destruct x as [| | | | | | | | | | | | |xs|]; try exact Logic.I. cbn [right_answer]. cbv zeta. rewrite (types_wts D E T).
    intros Hw Hs. apply wts_msg in Hw. destruct (struct_out E sch' I' S' G' m xs [] (proj2 Hw) Hs) as [-> _]. reflexivity.
  - subst a. destruct k as [m| |]; try exact Logic.I. destruct x as [| | | | | | | | | | | | |xs|]; try exact Logic.I. cbn [right_answer]. cbv zeta. rewrite (types_wts D E T).
    intros Hw Hs. apply wts_msg in Hw. destruct (struct_out E sch' I' S' G' m xs [] (proj2 Hw) Hs) as [-> ->]. cbn [rbind]. destruct (snd _); reflexivity.
  - subst a. destruct k as [m| |]; try exact Logic.I. destruct x as [| | | | | | | | | | | | |ys|]; try exact Logic.I. cbn [right_answer]. rewrite (types_wts D E T).
    intros Hw Hf Hb Hs zs Hn. pose proof (wts_msg _ _ _ Hw) as [Hk Hw'].
    destruct (zlen b =? 0)%Z eqn:Ez.
    { assert (b = []) by (destruct b; [reflexivity|unfold zlen in Ez; cbn [length] in Ez; lia]). subst b. cbn [length merge_any]. exists ys. rewrite (types_wts D E T). split; [reflexivity|]. split; [exact Hn|]. split; [exact Hf|exact Hw]. }
    pose proof (gen_fits E sch' I' S' G') as HF.
    assert (K : key_fs E sch' (SNamed m) (msg sch' m)) by (split; [apply user_key_ok; exact Hk|left; eauto]).
    pose proof (merges_all E sch' I' S' G' HF (S (length b)) (SNamed m) (msg sch' m) b ys zs (decode_fuel E b) K (Nat.lt_succ_diag_r _) Hb Hs Hw Hf Hn) as M.
    assert (F : 1 + length b * (decls_depth E + 4) <= decode_fuel E b) by (unfold decode_fuel; lia).
    pose proof (decs_ldecs plook (piget E) E (decode_fuel E b) (SNamed m) b (VStruct ys) Hs) as A.
    destruct (decs_total E HF (SNamed m) b (VStruct ys) (decode_fuel E b) (user_key_ok _ _ Hk) Hw Hb Hs F) as (y & n & e & E2 & W & N).
    rewrite E2 in A |- *. rewrite <- A in M. destruct e as [e|].
    + destruct M as [M|M]; [discriminate M|]. destruct (merge_any _ _ _ _ _) as [zs'| |]; [destruct M as (? & M & _); discriminate|eauto|exact M].
    + rewrite (N eq_refl), Z.ltb_irrefl. destruct M as [M|M]; [discriminate M|]. destruct (merge_any _ _ _ _ _) as [zs'| |]; [|destruct M as (? & ? & M); discriminate|exact M].
      destruct M as (ys' & M & N' & F'). inversion M; subst y. exists ys'. rewrite (types_wts D E T). auto.
Qed.
Lemma calls_alike_proof rs : Forall (fun r => iface_ok D (request_arg r) = true) rs ->
  exists sch', alike sch sch' /\ Forall2 (right_answer D sch') rs (answers D rs g_empty).
Proof.
  intros HR.
  destruct (calls_grown D VV (w_fun sch) met_key (w_vk D sch HI HS HG) (w_vl D sch HI HS HG) (fun _ => Logic.I) (fun _ => Logic.I) (w_ptr sch) (w_map sch)
    rs _ _ (CS_empty D VV met_key) HR) as (G & s & HC & _ & A).
  destruct (final_schema G s HC) as (sch' & Al & HF). exists sch'. split; [exact Al|].
  destruct (retags_all sch D sch sch' HI Al) as [I' T]. specialize (A _ T HF). eapply F2_impl; [|exact A].
  intros r a. apply right_pure; [exact I'|eapply alike_ok; eassumption|eapply alike_generable; eassumption|exact T].
Qed.
End Final.
