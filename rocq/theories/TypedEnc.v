(** Size and Marshal on typed memory: no crash, whatever is shared or points
    back. *)
From Coq Require Import ZifyBool ZifyNat ZifyN.
From Verif Require Import Base Wire GoType Leaf Codec Tag Walker Resolve Api Typing SpecWire WireFacts DecodeFacts TypingFacts EncFacts CodecSim
  Unsafe SpecUnsafe UnsafeMem UnsafeRep UnsafeLeaf UnsafeEqs UnsafeEnc SpecTyped TypedFacts TypedDec.
Local Open Scope nat_scope.

Definition calm {A} (x : api A) : Prop := match x with Panics _ => False | _ => True end.
Lemma calm_bind {A B} (x : api A) (k : A -> api B) : calm x -> (forall a, calm (k a)) -> calm (abind x k).
Proof. destruct x; cbn; auto. Qed.
Lemma calm_sum l : (forall x, In x l -> calm x) -> calm (sum_api l).
Proof.
  induction l as [|x l IH]; intros C; [exact Logic.I|]. cbn [sum_api]. pose proof (C x (or_introl eq_refl)) as Cx.
  destruct x; try assumption. specialize (IH (fun y I => C y (or_intror I))). destruct (sum_api l); assumption.
Qed.
Lemma calm_chain l : (forall g b, In g l -> calm (g b)) -> forall b, calm (chain_api b l).
Proof.
  induction l as [|g l IH]; intros C b; [exact Logic.I|]. cbn [chain_api]. pose proof (C g b (or_introl eq_refl)) as Cx.
  destruct (g b); try assumption. apply IH. intros g' b' I. apply C. right. exact I.
Qed.

Section Enc.
Variable D : decls.
Hypothesis HD : decls_fit D = true.
Variable other : nat -> nat -> nat * nat.
Notation shaped := (shaped D other).
Notation typed := (typed D other).
Notation struct_at := (struct_at D other).
Notation usz := (usz plook (piget D) D other).
Notation usizes := (usizes plook (piget D) D other).
Notation uenc := (uenc plook (piget D) D other).
Notation uencs := (uencs plook (piget D) D other).
Variable W : world.
Variable H : heap.
Hypothesis T : typed W H.

Lemma bytes_read p : forall n, (forall i, i < n -> wbyte W (shift p i)) -> exists d, bytes_okb d = true /\ length d = n /\ holds H p (map MB d).
Proof.
  induction n as [|n IH]; intros Hb.
  - exists []. repeat split. 
  - destruct IH as (d & B & L & K); [intros i Hi; apply Hb; lia|].
    destruct (ty_byte _ _ _ _ T _ (Hb n ltac:(lia))) as (c & Hc & Ec). exists (d ++ [c]).
    split; [|split].
    + unfold bytes_okb. rewrite forallb_app. apply andb_true_intro. split; [exact B|]. cbn. rewrite andb_true_r. apply N.ltb_lt. exact Hc.
    + rewrite app_length, L. cbn. lia.
    + rewrite map_app. apply holds_app. split; [exact K|]. rewrite map_length, L. unfold holds. cbn [map length].
      unfold load. cbn [cells]. destruct p as [x o]. cbn [shift fst snd] in *. rewrite Ec. reflexivity.
Qed.
Lemma leaf_rep s t a : static_fits s t = true -> shaped W H t a -> exists v S, rep D other true H t a v S /\ wt D v t = true.
Proof.
  intros Hs Sh.
  assert (Q : match t with TScalar _ | TOption _ => (exists v, rep D other true H t a v none) | TBytes => True | _ => False end).
  { destruct s as [w []|]; cbn [static_fits] in Hs; apply gotype_eqb_eq in Hs; subst t; try exact Sh; try exact Logic.I;
      destruct w; try exact Sh; exact Logic.I. }
  destruct t; try contradiction.
  - destruct Q as [v R]. exists v, none. split; [exact R|apply (rep_wt _ _ _ _ _ _ _ R)].
  - destruct Sh as (p & n & c & K & L & P). destruct p as [p|].
    + destruct (bytes_read p c P) as (d & B & Ld & Kd). exists (VBytes (Some (firstn n d))), (range p c).
      assert (Lf : length (firstn n d) = n) by (apply firstn_length_le; lia).
      assert (Ls : length (map MB (skipn n d)) = c - n) by (rewrite map_length, skipn_length; lia).
      assert (Bf : bytes_okb (firstn n d) = true).
      { unfold bytes_okb in *. rewrite <- (firstn_skipn n d), forallb_app in B. apply andb_prop in B. tauto. }
      split; [|exact Bf].
      replace (range p c) with (range p (length (firstn n d) + length (map MB (skipn n d)))) by (f_equal; lia).
      apply rep_bytes; [exact Bf| | |].
      * rewrite Lf, Ls. replace (n + (c - n)) with c by lia. exact K.
      * rewrite <- map_app, firstn_skipn. exact Kd.
      * apply bytes_are. unfold bytes_okb in *. rewrite <- (firstn_skipn n d), forallb_app in B. apply andb_prop in B. tauto.
    + subst c. assert (n = 0) as -> by lia. exists (VBytes None), none. split; [apply rep_bytes_nil; exact K|reflexivity].
  - destruct Q as [v R]. exists v, none. split; [exact R|apply (rep_wt _ _ _ _ _ _ _ R)].
Qed.
Lemma leaf_calm s t a f : static_fits s t = true -> meta_ok f -> wval W t a ->
  (exists n, u_size s H a f = OK n) /\ forall b, exists r, u_encode s H b a f = OK r.
Proof.
  intros Hs Hf V. destruct (leaf_rep _ _ _ Hs (ty_val _ _ _ _ T _ _ V)) as (v & S & R & Hw).
  destruct (static_sized D s t v f Hs Hw Hf) as (r & En & Ee). split.
  - exists (zlen r). eapply leaf_size; [apply (fits_reads _ _ Hs)|exact R|exact En].
  - intros b. exists (b ++ r). eapply leaf_encode; [apply (fits_reads _ _ Hs)|exact R|apply Ee].
Qed.

(** ** Size *)
Definition scodec_ok (fuel : nat) : Prop := forall p t a f, codec_fits D p t = true -> meta_ok f -> tags_ok p -> wval W t a -> calm (usz fuel p H a f).
Definition sstruct_ok (fuel : nat) : Prop := forall k a, key_ok D k -> struct_at W k a -> calm (usizes fuel k k H a).
Lemma field_at k a f : key_ok D k -> struct_at W k a -> In f (i_fields (piget D k)) ->
  exists t, codec_fits D (f_codec f) t = true /\ wval W t (field_addr D other k a f) /\ meta_ok (f_meta f) /\ tags_ok (f_codec f).
Proof.
  intros Hk A Hf. destruct (piget_ok D k f Hf) as [M Tg]. assert (Hf' := Hf). rewrite <- piget_same in Hf.
  destruct (piget_field D k f HD Hk Hf) as (t & Et & C & _).
  assert (N : forall q, k <> SOpt q) by (intros q ->; cbn in Hf; contradiction).
  exists t. split; [exact C|]. split; [|split; assumption].
  apply A. eapply nth_error_In. apply placed_nth; [exact N|]. rewrite struct_types_key. exact Et.
Qed.
Lemma struct_shape k t a : flat_fits D (PStruct k) t = true -> wval W t a -> key_ok D k /\
  exists p, holds H a (ptr_cells p) /\ match p with None => True | Some p => struct_at W k p end.
Proof.
  intros Hf V. pose proof (ty_val _ _ _ _ T _ _ V) as Sh.
  destruct k as [sid|? ? ? ?|q], t as [| | | | |[]| |]; try discriminate; cbn [flat_fits] in Hf; btrue; (split; [assumption || exact Logic.I|]).
  - exact Sh.
  - destruct Sh as (p & K & Q). exists p. split; [exact K|]. destruct p; [|exact Logic.I]. intros t' p' [I|[]]. inversion I; subst. exact Q.
Qed.
Lemma typed_entries k e p : match p with None => True | Some p => snd p = 0 /\ wmap W (fst p) k e end ->
  exists l, entries H p = Some l /\ forall x y, In (x, y) l -> wval W (TScalar k) (x, 0) /\ wval W e (y, 0).
Proof.
  destruct p as [[m o]|]; [|intros _; exists []; split; [reflexivity|intros ? ? []]].
  cbn [fst snd]. intros [-> Hm]. destruct (ty_map _ _ _ _ T _ _ _ Hm) as (l & El & Hl). exists l. split; [|exact Hl].
  cbn [entries]. rewrite El. reflexivity.
Qed.

Lemma size_calm : forall fuel, scodec_ok fuel /\ sstruct_ok fuel.
Proof.
  induction fuel as [|fuel [IH1 IH2]]; [split; repeat intro; exact Logic.I|]. split.
  - intros p t a f C M Tg V. rewrite usz_S. destruct p as [s|e q|e q|k|tag kt vt key val kp vp]; cbn [plook].
    + assert (Hs : static_fits s t = true) by (destruct t; exact C).
      destruct (leaf_calm s t a f Hs M V) as [[n ->] _]. exact Logic.I.
    + destruct t; try discriminate. cbn [codec_fits flat_fits] in C. btrue. subst.
      destruct (ty_val _ _ _ _ T _ _ V) as (p & K & Q). rewrite (holds_ptr _ _ _ K). cbn [aopt]. destruct p as [p|]; [|exact Logic.I].
      eapply IH1; eauto using flat_codec, flat_tags.
    + destruct t; try discriminate. cbn [codec_fits] in C. btrue. subst.
      destruct (ty_val _ _ _ _ T _ _ V) as (p & n & c & K & L & Q). rewrite (hdr_ld _ _ _ _ _ K). cbn [aopt].
      apply calm_sum. intros x I. apply in_map_iff in I as (i & <- & Hi). apply in_seq in Hi.
      destruct p as [p|]; [|lia]. cbn [index aopt]. rewrite aligned.
      eapply IH1; eauto using flat_codec, flat_tags. apply Q. lia.
    + assert (C' : flat_fits D (PStruct k) t = true) by (destruct t; exact C).
      destruct (struct_shape _ _ _ C' V) as (Hk & p & K & Q). rewrite (holds_ptr _ _ _ K). cbn [aopt]. destruct p as [p|]; [|exact Logic.I].
      apply calm_bind; [apply IH2; assumption|intros; exact Logic.I].
    + destruct t as [| | | |key' val'| | |]; try discriminate. cbn [codec_fits] in C. btrue. subst. destruct Tg as (T1 & T2 & T3).
      destruct (ty_val _ _ _ _ T _ _ V) as (p & K & Q). rewrite (holds_ptr _ _ _ K). cbn [aopt].
      destruct (typed_entries _ _ _ Q) as (l & -> & Hl). cbn [aopt].
      apply calm_bind; [|intros; exact Logic.I]. apply calm_sum. intros x I. apply in_map_iff in I as ([x1 y1] & <- & Hi).
      destruct (Hl _ _ Hi) as [V1 V2]. cbn [fst snd mkfield f_meta f_codec].
      apply calm_bind; [eapply IH1; eauto using flat_codec, flat_tags, meta_of_ok|]. intros n1.
      apply calm_bind; [eapply IH1; eauto using flat_codec, flat_tags, meta_of_ok|]. intros n2. exact Logic.I.
  - intros k a Hk A. rewrite usizes_S. apply calm_sum. intros x I. apply in_map_iff in I as (f & <- & Hf).
    destruct (field_at k a f Hk A Hf) as (t & C & V & M & Tg). eapply IH1; eassumption.
Qed.

(** ** Marshal *)
Hypothesis HH : homogeneous D = true.
Definition homog (p : pref) : Prop := match p with PMap _ _ _ _ _ kp vp => same_size kp vp = true | _ => True end.
Lemma flat_homog p t : flat_fits D p t = true -> homog p.
Proof. destruct p, t; try discriminate; intros; exact Logic.I. Qed.
Lemma entry_homog k v kt vt fs f : pfields 0 (entry_fields k v kt vt) = Some fs -> entry_fits D k v kt vt = true -> In f fs -> homog (f_codec f).
Proof.
  intros E F I. unfold entry_fits in F. rewrite E in F. destruct fs as [|fk [|fv []]]; try discriminate. btrue.
  destruct I as [<-|[<-|[]]]; eapply flat_homog; eassumption.
Qed.
Lemma piget_homog k f : key_ok D k -> In f (i_fields (piget D k)) -> homog (f_codec f).
Proof.
  intros Hk Hf. destruct k as [sid|k v kt vt|q]; [| |destruct Hf].
  - unfold piget, pinfo in Hf. cbn [struct_fields] in Hf.
    destruct (nth_error D sid) as [gs|] eqn:EE; [|destruct Hf].
    pose proof HH as G. unfold homogeneous in G. rewrite forallb_forall in G. specialize (G gs (nth_error_In _ _ EE)).
    destruct (pfields 0 gs) as [l|]; [|destruct Hf]. cbn in Hf. rewrite forallb_forall in G. specialize (G f Hf).
    destruct (f_codec f); auto; exact Logic.I.
  - unfold piget, pinfo in Hf. cbn [struct_fields] in Hf.
    destruct (pfields 0 (entry_fields k v kt vt)) as [l|] eqn:E; [|destruct Hf]. cbn in Hf.
    eapply entry_homog; [exact E|apply Hk|exact Hf].
Qed.
(** map.go:80 with the codec of the keys on a value. *)
Lemma swap_calm fuel kp vp e a f : same_size kp vp = true -> flat_fits D vp e = true -> meta_ok f -> wval W e a -> calm (usz fuel kp H a f).
Proof.
  intros S C M V. unfold same_size in S. destruct (pref_eq_dec kp vp) as [->|]; [eapply size_calm; eauto using flat_codec, flat_tags|].
  cbn [orb] in S. destruct fuel; [exact Logic.I|]. rewrite usz_S.
  assert (Q : exists s s', kp = PStatic s /\ vp = PStatic s' /\ (forall t, reads s t) /\
     forall v, wt D v e = true -> static_fits s' e = true -> exists n, l_size (static s) v f = OK n).
  { destruct kp as [[[] []|]| | | |]; try discriminate; destruct vp as [[[] []|]| | | |]; try discriminate;
    do 2 eexists; (split; [reflexivity|]); (split; [reflexivity|]); (split; [intros t; exact Logic.I|]); intros v Hv Hs;
    cbn [static_fits wk_kind] in Hs; btrue; wtd v; eexists; reflexivity. }
  destruct Q as (s & s' & -> & -> & Hr & Hsz). assert (Hs : static_fits s' e = true) by (destruct e; exact C).
  destruct (leaf_rep _ _ _ Hs (ty_val _ _ _ _ T _ _ V)) as (v & S0 & R & Hw). destruct (Hsz v Hw Hs) as [m Em].
  cbn [plook]. erewrite leaf_size; [exact Logic.I|apply Hr|exact R|exact Em].
Qed.
Definition ecodec_ok (fuel : nat) : Prop := forall p t b a f, codec_fits D p t = true -> meta_ok f -> tags_ok p -> homog p -> wval W t a -> calm (uenc fuel p H b a f).
Definition estruct_ok (fuel : nat) : Prop := forall k b a, key_ok D k -> struct_at W k a -> calm (uencs fuel k k H b a).
Lemma encode_calm : forall fuel, ecodec_ok fuel /\ estruct_ok fuel.
Proof.
  induction fuel as [|fuel [IH1 IH2]]; [split; repeat intro; exact Logic.I|]. split.
  - intros p t b a f C M Tg Ho V. rewrite uenc_S. destruct p as [s|e q|e q|k|tag kt vt key val kp vp]; cbn [plook].
    + assert (Hs : static_fits s t = true) by (destruct t; exact C).
      destruct (leaf_calm s t a f Hs M V) as [_ E]. destruct (E b) as [r ->]. exact Logic.I.
    + destruct t; try discriminate. cbn [codec_fits flat_fits] in C. btrue. subst.
      destruct (ty_val _ _ _ _ T _ _ V) as (p & K & Q). rewrite (holds_ptr _ _ _ K). cbn [aopt]. destruct p as [p|]; [|exact Logic.I].
      eapply IH1; eauto using flat_codec, flat_tags, flat_homog.
    + destruct t; try discriminate. cbn [codec_fits] in C. btrue. subst.
      destruct (ty_val _ _ _ _ T _ _ V) as (p & n & c & K & L & Q). rewrite (hdr_ld _ _ _ _ _ K). cbn [aopt].
      apply calm_chain. intros g b' I. apply in_map_iff in I as (i & <- & Hi). apply in_seq in Hi.
      destruct p as [p|]; [|lia]. cbn [index aopt]. rewrite aligned.
      eapply IH1; eauto using flat_codec, flat_tags, flat_homog. apply Q. lia.
    + assert (C' : flat_fits D (PStruct k) t = true) by (destruct t; exact C).
      destruct (struct_shape _ _ _ C' V) as (Hk & p & K & Q). rewrite (holds_ptr _ _ _ K). cbn [aopt]. destruct p as [p|]; [|exact Logic.I].
      apply calm_bind; [apply size_calm; assumption|]. intros n. apply IH2; assumption.
    + destruct t as [| | | |key' val'| | |]; try discriminate. cbn [codec_fits] in C. btrue. subst. destruct Tg as (T1 & T2 & T3).
      destruct (ty_val _ _ _ _ T _ _ V) as (p & K & Q). rewrite (holds_ptr _ _ _ K). cbn [aopt].
      destruct (typed_entries _ _ _ Q) as (l & -> & Hl). cbn [aopt].
      apply calm_bind; [|intros; exact Logic.I]. apply calm_chain. intros g b' I. apply in_map_iff in I as ([x1 y1] & <- & Hi).
      destruct (Hl _ _ Hi) as [V1 V2]. cbn [fst snd mkfield f_meta f_codec].
      apply calm_bind; [eapply size_calm; eauto using flat_codec, flat_tags, meta_of_ok|]. intros n1.
      apply calm_bind; [eapply swap_calm; eauto using meta_of_ok|]. intros n2.
      apply calm_bind; [eapply IH1; eauto using flat_codec, flat_tags, flat_homog, meta_of_ok|]. intros b2.
      eapply IH1; eauto using flat_codec, flat_tags, flat_homog, meta_of_ok.
  - intros k b a Hk A. rewrite uencs_S. apply calm_chain. intros g b' I. apply in_map_iff in I as (f & <- & Hf).
    destruct (field_at k a f Hk A Hf) as (t & C & V & M & Tg). eapply IH1; try eassumption. eapply piget_homog; eassumption.
Qed.
End Enc.
