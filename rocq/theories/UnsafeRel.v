(** The codecs that are built are the codecs of the types, on flat memory. *)
From Verif Require Import Base Wire GoType Leaf Codec Walker Resolve Api CodecSim Unsafe UnsafeEqs.
Local Open Scope nat_scope.

Section Rel.
Context {R1 I1 R2 I2 : Type}.
Variable look1 : R1 -> cbody R1 I1.
Variable iget1 : I1 -> sinfo R1.
Variable look2 : R2 -> cbody R2 I2.
Variable iget2 : I2 -> sinfo R2.
Variable D : decls.
Variable other : nat -> nat -> nat * nat.
Variable grow : nat -> nat.
Variable pick : ust -> skey -> option nat.
Variable RR : R1 -> R2 -> Prop.
Variable RI : I1 -> I2 -> Prop.
Hypothesis Hlook : forall c1 c2, RR c1 c2 -> body_sim RR RI (look1 c1) (look2 c2).
Hypothesis Hinfo : forall i1 i2, RI i1 i2 -> info_rel RR (iget1 i1) (iget2 i2).

Lemma map_ext2 {A B C} (P : A -> B -> Prop) (f : A -> C) (g : B -> C) l m : Forall2 P l m -> (forall x y, P x y -> f x = g y) -> map f l = map g m.
Proof. intros F H. induction F as [|x y l m p F IH]; [reflexivity|]. cbn. rewrite IH, (H _ _ p). reflexivity. Qed.
Lemma chain_ext {A B} (P : A -> B -> Prop) (f : A -> bytes -> api bytes) (g : B -> bytes -> api bytes) l m :
  Forall2 P l m -> (forall x y, P x y -> forall b, f x b = g y b) -> forall b, chain_api b (map f l) = chain_api b (map g m).
Proof.
  intros F H. induction F as [|x y l m p F IH]; intros b; [reflexivity|]. cbn [map chain_api]. rewrite (H _ _ p).
  destruct (g y b); [apply IH|reflexivity..].
Qed.
Lemma F2_same {A} (l : list A) : Forall2 eq l l. Proof. induction l; constructor; auto. Qed.

Lemma usz_rel fuel :
  (forall c1 c2 H a f, RR c1 c2 -> usz look1 iget1 D other fuel c1 H a f = usz look2 iget2 D other fuel c2 H a f) /\
  (forall i1 i2 k H a, RI i1 i2 -> usizes look1 iget1 D other fuel k i1 H a = usizes look2 iget2 D other fuel k i2 H a).
Proof.
  induction fuel as [|fuel [IH1 IH2]]; [split; reflexivity|]. split.
  - intros c1 c2 H a f Hc. rewrite !usz_S. destruct (Hlook c1 c2 Hc) as [? ? Hb|]; [|reflexivity].
    destruct Hb as [s'|t d1 d2 Hd|t d1 d2 Hd|k i1 i2 Hi|tag kf1 vf1 kf2 vf2 e i1 i2 Hk Hv Hi].
    + reflexivity.
    + destruct (ld_ptr H a) as [[p|]|]; cbn [aopt]; [apply IH1; assumption|reflexivity..].
    + destruct (ld_hdr H a) as [[[p len] cap]|]; cbn [aopt]; [|reflexivity]. f_equal. apply map_ext. intros i.
      destruct (index p i (alignedSize t)); cbn [aopt]; [apply IH1; assumption|reflexivity].
    + destruct (ld_ptr H a) as [[p|]|]; cbn [aopt]; [rewrite (IH2 _ _ _ _ _ Hi)|..]; reflexivity.
    + destruct (ld_ptr H a) as [p|]; cbn [aopt]; [|reflexivity]. destruct (entries H p) as [l|]; cbn [aopt]; [|reflexivity]. cbv zeta.
      destruct Hk as (_ & Mk & Ck), Hv as (_ & Mv & Cv). rewrite Mk, Mv. f_equal. f_equal. apply map_ext. intros kv.
      rewrite (IH1 _ _ _ _ _ Ck), (IH1 _ _ _ _ _ Cv). reflexivity.
  - intros i1 i2 k H a Hi. rewrite !usizes_S. f_equal. eapply map_ext2; [exact (proj1 (Hinfo _ _ Hi))|].
    intros f1 f2 (Hx & Hm & Hc). unfold field_addr. rewrite Hx, Hm. apply IH1. assumption.
Qed.
Lemma uenc_rel fuel :
  (forall c1 c2 H b a f, RR c1 c2 -> uenc look1 iget1 D other fuel c1 H b a f = uenc look2 iget2 D other fuel c2 H b a f) /\
  (forall i1 i2 k H b a, RI i1 i2 -> uencs look1 iget1 D other fuel k i1 H b a = uencs look2 iget2 D other fuel k i2 H b a).
Proof.
  induction fuel as [|fuel [IH1 IH2]]; [split; reflexivity|]. pose proof (usz_rel fuel) as [US1 US2]. split.
  - intros c1 c2 H b a f Hc. rewrite !uenc_S. destruct (Hlook c1 c2 Hc) as [? ? Hb|]; [|reflexivity].
    destruct Hb as [s'|t d1 d2 Hd|t d1 d2 Hd|k i1 i2 Hi|tag kf1 vf1 kf2 vf2 e i1 i2 Hk Hv Hi].
    + reflexivity.
    + destruct (ld_ptr H a) as [[p|]|]; cbn [aopt]; [apply IH1; assumption|reflexivity..].
    + destruct (ld_hdr H a) as [[[p len] cap]|]; cbn [aopt]; [|reflexivity]. eapply chain_ext; [apply F2_same|]. intros i ? <- b'.
      destruct (index p i (alignedSize t)); cbn [aopt]; [apply IH1; assumption|reflexivity].
    + destruct (ld_ptr H a) as [[p|]|]; cbn [aopt]; [|reflexivity..]. rewrite (US2 _ _ _ _ _ Hi).
      destruct (usizes look2 iget2 D other fuel k i2 H p); cbn [abind]; [apply IH2; assumption|reflexivity..].
    + destruct (ld_ptr H a) as [p|]; cbn [aopt]; [|reflexivity]. destruct (entries H p) as [l|]; cbn [aopt]; [|reflexivity]. cbv zeta.
      destruct Hk as (_ & Mk & Ck), Hv as (_ & Mv & Cv). rewrite Mk, Mv. f_equal. eapply chain_ext; [apply F2_same|]. intros kv ? <- b'.
      rewrite !(US1 _ _ _ _ _ Ck). destruct (usz look2 iget2 D other fuel (f_codec kf2) H (fst kv, 0) (f_meta kf2)); cbn [abind]; [|reflexivity..].
      destruct (usz look2 iget2 D other fuel (f_codec kf2) H (snd kv, 0) (f_meta vf2)); cbn [abind]; [|reflexivity..].
      rewrite (IH1 _ _ _ _ _ _ Ck). destruct (uenc look2 iget2 D other fuel (f_codec kf2) H _ (fst kv, 0) (f_meta kf2)); cbn [abind]; [|reflexivity..].
      apply IH1. assumption.
  - intros i1 i2 k H b a Hi. rewrite !uencs_S. eapply chain_ext; [exact (proj1 (Hinfo _ _ Hi))|].
    intros f1 f2 (Hx & Hm & Hc) b'. unfold field_addr. rewrite Hx, Hm. apply IH1. assumption.
Qed.

Lemma udec_rel fuel :
  (forall c1 c2 s b a, RR c1 c2 -> udec grow pick look1 iget1 D other fuel c1 s b a = udec grow pick look2 iget2 D other fuel c2 s b a) /\
  (forall i1 i2 k s b off a, RI i1 i2 -> udecs grow pick look1 iget1 D other fuel k i1 s b off a = udecs grow pick look2 iget2 D other fuel k i2 s b off a).
Proof.
  induction fuel as [|fuel [IH1 IH2]]; [split; reflexivity|]. split.
  - intros c1 c2 s b a Hc. rewrite !udec_S. destruct (Hlook c1 c2 Hc) as [? ? Hb|]; [|reflexivity].
    destruct Hb as [s'|t d1 d2 Hd|t d1 d2 Hd|k i1 i2 Hi|tag kf1 vf1 kf2 vf2 e i1 i2 Hk Hv Hi].
    + reflexivity.
    + destruct (ld_ptr (hp s) a) as [[p|]|]; cbn [dbind]; [apply IH1; assumption| |reflexivity]. cbn [alloc].
      destruct (store _ a _); cbn [dbind]; [apply IH1; assumption|reflexivity].
    + destruct (ld_hdr (hp s) a) as [[[p i] cap]|]; cbn [dbind]; [|reflexivity]. cbv zeta.
      match goal with |- dbind ?x _ = _ => destruct x as [[p' H']|] end; cbn [dbind]; [|reflexivity].
      destruct (index p' i (alignedSize t)); cbn [dbind]; [|reflexivity]. rewrite (IH1 _ _ _ _ _ Hd). reflexivity.
    + destruct (ld_ptr (hp s) a) as [p|]; cbn [dbind]; [|reflexivity]. cbv zeta.
      match goal with |- dbind ?x _ = _ => destruct x as [[p' H']|] end; cbn [dbind]; [|reflexivity].
      destruct (decodeVarint b) as [[u q] [e|]]; [reflexivity|].
      destruct (from_ b q); [|reflexivity]. rewrite (IH2 _ _ _ _ _ _ _ Hi). reflexivity.
    + destruct (ld_ptr (hp s) a) as [p|]; cbn [dbind]; [|reflexivity]. cbv zeta.
      match goal with |- dbind ?x _ = _ => destruct x as [H'|] end; cbn [dbind]; [|reflexivity].
      destruct (zlen b =? 0)%Z; [reflexivity|]. destruct (get_entry pick D other (with_hp s H') e) as [en s2].
      destruct (decodeVarint b) as [[u q] [e'|]]; [reflexivity|].
      destruct (from_ b q); [|reflexivity]. rewrite (IH2 _ _ _ _ _ _ _ Hi). reflexivity.
  - intros i1 i2 k s b off a Hi. rewrite !udecs_S. destruct (off <? zlen b)%Z; [|reflexivity].
    destruct (from_ b off) as [b0|]; [|reflexivity].
    destruct (decodeTag b0) as [[[fn w] n] [e|]]; [reflexivity|]. cbv zeta.
    pose proof (lookup_rel iget1 iget2 RR RI Hinfo i1 i2 fn Hi) as L.
    destruct (lookup_field (iget1 i1) fn) as [f1|], (lookup_field (iget2 i2) fn) as [f2|]; try contradiction.
    + destruct L as (Li & Lm & Lc). unfold wireType. rewrite Lm.
      destruct (negb _); [reflexivity|]. destruct (field_data b (off + n) w); try reflexivity.
      unfold field_addr. rewrite Li, (IH1 _ _ _ _ _ Lc).
      destruct (udec grow pick look2 iget2 D other fuel (f_codec f2) s d _) as [y' n' [e|]| |]; try reflexivity.
      apply IH2. assumption.
    + destruct (skip_unknown b (off + n) w) as [[o [e|]]|]; try reflexivity. apply IH2. assumption.
Qed.
End Rel.
