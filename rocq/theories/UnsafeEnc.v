(** Size and Marshal on flat memory agree with those on trees, whether or not
    the parts of the message overlap. *)
From Coq Require Import ZifyBool ZifyNat ZifyN.
From Verif Require Import Base Wire GoType Leaf Codec Tag Walker Resolve Api Typing SpecWire WireFacts DecodeFacts TypingFacts CodecSim
  Unsafe SpecUnsafe UnsafeMem UnsafeRep UnsafeLeaf UnsafeEqs.
Local Open Scope nat_scope.

(** ** Enough fuel *)
Definition ev (P : nat -> Prop) : Prop := exists n, forall fuel, n <= fuel -> P fuel.
Lemma ev_now (P : nat -> Prop) : (forall f, P f) -> ev P. Proof. intros H. exists 0. auto. Qed.
Lemma ev_succ (P : nat -> Prop) : ev (fun f => P (S f)) -> ev P.
Proof. intros [n H]. exists (S n). intros [|f] L; [lia|]. apply H. lia. Qed.
Lemma ev_and (P Q R : nat -> Prop) : (forall f, P f -> Q f -> R f) -> ev P -> ev Q -> ev R.
Proof. intros C [n A] [m B]. exists (Nat.max n m). intros f L. apply C; [apply A|apply B]; lia. Qed.
Lemma ev_imp (P R : nat -> Prop) : (forall f, P f -> R f) -> ev P -> ev R.
Proof. intros C [n A]. exists n. auto. Qed.

Lemma ev_sum {A B} (T : A -> B -> Prop) (g : B -> res Z) (h : nat -> A -> api Z) xs ys :
  Forall2 T xs ys -> (forall x y n, T x y -> In y ys -> g y = OK n -> ev (fun f => h f x = Returns n)) ->
  forall n, sum_res (map g ys) = OK n -> ev (fun f => sum_api (map (h f) xs) = Returns n).
Proof.
  intros F. induction F as [|x y xs ys Hxy F IH]; intros Hs n E.
  - cbn in E. inversion E; subst. apply ev_now. reflexivity.
  - cbn [map sum_res] in E. destruct (g y) as [p|] eqn:Eg; [|discriminate]. cbn [rbind] in E.
    destruct (sum_res (map g ys)) as [q|] eqn:Eq; [|discriminate]. cbn [rbind] in E. inversion E; subst.
    eapply ev_and; [|apply (Hs x y p Hxy (or_introl eq_refl) Eg)|apply (IH ltac:(intros; eapply Hs; [eassumption|right; assumption|assumption]) q eq_refl)].
    cbn beta. intros f E1 E2. cbn [map sum_api]. rewrite E1, E2. reflexivity.
Qed.
Lemma ev_chain {A B} (T : A -> B -> Prop) (g : B -> bytes -> res bytes) (h : nat -> A -> bytes -> api bytes) xs ys :
  Forall2 T xs ys -> (forall x y b r, T x y -> In y ys -> g y b = OK r -> ev (fun f => h f x b = Returns r)) ->
  forall b r, chain_res b (map g ys) = OK r -> ev (fun f => chain_api b (map (h f) xs) = Returns r).
Proof.
  intros F. induction F as [|x y xs ys Hxy F IH]; intros Hs b r E.
  - cbn in E. inversion E; subst. apply ev_now. reflexivity.
  - cbn [map chain_res] in E. destruct (g y b) as [p|] eqn:Eg; [|discriminate]. cbn [rbind] in E.
    eapply ev_and; [|apply (Hs x y b p Hxy (or_introl eq_refl) Eg)|apply (IH ltac:(intros; eapply Hs; [eassumption|right; assumption|assumption]) p r E)].
    cbn beta. intros f E1 E2. cbn [map chain_api]. rewrite E1, E2. reflexivity.
Qed.
Lemma F2_refl {A} (P : A -> A -> Prop) l : (forall x, In x l -> P x x) -> Forall2 P l l.
Proof. induction l as [|x l IH]; intros H; constructor; [apply H; left; reflexivity|]. apply IH. intros; apply H; right; assumption. Qed.

Lemma fields_size_sum {R} (sub : nat -> option (R -> fmeta -> res Z)) fs :
  fields_size sub fs = sum_res (map (fun f => match sub (f_idx f) with Some g => g (f_codec f) (f_meta f) | None => CR Confused end) fs).
Proof. induction fs as [|f fs IH]; [reflexivity|]. cbn [fields_size map sum_res]. rewrite IH. reflexivity. Qed.
Lemma fields_encode_chain {R} (sub : nat -> option (bytes -> R -> fmeta -> res bytes)) fs : forall b,
  fields_encode sub b fs = chain_res b (map (fun f b => match sub (f_idx f) with Some g => g b (f_codec f) (f_meta f) | None => CR Confused end) fs).
Proof.
  induction fs as [|f fs IH]; intros b; [reflexivity|]. cbn [fields_encode map chain_res].
  destruct (sub (f_idx f)); [|reflexivity]. destruct (r b (f_codec f) (f_meta f)); [|reflexivity]. apply IH.
Qed.

Section Enc.
Variable D : decls.
Hypothesis HD : decls_fit D = true.
Variable other : nat -> nat -> nat * nat.
Variable sep : bool.
Notation rep := (rep D other sep).
Notation box := (box D other sep).
Notation usz := (usz plook (piget D) D other).
Notation usizes := (usizes plook (piget D) D other).
Notation uenc := (uenc plook (piget D) D other).
Notation uencs := (uencs plook (piget D) D other).
Notation sz := (sz plook (piget D)).
Notation enc := (enc plook (piget D)).
Variable H : heap.

(** ** Taking boxes apart *)
Lemma box_nth L vs S j t a : box H L vs S -> nth_error L j = Some (t, a) -> exists v Sv, nth_error vs j = Some v /\ rep H t a v Sv.
Proof.
  intros B N. destruct (box_focus _ _ _ _ _ _ _ _ _ _ B N) as (v & Sv & F & E & R & _). eauto.
Qed.
Lemma box_elems e a items spare S : box H (elems e a (length items + length spare)) (items ++ spare) S ->
  Forall2 (fun i x => exists Sx, rep H e (shift a (i * tsize e)) x Sx) (seq 0 (length items)) items.
Proof.
  intros B.
  assert (P : forall j x, nth_error items j = Some x -> exists Sx, rep H e (shift a (j * tsize e)) x Sx).
  { intros j x E. assert (L : j < length items) by (apply nth_error_Some; congruence).
    destruct (box_nth _ _ _ j _ _ B (elems_nth e a (length items + length spare) j ltac:(lia))) as (v & Sv & E' & R).
    rewrite nth_error_app1 in E' by exact L. rewrite E in E'. inversion E'; subst. eauto. }
  assert (Q : forall l o, (forall j x, nth_error l j = Some x -> exists Sx, rep H e (shift a ((o + j) * tsize e)) x Sx) ->
    Forall2 (fun i x => exists Sx, rep H e (shift a (i * tsize e)) x Sx) (seq o (length l)) l).
  { induction l as [|x l IH]; intros o K; [constructor|]. cbn [length seq]. constructor.
    - specialize (K 0 x eq_refl). rewrite Nat.add_0_r in K. exact K.
    - apply IH. intros j y E. specialize (K (Datatypes.S j) y E). replace (Datatypes.S o + j) with (o + Datatypes.S j) by lia. exact K. }
  apply (Q items 0). exact P.
Qed.
Lemma box_slots k e l : forall kxs S, length l = length kxs -> box H (slots k e l) (flat kxs) S ->
  Forall2 (fun xy kx => (exists S, rep H (TScalar k) (fst xy, 0) (fst kx) S) /\ (exists S, rep H e (snd xy, 0) (snd kx) S)) l kxs.
Proof.
  induction l as [|[x y] l IH]; intros [|[a b] kxs] S L B; try discriminate; [constructor|].
  cbn [slots flat flat_map app fst snd] in B.
  apply box_inv in B as (v1 & vs1 & S1 & S2 & E1 & R1 & B & _ & _ & _). inversion E1; subst v1 vs1.
  apply box_inv in B as (v2 & vs2 & S3 & S4 & E2 & R2 & B & _ & _ & _). inversion E2; subst v2 vs2.
  constructor; [cbn [fst snd]; eauto|]. eapply IH; [cbn in L; lia|exact B].
Qed.

Lemma piget_same k : i_index (piget D k) = i_fields (piget D k).
Proof. unfold piget, pinfo. destruct (pfields 0 (struct_fields D k)); reflexivity. Qed.
Lemma struct_types_key k : struct_types D k = key_types D k.
Proof. destruct k; reflexivity. Qed.
(** The fields of a struct, by number and by address. *)
Lemma placed_fields k p xs S : key_ok D k -> (forall q, k <> SOpt q) -> box H (placed D other k p) xs S ->
  forall f, In f (i_fields (piget D k)) -> exists t y Sy, codec_fits D (f_codec f) t = true /\
    nth_error xs (f_idx f) = Some y /\ rep H t (field_addr D other k p f) y Sy.
Proof.
  intros Hk N B f Hf. rewrite <- piget_same in Hf. destruct (piget_field D k f HD Hk Hf) as (t & Et & C & _).
  rewrite <- struct_types_key in Et.
  destruct (box_nth _ _ _ _ _ _ B (placed_nth D other k p _ _ N Et)) as (y & Sy & Ey & R).
  exists t, y, Sy. split; [exact C|]. split; [exact Ey|exact R].
Qed.
Lemma opt_fields q : i_fields (piget D (SOpt q)) = []. Proof. reflexivity. Qed.

Lemma fits_reads s t : static_fits s t = true -> reads s t.
Proof.
  destruct s as [w []|]; cbn [static_fits reads]; auto. intros E. apply gotype_eqb_eq in E. subst.
  destruct w; reflexivity.
Qed.
Lemma flat_codec_fits p t : flat_fits D p t = true -> codec_fits D p t = true.
Proof. destruct p, t; try discriminate; auto. Qed.
Lemma key_static p k : flat_fits D p (TScalar k) = true -> exists s, p = PStatic s /\ forall t, reads s t.
Proof.
  destruct p as [s|e q|e q|[]|]; try discriminate. cbn [flat_fits]. intros E. exists s. split; [reflexivity|].
  destruct s as [w []|]; cbn [static_fits] in E; cbn [reads]; auto. apply gotype_eqb_eq in E. discriminate.
Qed.
Lemma ev_leaf s a t v S f n : reads s t -> rep H t a v S -> l_size (static s) v f = OK n ->
  ev (fun fuel => usz fuel (PStatic s) H a f = Returns n).
Proof.
  intros Hr R E. apply ev_succ, ev_now. intros fuel. rewrite usz_S. cbn [plook].
  rewrite (leaf_size _ _ _ _ _ _ _ _ _ _ _ Hr R E). reflexivity.
Qed.

Definition sz_ok (v : val) : Prop := forall p t a S f n, codec_fits D p t = true -> rep H t a v S -> sz v p f = OK n ->
  ev (fun fuel => usz fuel p H a f = Returns n).
(** The struct of type [k] at [p]. *)
Lemma usizes_gen k p xs S n : key_ok D k -> (forall q, k <> SOpt q) -> box H (placed D other k p) xs S -> Forall sz_ok xs ->
  fields_size (fun j => option_map (fun y => sz y) (nth_error xs j)) (i_fields (piget D k)) = OK n ->
  ev (fun fuel => usizes fuel k k H p = Returns n).
Proof.
  intros Hk N B IH E. rewrite fields_size_sum in E. apply ev_succ. cbn [Unsafe.usizes].
  eapply (ev_sum (fun x y => x = y)); [apply F2_refl; reflexivity| |exact E].
  cbn beta. intros x y m -> Hi Ex. destruct (placed_fields k p xs S Hk N B y Hi) as (t & v & Sv & C & Ev & R).
  rewrite Ev in Ex. cbn [option_map] in Ex. rewrite Forall_forall in IH.
  eapply (IH v); [eapply nth_error_In; exact Ev|exact C|exact R|exact Ex].
Qed.

Lemma usz_sim : forall v, sz_ok v.
Proof.
  induction v as [v IH] using val_ind2; intros p t a S f n Hc R E.
  destruct p as [s|e q|e q|k|tag kt vt key val kp vp].
  - assert (Hf : static_fits s t = true) by (destruct t; exact Hc).
    eapply ev_leaf; [apply fits_reads; exact Hf|exact R|]. destruct v; exact E.
  - destruct t as [| | | | |t| |]; try discriminate Hc. cbn [codec_fits flat_fits] in Hc. btrue.
    inversion R; subst; try discriminate.
    + apply ev_succ, ev_now. intros fuel. rewrite usz_S. cbn [plook]. erewrite holds_ptr by eassumption.
      cbn in E. inversion E; subst. reflexivity.
    + match goal with B : box _ [_] _ _ |- _ => apply box_inv in B as (v0 & vs & S1 & S2 & Ev & R' & _); inversion Ev; subst v0 end.
      cbn [Codec.sz plook] in E. destruct IH as [IH _].
      apply ev_succ. eapply ev_imp; [|eapply IH; [apply flat_codec_fits; eassumption|exact R'|exact E]].
      cbn beta. intros fuel Q. rewrite usz_S. cbn [plook]. erewrite holds_ptr by eassumption. exact Q.
  - destruct t as [| | |t| | | |]; try discriminate Hc. cbn [codec_fits] in Hc. btrue.
    inversion R; subst; try discriminate.
    + apply ev_succ, ev_now. intros fuel. rewrite usz_S. cbn [plook]. erewrite hdr_ld by eassumption.
      cbn in E. inversion E; subst. reflexivity.
    + cbn [Codec.sz plook] in E. destruct IH as [IH _].
      match goal with B : box _ (elems _ _ _) _ _ |- _ => apply box_elems in B end.
      apply ev_succ. eapply ev_imp; [|eapply ev_sum with (h := fun fuel i => usz fuel q H (shift p (i * tsize t)) f); [eassumption| |exact E]].
      * cbn beta. intros fuel Q. rewrite usz_S. cbn [plook]. erewrite hdr_ld by eassumption. cbn [aopt index]. rewrite aligned. exact Q.
      * cbn beta. intros i x m [Sx Rx] Hi Ex. rewrite Forall_forall in IH.
        eapply (IH x Hi); [apply flat_codec_fits; eassumption|exact Rx|exact Ex].
  - assert (C : match k with SNamed sid => t = TMsg sid /\ sid < length D | SOpt q => t = TPtr (TOption q) | SEntry _ _ _ _ => False end).
    { destruct k as [sid| |q]; destruct t as [| | | | |[]| |]; try discriminate Hc; cbn [codec_fits flat_fits] in Hc; btrue; auto. }
    destruct k as [sid| |q]; [|contradiction|].
    + destruct C as [-> Hsid]. inversion R; subst; try discriminate.
      * apply ev_succ, ev_now. intros fuel. rewrite usz_S. cbn [plook]. erewrite holds_ptr by eassumption.
        cbn in E. inversion E; subst. reflexivity.
      * cbn [Codec.sz plook] in E.
        match type of E with rbind ?x _ = _ => destruct x as [m|] eqn:Em; [|discriminate E] end.
        cbn [rbind] in E. inversion E; subst n. clear E. destruct IH as [_ IH].
        assert (Em' : fields_size (fun j => option_map (fun y => sz y) (nth_error xs j)) (i_fields (piget D (SNamed sid))) = OK m).
        { rewrite <- Em. rewrite !fields_size_sum. f_equal. apply map_ext. intros x. rewrite nth_error_map. reflexivity. }
        apply ev_succ. eapply ev_imp; [|eapply (usizes_gen (SNamed sid)); [exact Hsid|discriminate|eassumption|exact IH|exact Em']].
        cbn beta. intros fuel Q. rewrite usz_S. cbn [plook]. erewrite holds_ptr by eassumption. cbn [aopt]. rewrite Q. reflexivity.
    + subst t. inversion R; subst; try discriminate.
      * apply ev_succ, ev_now. intros fuel. rewrite usz_S. cbn [plook]. erewrite holds_ptr by eassumption.
        cbn in E. inversion E; subst. reflexivity.
      * do 2 apply ev_succ. apply ev_now. intros fuel. rewrite usz_S. cbn [plook]. erewrite holds_ptr by eassumption.
        cbn [Codec.sz plook] in E. rewrite opt_fields in *. cbn in E |- *. inversion E; subst. reflexivity.
  - destruct t as [| | | |k t| | |]; try discriminate Hc. cbn [codec_fits] in Hc. btrue.
    inversion R; subst; try discriminate.
    + apply ev_succ, ev_now. intros fuel. rewrite usz_S. cbn [plook]. erewrite holds_ptr by eassumption.
      cbn [Codec.sz plook sum_res rbind] in E. cbn in E |- *. inversion E; subst. reflexivity.
    + cbn [Codec.sz plook] in E.
      match type of E with rbind ?x _ = _ => destruct x as [m0|] eqn:Em; [|discriminate E] end.
      cbn [rbind] in E. inversion E; subst n. clear E.
      match goal with B : box _ (slots _ _ _) _ _ |- _ => apply box_slots in B; [|assumption] end.
      apply ev_succ. eapply ev_imp; [|eapply ev_sum with (xs := l) (h := fun fuel kv =>
          abind (usz fuel kp H (fst kv, O) {| wiretag := kt; tagsize := sizeOfVarint kt |}) (fun keySize =>
          abind (usz fuel vp H (snd kv, O) {| wiretag := vt; tagsize := sizeOfVarint vt |}) (fun valSize =>
          Returns (sizeOfVarint tag + sizeOfVarint (u64 (keySize + valSize)) + keySize + valSize)%Z))); [eassumption| |exact Em]].
      * cbn beta. intros fuel Q. rewrite usz_S. cbn [plook]. erewrite holds_ptr by eassumption. cbn [aopt entries].
        match goal with N : nth_error H m = _ |- _ => rewrite N end. cbn [aopt].
        change (mkfield 0 kt kp) with {| f_idx := 0; f_meta := {| wiretag := kt; tagsize := sizeOfVarint kt |}; f_codec := kp |}.
        change (mkfield 1 vt vp) with {| f_idx := 1; f_meta := {| wiretag := vt; tagsize := sizeOfVarint vt |}; f_codec := vp |}.
        cbn [f_codec f_meta]. rewrite Q. reflexivity.
      * cbn beta. intros xy [ka xa] m1 [[S1 R1] [S2 R2]] Hi Ex. cbn [fst snd] in *.
        rewrite Forall_forall in IH. destruct (IH _ Hi) as [IH1 IH2]. cbn [fst snd] in *.
        change (f_codec (mkfield 0 kt kp)) with kp in Ex. change (f_codec (mkfield 1 vt vp)) with vp in Ex.
        destruct (sz ka kp _) as [n1|] eqn:E1; [|discriminate]. cbn [rbind] in Ex.
        destruct (sz xa vp _) as [n2|] eqn:E2; [|discriminate]. cbn [rbind] in Ex. inversion Ex; subst m1.
        eapply ev_and; [|eapply (IH1 kp (TScalar k)); [apply flat_codec_fits; eassumption|exact R1|exact E1]
          |eapply (IH2 vp t); [apply flat_codec_fits; eassumption|exact R2|exact E2]].
        cbn beta. intros fuel Q1 Q2. change (f_meta (mkfield 0 kt kp)) with {| wiretag := kt; tagsize := sizeOfVarint kt |} in Q1.
        change (f_meta (mkfield 1 vt vp)) with {| wiretag := vt; tagsize := sizeOfVarint vt |} in Q2. rewrite Q1. cbn [abind]. rewrite Q2. reflexivity.
Qed.
Lemma usizes_sim k p x S n : key_ok D k -> rep_struct D other sep H k p x S ->
  struct_size plook (piget D) k x = OK n -> ev (fun fuel => usizes fuel k k H p = Returns n).
Proof.
  intros Hk R E. assert (C : (exists q, k = SOpt q) \/ forall q, k <> SOpt q).
  { destruct k; [right; discriminate|right; discriminate|left; eauto]. }
  destruct C as [[q ->]|N].
  - unfold struct_size in E. rewrite opt_fields in E. cbn in E. inversion E; subst.
    apply ev_succ, ev_now. intros fuel. cbn [Unsafe.usizes]. rewrite opt_fields. reflexivity.
  - assert (exists xs, x = VStruct xs /\ box H (placed D other k p) xs S) as (xs & -> & B).
    { destruct k; cbn [rep_struct] in R; [exact R|exact R|exfalso; eapply N; reflexivity]. }
    eapply usizes_gen; [exact Hk|exact N|exact B| |exact E]. apply Forall_forall. intros y _. apply usz_sim.
Qed.

(** ** Encoding *)
Definition enc_ok (v : val) : Prop := forall p t a S b f r, codec_fits D p t = true -> rep H t a v S -> enc v b p f = OK r ->
  ev (fun fuel => uenc fuel p H b a f = Returns r).
Lemma uencs_gen k p xs S b r : key_ok D k -> (forall q, k <> SOpt q) -> box H (placed D other k p) xs S -> Forall enc_ok xs ->
  fields_encode (fun j => option_map (fun y => enc y) (nth_error xs j)) b (i_fields (piget D k)) = OK r ->
  ev (fun fuel => uencs fuel k k H b p = Returns r).
Proof.
  intros Hk N B IH E. rewrite fields_encode_chain in E. apply ev_succ. cbn [Unsafe.uencs].
  eapply (ev_chain (fun x y => x = y)) with (h := fun fuel x b => uenc fuel (f_codec x) H b (field_addr D other k p x) (f_meta x));
    [apply F2_refl; reflexivity| |exact E].
  cbn beta. intros x y b1 r1 -> Hi Ex. destruct (placed_fields k p xs S Hk N B y Hi) as (t & v & Sv & C & Ev & R).
  rewrite Ev in Ex. cbn [option_map] in Ex. rewrite Forall_forall in IH.
  eapply (IH v); [eapply nth_error_In; exact Ev|exact C|exact R|exact Ex].
Qed.

Lemma uenc_sim : forall v, enc_ok v.
Proof.
  induction v as [v IH] using val_ind2; intros p t a S b f r Hc R E.
  destruct p as [s|e q|e q|k|tag kt vt key val kp vp].
  - assert (Hf : static_fits s t = true) by (destruct t; exact Hc).
    apply ev_succ, ev_now. intros fuel. rewrite uenc_S. cbn [plook].
    assert (E' : l_encode (static s) b v f = OK r) by (destruct v; exact E).
    rewrite (leaf_encode _ _ _ _ _ _ _ _ _ _ _ _ (fits_reads _ _ Hf) R E'). reflexivity.
  - destruct t as [| | | | |t| |]; try discriminate Hc. cbn [codec_fits flat_fits] in Hc. btrue.
    inversion R; subst; try discriminate.
    + apply ev_succ, ev_now. intros fuel. rewrite uenc_S. cbn [plook]. erewrite holds_ptr by eassumption.
      cbn in E. inversion E; subst. reflexivity.
    + match goal with B : box _ [_] _ _ |- _ => apply box_inv in B as (v0 & vs & S1 & S2 & Ev & R' & _); inversion Ev; subst v0 end.
      cbn [Codec.enc plook] in E. destruct IH as [IH _].
      apply ev_succ. eapply ev_imp; [|eapply IH; [apply flat_codec_fits; eassumption|exact R'|exact E]].
      cbn beta. intros fuel Q. rewrite uenc_S. cbn [plook]. erewrite holds_ptr by eassumption. exact Q.
  - destruct t as [| | |t| | | |]; try discriminate Hc. cbn [codec_fits] in Hc. btrue.
    inversion R; subst; try discriminate.
    + apply ev_succ, ev_now. intros fuel. rewrite uenc_S. cbn [plook]. erewrite hdr_ld by eassumption.
      cbn in E. inversion E; subst. reflexivity.
    + cbn [Codec.enc plook] in E. destruct IH as [IH _].
      match goal with B : box _ (elems _ _ _) _ _ |- _ => apply box_elems in B end.
      apply ev_succ. eapply ev_imp; [|eapply ev_chain with (h := fun fuel i b => uenc fuel q H b (shift p (i * tsize t)) f); [eassumption| |exact E]].
      * cbn beta. intros fuel Q. rewrite uenc_S. cbn [plook]. erewrite hdr_ld by eassumption. cbn [aopt index]. rewrite aligned. exact Q.
      * cbn beta. intros i x b1 r1 [Sx Rx] Hi Ex. rewrite Forall_forall in IH.
        eapply (IH x Hi); [apply flat_codec_fits; eassumption|exact Rx|exact Ex].
  - assert (C : match k with SNamed sid => t = TMsg sid /\ sid < length D | SOpt q => t = TPtr (TOption q) | SEntry _ _ _ _ => False end).
    { destruct k as [sid| |q]; destruct t as [| | | | |[]| |]; try discriminate Hc; cbn [codec_fits flat_fits] in Hc; btrue; auto. }
    destruct k as [sid| |q]; [|contradiction|].
    + destruct C as [-> Hsid]. inversion R; subst; try discriminate.
      * apply ev_succ, ev_now. intros fuel. rewrite uenc_S. cbn [plook]. erewrite holds_ptr by eassumption.
        cbn in E. inversion E; subst. reflexivity.
      * cbn [Codec.enc plook] in E.
        match type of E with rbind ?x _ = _ => destruct x as [m|] eqn:Em; [|discriminate E] end.
        cbn [rbind] in E. destruct IH as [_ IH].
        assert (Em' : fields_encode (fun j => option_map (fun y => enc y) (nth_error xs j)) (appendVarint (appendVarint b (wiretag f)) (u64 m)) (i_fields (piget D (SNamed sid))) = OK r).
        { rewrite <- E. rewrite !fields_encode_chain. f_equal. apply map_ext. intros x. rewrite nth_error_map. reflexivity. }
        apply ev_succ. eapply ev_and; [|eapply (usizes_sim (SNamed sid)); [exact Hsid|cbn [rep_struct]; eauto|exact Em]
          |eapply (uencs_gen (SNamed sid)); [exact Hsid|discriminate|eassumption|exact IH|exact Em']].
        cbn beta. intros fuel Q1 Q2. rewrite uenc_S. cbn [plook]. erewrite holds_ptr by eassumption. cbn [aopt]. rewrite Q1. exact Q2.
    + subst t. inversion R; subst; try discriminate.
      * apply ev_succ, ev_now. intros fuel. rewrite uenc_S. cbn [plook]. erewrite holds_ptr by eassumption.
        cbn in E. inversion E; subst. reflexivity.
      * do 2 apply ev_succ. apply ev_now. intros fuel. rewrite uenc_S. cbn [plook]. erewrite holds_ptr by eassumption.
        cbn [Codec.enc plook] in E. unfold struct_size in E. rewrite opt_fields in *. cbn [fields_size fields_encode rbind] in E.
        inversion E; subst. reflexivity.
  - destruct t as [| | | |k t| | |]; try discriminate Hc. cbn [codec_fits] in Hc. btrue.
    inversion R; subst; try discriminate.
    + apply ev_succ, ev_now. intros fuel. rewrite uenc_S. cbn [plook]. erewrite holds_ptr by eassumption.
      cbn [Codec.enc plook chain_res rbind] in E. cbn [aopt entries map chain_api abind]. inversion E; subst. reflexivity.
    + cbn [Codec.enc plook] in E.
      match type of E with rbind ?x _ = _ => destruct x as [m0|] eqn:Em; [|discriminate E] end.
      cbn [rbind] in E. inversion E; subst r. clear E.
      match goal with B : box _ (slots _ _ _) _ _ |- _ => apply box_slots in B; [|assumption] end.
      set (kf := mkfield 0 kt kp) in *. set (vf := mkfield 1 vt vp) in *.
      apply ev_succ. eapply ev_imp; [|eapply ev_chain with (xs := l) (h := fun fuel kv b =>
          abind (usz fuel (f_codec kf) H (fst kv, O) (f_meta kf)) (fun keySize =>
          abind (usz fuel (f_codec kf) H (snd kv, O) (f_meta vf)) (fun valSize =>
          abind (uenc fuel (f_codec kf) H (appendVarint (b ++ appendVarint [] tag) (u64 (keySize + valSize))) (fst kv, O) (f_meta kf)) (fun b =>
          uenc fuel (f_codec vf) H b (snd kv, O) (f_meta vf))))); [eassumption| |exact Em]].
      * cbn beta. intros fuel Q. rewrite uenc_S. cbn [plook]. erewrite holds_ptr by eassumption. cbn [aopt entries].
        match goal with N : nth_error H m = _ |- _ => rewrite N end. cbn [aopt]. cbv zeta.
        fold kf. fold vf. rewrite Q. reflexivity.
      * cbn beta. intros xy [ka xa] b1 m1 [[S1 R1] [S2 R2]] Hi Ex. cbn [fst snd] in *.
        rewrite Forall_forall in IH. destruct (IH _ Hi) as [IH1 IH2]. cbn [fst snd] in *.
        destruct (sz ka (f_codec kf) _) as [n1|] eqn:E1; [|discriminate]. cbn [rbind] in Ex.
        destruct (sz xa (f_codec kf) _) as [n2|] eqn:E2; [|discriminate]. cbn [rbind] in Ex.
        destruct (enc ka _ (f_codec kf) _) as [b2|] eqn:E3; [|discriminate]. cbn [rbind] in Ex.
        assert (Hkp : flat_fits D kp (TScalar k) = true) by assumption.
        destruct (key_static kp k Hkp) as (s & Ekp & Hr).
        assert (X : ev (fun fuel => usz fuel (f_codec kf) H (snd xy, 0) (f_meta vf) = Returns n2)).
        { unfold kf in E2 |- *. cbn [mkfield f_codec] in *. subst kp. eapply ev_leaf; [apply Hr|exact R2|].
          destruct xa; exact E2. }
        assert (X1 : ev (fun fuel => usz fuel (f_codec kf) H (fst xy, 0) (f_meta kf) = Returns n1)).
        { eapply (usz_sim ka kp (TScalar k)); [apply flat_codec_fits; exact Hkp|exact R1|exact E1]. }
        assert (X3 : ev (fun fuel => uenc fuel (f_codec kf) H (appendVarint (b1 ++ appendVarint [] tag) (u64 (n1 + n2))) (fst xy, 0) (f_meta kf) = Returns b2)).
        { eapply (IH1 kp (TScalar k)); [apply flat_codec_fits; exact Hkp|exact R1|exact E3]. }
        assert (X4 : ev (fun fuel => uenc fuel (f_codec vf) H b2 (snd xy, 0) (f_meta vf) = Returns m1)).
        { eapply (IH2 vp t); [apply flat_codec_fits; assumption|exact R2|exact Ex]. }
        pose proof (ev_and _ _ (fun f => _ /\ _) (fun _ p q => conj p q) X1 X) as Y1.
        pose proof (ev_and _ _ (fun f => _ /\ _) (fun _ p q => conj p q) X3 X4) as Y2.
        eapply ev_and; [|exact Y1|exact Y2]. cbn beta. intros fuel [Q1 Q2] [Q3 Q4].
        rewrite Q1. cbn [abind]. rewrite Q2. cbn [abind]. rewrite Q3. cbn [abind]. exact Q4.
Qed.
Lemma uencs_sim k p x S b r : key_ok D k -> rep_struct D other sep H k p x S ->
  struct_encode plook (piget D) k b x = OK r -> ev (fun fuel => uencs fuel k k H b p = Returns r).
Proof.
  intros Hk R E. assert (C : (exists q, k = SOpt q) \/ forall q, k <> SOpt q).
  { destruct k; [right; discriminate|right; discriminate|left; eauto]. }
  destruct C as [[q ->]|N].
  - unfold struct_encode in E. rewrite opt_fields in E. cbn in E. inversion E; subst.
    apply ev_succ, ev_now. intros fuel. cbn [Unsafe.uencs]. rewrite opt_fields. reflexivity.
  - assert (exists xs, x = VStruct xs /\ box H (placed D other k p) xs S) as (xs & -> & B).
    { destruct k; cbn [rep_struct] in R; [exact R|exact R|exfalso; eapply N; reflexivity]. }
    eapply uencs_gen; [exact Hk|exact N|exact B| |exact E]. apply Forall_forall. intros y _. apply uenc_sim.
Qed.
End Enc.
