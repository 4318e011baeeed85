(** What a message of any generated type holds after a call of Unmarshal that failed. *)
From Coq Require Import ZifyBool ZifyNat ZifyN String.
From Verif Require Import Base Wire GoType Leaf Codec Tag Walker Api Resolve Typing SpecWire SpecTag SpecMsg SpecLib SpecFailed SpecProto SpecOut SpecIn SpecLeft
  WireFacts DecodeFacts GenFacts TypingFacts TagFacts EncFacts WalkSeq ApiFacts MsgResolve MsgEnc MsgDec MsgFit MsgApi ProtoGen ProtoFacts ProtoFit OutFacts InFacts InThms.
From Verif Require Import SpecLib.
Local Open Scope Z_scope.

(** A varint without an end. *)
Lemma cut_loop b : forall (i : nat) x, vgroup b = None -> (i + length b <= 9)%nat -> (x < 128 ^ N.of_nat i)%N ->
  decodeVarint_loop b (Z.of_nat i) (7 * N.of_nat i) x = ((x + 128 ^ N.of_nat i * vvalue b)%N, Z.of_nat i + zlen b, Some ErrUnexpectedEOF).
Proof.
  assert (P : forall i, (2 ^ (7 * N.of_nat i) = 128 ^ N.of_nat i)%N) by (intros; rewrite N.pow_mul_r; reflexivity).
  induction b as [|c b IH]; intros i x Hg Hi Hx.
  - cbn [decodeVarint_loop vvalue]. rewrite N.mul_0_r, N.add_0_r. f_equal. f_equal. unfold zlen. cbn. lia.
  - cbn [vgroup decodeVarint_loop] in *. destruct (c <? 128)%N; [discriminate Hg|]. destruct (vgroup b) as [[g r]|] eqn:Eg; [discriminate Hg|].
    cbn [length] in Hi. rewrite land127.
    assert (L : N.lor x (shl64 (c mod 128) (7 * N.of_nat i)) = (x + c mod 128 * 128 ^ N.of_nat i)%N).
    { rewrite lor_shl64, P; [reflexivity|rewrite P; exact Hx|]. rewrite P.
      apply N.lt_le_trans with (128 * 128 ^ N.of_nat i)%N.
      - apply N.mul_lt_mono_pos_r; [apply N.neq_0_lt_0, N.pow_nonzero; lia|apply N.mod_lt; lia].
      - rewrite <- N.pow_succ_r'. apply N.le_trans with (128^9)%N; [apply N.pow_le_mono_r; lia|discriminate]. }
    rewrite L. replace (Z.of_nat i + 1) with (Z.of_nat (S i)) by lia. replace (7 * N.of_nat i + 7)%N with (7 * N.of_nat (S i))%N by lia.
    rewrite IH; [|reflexivity|lia|].
    + cbn [vvalue]. rewrite zlen_cons, Nat2N.inj_succ, N.pow_succ_r'. f_equal. f_equal; [nia|lia].
    + rewrite Nat2N.inj_succ, N.pow_succ_r'. assert (c mod 128 < 128)%N by (apply N.mod_lt; lia). nia.
Qed.
Lemma cut_varint b : read_varint b = VEof -> (length b <= 9)%nat -> decodeVarint b = (vvalue b, zlen b, Some ErrUnexpectedEOF).
Proof.
  unfold read_varint, decodeVarint. destruct (vgroup b) as [[g r]|] eqn:Eg; [destruct (_ || _); discriminate|]. intros _ Hl.
  pose proof (cut_loop b 0 0%N Eg Hl eq_refl) as C. change (Z.of_nat 0) with 0 in C. change (7 * N.of_nat 0)%N with 0%N in C. change (128 ^ N.of_nat 0)%N with 1%N in C. rewrite N.mul_1_l, N.add_0_l in C.
  destruct b as [|c b]; [exact C|]. cbn [vgroup] in Eg. destruct (c <? 128)%N; [discriminate Eg|]. exact C.
Qed.
Lemma short_varint b : (length b <= 9)%nat -> match read_varint b with VOverflow _ => False | _ => True end.
Proof.
  unfold read_varint. destruct (vgroup b) as [[g r]|] eqn:Eg; [|auto]. intros Hl. apply vgroup_length in Eg. destruct Eg as [-> _]. rewrite app_length in Hl.
  assert (V : (vvalue g < 128 ^ N.of_nat (length g))%N).
  { clear. induction g as [|c g IH]; [reflexivity|]. cbn [vvalue length]. rewrite Nat2N.inj_succ, N.pow_succ_r'. assert (c mod 128 < 128)%N by (apply N.mod_lt; lia). nia. }
  assert (W : (128 ^ N.of_nat (length g) <= 128 ^ 9)%N) by (apply N.pow_le_mono_r; lia). change (128 ^ 9)%N with 9223372036854775808%N in W. change (2^64)%N with 18446744073709551616%N.
  replace (10 <? length g)%nat with false by lia. replace (18446744073709551616 <=? vvalue g)%N with false by lia. exact Logic.I.
Qed.
Lemma vvalue_64 b : (length b <= 9)%nat -> (vvalue b < 2^64)%N.
Proof.
  intros Hl. apply N.lt_le_trans with (128 ^ 9)%N; [|discriminate]. apply N.lt_le_trans with (128 ^ N.of_nat (length b))%N; [|apply N.pow_le_mono_r; lia].
  clear. induction b as [|c g IH]; [reflexivity|]. cbn [vvalue length]. rewrite Nat2N.inj_succ, N.pow_succ_r'. assert (c mod 128 < 128)%N by (apply N.mod_lt; lia). nia.
Qed.

Section Dec.
Variables (D : decls) (sch : schema).
Hypothesis HI : implements D sch = true.
Hypothesis HS : schema_ok sch = true.
Hypothesis HG : forallb generable_msg sch = true.
Hypothesis HD : decls_fit D = true.
Notation dec := (Codec.dec plook (piget D) D).
Notation ldecs := (DecodeFacts.ldecs plook (piget D) D).
Notation any := (merge_any sch).

(** Scalars. *)
Lemma scalar_begun s md r len p y v q e : static_mode md = true -> small r -> wt D y (TScalar (go_kind s)) = true ->
  payload_len (wire_sty s) r = inl len -> read_payload (wire_sty s) r = Some (p, skipn len r) ->
  l_decode (static (SC (wk_of (own s)) md)) (firstn len r) y = DRet v q (Some e) ->
  take s (own s) r p (skipn len r) = None /\ (s = Y_sfixed32 \/ s = Y_sfixed64) /\ v = begun (FImplicit s) (firstn len r) y.
Proof.
  intros Hm Hs Hw Hl Hp E. pose proof (scalar_any D s (own s) md r len p y (own_stands s) Hm Hs Hw Hl Hp) as A.
  destruct (take s (own s) r p (skipn len r)) as [[q' next]|] eqn:Et.
  { destruct A as (v' & k & _ & _ & A). rewrite A in E. discriminate E. }
  split; [reflexivity|]. clear A. apply payload_len_ok in Hl as Hle. unfold take in Et.
  assert (L : (length (firstn len r) <= 9)%nat -> read_varint (firstn (length r - length (skipn len r)) r) = VEof ->
    decodeVarint (firstn len r) = (vvalue (firstn len r), zlen (firstn len r), Some ErrUnexpectedEOF)).
  { intros L. rewrite skipn_length. replace (length r - (length r - len))%nat with len by lia. intros R. apply cut_varint; assumption. }
  assert (F : (length (firstn len r) <= 9)%nat -> read_varint (firstn (length r - length (skipn len r)) r) <> VEof -> match read_varint (firstn (length r - length (skipn len r)) r) with VOk _ _ _ => True | _ => False end).
  { intros L9. rewrite skipn_length. replace (length r - (length r - len))%nat with len by lia. intros R. pose proof (short_varint _ L9) as S. destruct (read_varint (firstn len r)); [exact Logic.I|congruence|exact S]. }
  destruct s; cbn [own wire_sty N.eqb] in Et; try discriminate Et; cbn [go_kind wk_of own begun] in *; wtd y; (split; [auto|]).
  - assert (L9 : (length (firstn len r) <= 9)%nat).
    { cbn in Hl. match type of Hl with (if ?c then _ else _) = _ => destruct c; inversion Hl end. rewrite firstn_length. lia. }
    destruct (read_varint (firstn (length r - length (skipn len r)) r)) eqn:Er; try discriminate Et; [|destruct (F L9); discriminate].
    pose proof (vvalue_64 _ L9) as V64. specialize (L L9 eq_refl).
    destruct md; try discriminate Hm; cbn [static l_decode int32Codec int32RequiredCodec] in E; unfold decodeInt32 in E; rewrite L in E; cbn [wr_i32 wret] in E; injection E as <- _ _; rewrite signed_32 by exact V64; reflexivity.
  - assert (L9 : (length (firstn len r) <= 9)%nat).
    { cbn in Hl. match type of Hl with (if ?c then _ else _) = _ => destruct c; inversion Hl end. rewrite firstn_length. lia. }
    destruct (read_varint (firstn (length r - length (skipn len r)) r)) eqn:Er; try discriminate Et; [|destruct (F L9); discriminate].
    pose proof (vvalue_64 _ L9) as V64. specialize (L L9 eq_refl).
    destruct md; try discriminate Hm; cbn [static l_decode int64Codec int64RequiredCodec] in E; unfold decodeInt64 in E; rewrite L in E; cbn [wr_i64 wret] in E; injection E as <- _ _; rewrite signed_64 by exact V64; reflexivity.
Qed.
Definition leaves (m : nat) : Prop := forall m0 b ys xs fuel x e, key_ok D (SNamed m0) -> (length b < m)%nat ->
  bytes_okb b = true -> small b -> wts D (VStruct ys) (SNamed m0) = true -> forallb fresh ys = true -> map norm ys = map norm xs ->
  ldecs fuel (SNamed m0) b (VStruct ys) = LErr x e -> norm x = norm (VStruct (remains_any sch m (msg sch m0) xs b)).

Lemma put_fails m f n fuel y y' r len p v q e : leaves m -> okay_in f = true -> (forall s, f <> FAlways s) ->
  codec_fits D (cod n f) (go_type f) = true -> (type_depth (go_type f) <= Nat.max 1 (decls_depth D))%nat ->
  wt D y (go_type f) = true -> fresh y = true -> norm y = norm y' ->
  bytes_okb r = true -> small r -> (length r <= m)%nat ->
  payload_len (wire_fty f) r = inl len -> read_payload (wire_fty f) r = Some (p, skipn len r) ->
  dec fuel (cod n f) (firstn len r) y = DRet v q (Some e) ->
  norm v = norm match pick f r p (skipn len r) with None => begun f (firstn len r) y' | Some _ => match f, p with
    | FMessage m0, PLen c => VPtr (Some (VStruct (remains_any sch m (msg sch m0) match y' with VPtr (Some (VStruct xs)) => xs | _ => zeros (msg sch m0) end c)))
    | _, _ => y' end end.
Proof.
  intros IH Hf Ha Hfit Hdep Hw Hfr Hrel Hb Hs Hlen Hl Hp E.
  destruct f as [s|s|s|s| |m0|el|k el]; cbn [okay_in] in Hf; try discriminate Hf.
  - cbn [cod act go_type wire_fty] in *. rewrite wk_own in E. destruct fuel as [|fuel]; [discriminate E|]. rewrite dec_S in E. cbn [plook] in E.
    destruct (scalar_begun s Normal r len p y v q e eq_refl Hs Hw Hl Hp E) as (T & S & ->). unfold pick. cbn [scalar_of as_read]. rewrite T.
    destruct S as [->| ->]; reflexivity.
  - cbn [cod act go_type wire_fty] in *. wtd y. cbn [wt] in Hw. rewrite wk_own in E. destruct fuel as [|fuel]; [discriminate E|]. rewrite dec_S in E. cbn [plook] in E.
    assert (O : forall w b, l_decode (static (SC w Optional)) b (VOpt some y) = dmap (VOpt true) (l_decode (static (SC w Required)) b y)) by (intros [] b; reflexivity).
    rewrite O in E. destruct (l_decode (static (SC (wk_of (own s)) Required)) (firstn len r) y) as [v' q' [e'|]|c|] eqn:El; cbn [dmap] in E; try discriminate E.
    inversion E; subst v q' e'.
    destruct (scalar_begun s Required r len p y v' q e eq_refl Hs Hw Hl Hp El) as (T & S & ->). unfold pick. cbn [scalar_of as_read]. rewrite T.
    destruct S as [->| ->]; reflexivity.
  - destruct (Ha s eq_refl).
  - exfalso. cbn [cod act act_elem wire_fty go_type] in *. destruct (varlen_dec _ _ _ _ Hs Hl Hp) as (d & _ & E2 & _). destruct fuel as [|fuel]; [discriminate E|].
    rewrite dec_S in E. cbn [plook static l_decode bytesCodec] in E. unfold decodeBytes in E. rewrite E2 in E. wtd y; discriminate E.
  - unfold pick. cbn [scalar_of as_read]. cbn [wire_fty go_type cod act act_elem] in *. destruct fuel as [|fuel]; [discriminate E|].
    destruct (len_payload _ _ _ _ Hl Hp) as (d & k & -> & Er & El & Hk).
    assert (Hkk : key_ok D (SNamed m0)) by (cbn [codec_fits flat_fits] in Hfit; btrue; assumption).
    assert (Hkey : key_fs D sch (SNamed m0) (msg sch m0)) by (split; [assumption|left; eauto]).
    destruct (key_fs_facts D sch HI HS HG _ _ Hkey) as (_ & Ht & Hz & _ & _ & Hno & _).
    destruct (wt_msg _ _ _ Hw) as (o & -> & Hx). destruct (norm_ptr_inv _ _ Hrel) as (o' & -> & Ho).
    destruct (dec_struct plook (piget D) D fuel (PStruct (SNamed m0)) (SNamed m0) (SNamed m0) (firstn len r) o (small_firstn _ _ Hs) eq_refl) as [q' Eq].
    rewrite Eq, Er in E. clear Eq. cbv zeta in E.
    assert (Hd : d = skipn k (firstn len r)) by (apply read_varint_ok in Er; symmetry; apply Er).
    assert (Hbd : bytes_okb d = true) by (rewrite Hd; apply bytes_okb_skipn, bytes_okb_firstn; assumption).
    assert (Hsd : small d) by (rewrite Hd; apply small_skipn, small_firstn; assumption).
    assert (Hle := payload_len_ok _ _ _ Hl).
    assert (Hld : (length d < m)%nat) by lia.
    assert (S : exists ys xs, match o with Some x => x | None => zero_struct D (SNamed m0) end = VStruct ys /\
        match VPtr o' with VPtr (Some (VStruct xs)) => xs | _ => zeros (msg sch m0) end = xs /\
        wts D (VStruct ys) (SNamed m0) = true /\ forallb fresh ys = true /\ map norm ys = map norm xs).
    { destruct o as [x|], o' as [x'|]; try discriminate; cbn [option_map] in Ho.
      - destruct (wts_struct D x (SNamed m0) Hno Hx) as (ys & -> & _). inversion Ho as [Hn].
        destruct (norm_struct_inv ys x' Hn) as (xs & -> & Hm). exists ys, xs. repeat (split; [first [reflexivity|assumption]|]). assumption.
      - exists (zeros (msg sch m0)), (zeros (msg sch m0)). split; [exact Hz|]. split; [reflexivity|].
        split; [rewrite <- Hz; apply zero_struct_wts; assumption|]. split; [|reflexivity].
        unfold zeros. rewrite forallb_forall. intros w Hv. apply in_map_iff in Hv. destruct Hv as (g & <- & _).
        destruct (fld_type g) as [[]| |[]| | | | |]; reflexivity. }
    destruct S as (ys & xs & Eo & -> & Wy & Fy & Ny). rewrite Eo in E.
    destruct (ldecs fuel (SNamed m0) d (VStruct ys)) as [x|x e'|c|] eqn:EL; try discriminate E. inversion E; subst v.
    pose proof (IH m0 d ys xs fuel x e' Hkk Hld Hbd Hsd Wy Fy Ny EL) as N. cbn [norm] in N |- *. rewrite N. reflexivity.
  - cbn [cod act go_type] in *. transitivity (norm y); [|destruct (pick _ _ _ _); exact Hrel]. clear Hrel. destruct (wt_slice _ _ _ Hw) as (nn & items & spare & -> & Hi & Hsp).
    destruct fuel as [|fuel]; [discriminate E|]. rewrite dec_S in E. cbn [plook] in E. cbv zeta in E.
    destruct (match spare with [] => grow_spare (go_type el) (length items) | _ => spare end) as [|slot sp]; [discriminate E|].
    destruct (dec fuel (act_elem el) (firstn len r) slot) as [w k [e'|]|c|]; try discriminate E. inversion E; subst v. rewrite !norm_slice. destruct items; reflexivity.
  - transitivity (norm y); [|destruct (pick _ _ _ _); exact Hrel]. clear Hrel. cbn [go_type] in *. destruct (wt_map _ _ _ _ Hw) as (mm & -> & Hm). destruct fuel as [|fuel]; [discriminate E|].
    destruct (dec_map plook (piget D) D fuel (act n (FMap k el)) (8 * n + 2) (mkfield 0 (tag_of 1 (FAlways k)) (act_elem (FAlways k))) (mkfield 1 (tag_of 2 el) (act_elem el)) (entry_key k el) (entry_key k el) (firstn len r) mm (small_firstn _ _ Hs) eq_refl) as [z Eq].
    cbn [cod act act_elem] in Eq, E. rewrite Eq in E. clear Eq. cbv zeta in E.
    assert (V : v = VMap (Some match mm with Some l => l | None => [] end)).
    { destruct (firstn len r); [discriminate E|]. destruct (read_varint _) as [? ? d| |]; try (inversion E; reflexivity).
      destruct (ldecs fuel (entry_key k el) d _) as [x|x e'|c|]; try discriminate E; [|inversion E; reflexivity].
      destruct x as [| | | | | | | | | | | | |[|? [|? [|]]]|]; discriminate E. }
    rewrite V. rewrite !norm_map. destruct mm as [[|? ?]|]; reflexivity.
Qed.

Lemma leaves_all m : leaves m.
Proof.
  induction m as [|m IH]; intros m0 b ys xs fuel x e Hko Hlen Hb Hs Hw Hfr Hn E; [lia|].
  assert (Hkey : key_fs D sch (SNamed m0) (msg sch m0)) by (split; [assumption|left; eauto]).
  assert (Nn : norm (VStruct ys) = norm (VStruct xs)) by (cbn [norm]; rewrite Hn; reflexivity).
  destruct fuel as [|fuel]; [discriminate E|]. cbn [DecodeFacts.ldecs remains_any] in *.
  destruct b as [|c0 b0] eqn:Eb; [discriminate E|]. rewrite <- Eb in *. assert (Hne : (1 <= length b)%nat) by (rewrite Eb; cbn; lia). clear Eb c0 b0.
  destruct (key_fs_facts D sch HI HS HG _ _ Hkey) as (Hix & Ht & Hz & Hnum & Hnd & Hno & Hok). set (fs := msg sch m0) in *.
  unfold lstep in E. destruct (read_varint b) as [tag kk r| |] eqn:Er; [|injection E as <- _; exact Nn..].
  apply read_varint_ok in Er as Er'. destruct Er' as (Htag & _ & Hr & Hkk & _).
  assert (Hbr : bytes_okb r = true) by (rewrite <- Hr; apply bytes_okb_skipn; assumption).
  assert (Hsr : small r) by (rewrite <- Hr; apply small_skipn; assumption).
  assert (Hlr : (length r < length b)%nat) by (rewrite <- Hr, skipn_length; lia).
  unfold lookup_field in E. rewrite Hix, (lookup_cod fs (tag / 8) Hnum Hnd 0) in E.
  pose proof (read_payload_len (tag mod 8) r) as RP.
  destruct (find_field 0 fs (tag / 8)) as [[i f]|] eqn:Ef; cbn [option_map fst snd] in E.
  - apply find_field_in in Ef as Efi. destruct Efi as [_ Efi]. rewrite Nat.sub_0_r in Efi.
    apply nth_error_In in Efi as Hin. destruct (Hok _ _ Hin) as [Hf Hn61].
    destruct (field_number_of i (tag / 8) f (cod (tag / 8) f) Hn61) as [_ Hwt]. rewrite Hwt in E.
    destruct (N.eqb_spec (tag mod 8) (wire_fty f)) as [Ew|Ew]; cbn [negb] in E.
    2:{ injection E as <- _. destruct (read_payload (tag mod 8) r) as [[p r']|]; [|exact Nn].
        destruct (N.eqb_spec (wire_fty f) (tag mod 8)); [congruence|]. cbn [negb]. exact Nn. }
    rewrite Ew in *. destruct (payload_len (wire_fty f) r) as [len|e0] eqn:El.
    2:{ rewrite RP. injection E as <- _. exact Nn. }
    destruct RP as (p & RP & Hle). rewrite RP. rewrite N.eqb_refl. cbn [negb].
    pose proof (wts_struct D (VStruct ys) _ Hno Hw) as (ys0 & Ey & W). inversion Ey; subst ys0. clear Ey. rewrite Ht in W.
    assert (Eti : nth_error (map fld_type fs) i = Some (go_type f)) by (rewrite (map_nth_error fld_type _ _ Efi); reflexivity).
    destruct (all2_nth _ _ _ _ _ W Eti) as (y & Eyi & Wy). cbn [mkfield f_idx f_codec get_field] in E. rewrite Eyi in E.
    destruct (map_norm_nth _ _ _ _ Hn Eyi) as (z & Ez & Nz). rewrite Ez.
    assert (Hlk : In (mkfield i (tag_of (tag / 8) f) (cod (tag / 8) f)) (i_index (piget D (SNamed m0)))).
    { apply (lookup_field_in (piget D (SNamed m0)) (tag / 8)). unfold lookup_field. rewrite Hix, (lookup_cod fs (tag / 8) Hnum Hnd 0), Ef. reflexivity. }
    destruct (piget_field D (SNamed m0) _ HD Hko Hlk) as (t & Et & Hfit & Hdep). cbn [mkfield f_idx f_codec] in Et, Hfit.
    rewrite Ht, Eti in Et. inversion Et; subst t. clear Et.
    assert (Hrel : old_rel f y z) by (destruct f; try exact Logic.I; exact Nz).
    assert (Hfy : fresh y = true) by (eapply fresh_nth; eassumption).
    pose proof (puts_field D sch HI HS HG HD m (tag / 8)%N f (merges_all D sch HI HS HG HD m) Hf fuel y z r len p Hfit Hdep Wy Hfy Hrel Hbr Hsr ltac:(lia) El RP) as P.
    assert (HA : forall s, f <> FAlways s).
    { intros s ->. pose proof (gen_msg_nth sch HG m0) as G. unfold generable_msg in G. rewrite forallb_forall in G. apply G in Hin. discriminate Hin. }
    pose proof (fun y' q e' => put_fails m f (tag / 8)%N fuel y z r len p y' q e' IH Hf HA Hfit Hdep Wy Hfy Nz Hbr Hsr ltac:(lia) El RP) as PF.
    change (pick f r p (skipn len r)) with (picks f (as_read f) r p (skipn len r)) in *.
    assert (R : forall y' w, norm y' = norm w -> norm (VStruct (list_set ys i y')) = norm (VStruct (replace xs i w))).
    { intros y' w Hwn. cbn [norm]. f_equal. apply map_norm_set; assumption. }
    destruct (picks f (as_read f) r p (skipn len r)) as [[q next]|].
    2:{ destruct P as [P|(y' & q & e' & P)]; rewrite P in E; [discriminate E|]. injection E as <- _. cbn [set_field]. apply R. rewrite (PF _ _ _ P).
        rewrite skipn_length. replace (length r - (length r - len))%nat with len by lia. reflexivity. }
    destruct P as (j & -> & P). destruct P as [P|P]; [rewrite P in E; discriminate E|].
    destruct (put sch (any m) (as_read f) q z) as [z'| |].
    + destruct P as (y' & P & Ny & Fy). rewrite P in E. rewrite Nat2Z.id in E. cbn [set_field] in E.
      pose proof (proj1 (dec_ok D HD fuel) (cod (tag / 8)%N f) (go_type f) (firstn len r) y Hfit Hdep Wy (bytes_okb_firstn _ _ Hbr) (small_firstn _ _ Hsr)) as T.
      rewrite P in T.
      eapply IH; try exact E; try assumption; try (apply bytes_okb_skipn; assumption); try (apply small_skipn; assumption).
      * rewrite skipn_length. lia.
      * apply struct_wts; try assumption. rewrite Ht. eapply all2_set; eassumption.
      * apply fresh_set; assumption.
      * apply map_norm_set; assumption.
    + destruct P as (y' & q' & e' & P). specialize (PF _ _ _ P). rewrite P in E. injection E as <- _. cbn [set_field].
      assert (R0 : norm y' = norm z -> norm (VStruct (list_set ys i y')) = norm (VStruct xs)).
      { intros Hyn. rewrite (R y' z) by exact Hyn. cbn [norm]. f_equal. clear - Ez. revert i Ez. induction xs as [|x0 xs IHx]; intros [|i] Ez; try discriminate; cbn [nth_error] in Ez.
        - inversion Ez. reflexivity.
        - cbn [replace map]. f_equal. apply IHx. exact Ez. }
      destruct f as [s|s|s|s| |m1|el|k el]; try (apply R0; exact PF). destruct p; try (apply R0; exact PF). apply R. exact PF.
    + contradiction.
  - destruct (payload_len (tag mod 8) r) as [len|e0] eqn:El.
    2:{ rewrite RP. injection E as <- _. exact Nn. }
    destruct RP as (p & RP & Hle). rewrite RP.
    eapply IH; try exact E; try assumption; try (apply bytes_okb_skipn; assumption); try (apply small_skipn; assumption).
    rewrite skipn_length. lia.
Qed.
End Dec.

Theorem left_proof D sch : implements D sch = true -> schema_ok sch = true -> all_made sch = true -> agreeing sch = true ->
  forall s m xs zs b, reachable D s -> wts D (VStruct xs) (SNamed m) = true -> forallb fresh xs = true -> map norm xs = map norm zs ->
  bytes_okb b = true -> zlen b < 2^63 -> merge_any sch (S (length b)) (msg sch m) zs b = MBad ->
  exists ys e, fst (Unmarshal D b (ptr m xs) s) = Returns (ptr m ys, Some e) /\
    map norm ys = map norm (remains_any sch (S (length b)) (msg sch m) zs b) /\ wts D (VStruct ys) (SNamed m) = true.
Proof.
  intros HI HS HM HA s m xs zs b Hr Hw Hf Hn Hb Hs Hm. pose proof (reads_proof D sch HI HS HM HA s m xs zs b Hr Hw Hf Hn Hb Hs) as U. rewrite Hm in U.
  apply all_made_generable in HM. pose proof (gen_supported D sch HI HS HM HA) as HP. pose proof (gen_fits D sch HI HS HM) as HF.
  pose proof (wts_msg _ _ _ Hw) as [Hk Hw']. pose proof (reachable_SInv D HP s Hr) as HR.
  destruct (unmarshal_pure D HP s (SNamed m) b (VStruct xs) HR Hk Hw Hb Hs) as (s' & _ & [(x' & P & W & E)|(x' & e & P & W & E)]).
  - exfalso. destruct U as (x & e & U). rewrite E in U. discriminate U.
  - pose proof (leaves_all D sch HI HS HM HF (S (length b)) m b xs zs _ x' e (user_key_ok _ _ Hk) (Nat.lt_succ_diag_r _) Hb Hs Hw Hf Hn P) as N.
    destruct (wts_struct D x' (SNamed m) ltac:(discriminate) W) as (ys & -> & _). exists ys, e. rewrite E. split; [reflexivity|].
    split; [|exact W]. cbn [norm] in N. congruence.
Qed.

Theorem generated_left_proof F : valid F = true -> usable F = true -> agreeing (schema_of F) = true ->
  forall s m xs zs b, reachable (generate F) s -> wts (generate F) (VStruct xs) (SNamed m) = true -> forallb fresh xs = true -> map norm xs = map norm zs ->
  bytes_okb b = true -> zlen b < 2^63 -> merge_any (schema_of F) (S (length b)) (msg (schema_of F) m) zs b = MBad ->
  exists ys e, fst (Unmarshal (generate F) b (ptr m xs) s) = Returns (ptr m ys, Some e) /\
    map norm ys = map norm (remains_any (schema_of F) (S (length b)) (msg (schema_of F) m) zs b) /\ wts (generate F) (VStruct ys) (SNamed m) = true.
Proof.
  intros HV HU HA. apply left_proof; [apply generated_implements; assumption|apply schema_valid; assumption|apply generable_all_made, schema_generable|exact HA].
Qed.

(** In scope, [remains]. *)
Lemma left_right sch (HC : in_scope sch = true) n : forall fs xs b, right_fs fs -> remains_any sch n fs xs b = remains sch n fs xs b.
Proof.
  assert (Msg : forall m0, right_fs (msg sch m0)).
  { intros m0 k g Hin. pose proof (scope_nth sch HC m0) as S. unfold scope_msg in S. rewrite forallb_forall in S. apply S in Hin. unfold right_field. rewrite Hin. reflexivity. }
  induction n as [|n IH]; intros fs xs b Hfs; [reflexivity|]. cbn [remains_any remains]. destruct b as [|c b]; [reflexivity|].
  destruct (read_varint (c :: b)) as [tag k r| |]; try reflexivity. destruct (read_payload (tag mod 8) r) as [[p r']|]; [|reflexivity].
  destruct (find_field 0 fs (tag / 8)) as [[i f]|] eqn:Ef; [|apply IH; exact Hfs].
  apply find_field_in in Ef. destruct Ef as [_ Ef]. apply nth_error_In in Ef. pose proof (Hfs _ _ Ef) as Hf.
  destruct (negb (wire_fty f =? tag mod 8)%N); [reflexivity|]. destruct (nth_error xs i) as [y|]; [|reflexivity].
  destruct (right_pick f r p r' Hf) as [-> ->]. rewrite (right_put sch HC n f _ y (right_merge sch HC n) Hf).
  destruct (put sch (merge_lib sch n) f (seen f r p) y); [apply IH; exact Hfs| |]; (destruct f; try reflexivity; destruct p; try reflexivity; rewrite IH by apply Msg; reflexivity).
Qed.
Theorem left_right_proof sch (HC : in_scope sch = true) m n xs b : remains_any sch n (msg sch m) xs b = remains sch n (msg sch m) xs b.
Proof.
  apply left_right; [exact HC|]. intros k g Hin. pose proof (scope_nth sch HC m) as S. unfold scope_msg in S. rewrite forallb_forall in S. apply S in Hin. unfold right_field. rewrite Hin. reflexivity.
Qed.
Theorem left_good_proof sch m : forall fs xs b zs, merge_any sch m fs xs b = MOk zs -> remains_any sch m fs xs b = zs.
Proof.
  induction m as [|m IH]; intros fs xs b zs H; [discriminate H|]. cbn [merge_any remains_any] in *. destruct b as [|c b]; [congruence|].
  destruct (read_varint (c :: b)) as [tag k r| |]; try discriminate H. destruct (read_payload _ r) as [[p r']|]; [|discriminate H].
  destruct (find_field 0 fs (tag / 8)) as [[i f]|]; [|auto]. destruct (negb _); [discriminate H|]. destruct (nth_error xs i) as [y|]; [|discriminate H].
  destruct (pick f r p r') as [[q next]|]; [|discriminate H]. destruct (put _ _ _ _ _); try discriminate H. auto.
Qed.
