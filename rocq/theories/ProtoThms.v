(** Consequences for generated messages. *)
From Coq Require Import String.
From Verif Require Import Base Wire GoType Leaf Codec Tag Walker Api Resolve Typing SpecWire SpecTag SpecMsg SpecLib ProtoGen SpecProto
  WireFacts TypingFacts MsgResolve WalkSeq ApiFacts ApiTags MsgApi RefuteMsg ProtoFacts ProtoFit.
Local Open Scope N_scope.

(** ** Fields without a protobuf tag are ignored *)
Definition tagged (g : gofield) : bool := gf_exported g && match gf_tag g with Some _ => true | None => false end.
Lemma pfields_tagged gs : forall i l f, pfields i gs = Some l -> In f l -> exists j g, f_idx f = (i + j)%nat /\ nth_error gs j = Some g /\ tagged g = true.
Proof.
  induction gs as [|g gs IH]; intros i l f; cbn [pfields]; [intros H; inversion H; intros []|].
  destruct (pfields (S i) gs) as [r|] eqn:E; [|discriminate].
  assert (R : In f r -> exists j g', f_idx f = (i + j)%nat /\ nth_error (g :: gs) j = Some g' /\ tagged g' = true).
  { intros H. destruct (IH _ _ _ E H) as (j & g' & -> & Hj & Ht). exists (S j), g'. split; [rewrite Nat.add_succ_r; reflexivity|]. auto. }
  destruct (gf_exported g) eqn:Ex; [destruct (gf_tag g) as [t|] eqn:T|].
  - destruct (parseStructTag t) as [st [|]]; [discriminate|]. destruct (pfield st g); [|discriminate].
    intros H; inversion H; subst. intros [<-|H']; [|auto]. exists 0%nat, g. cbn. split; [symmetry; apply Nat.add_0_r|]. split; [reflexivity|].
    unfold tagged. rewrite Ex, T. reflexivity.
  - intros H; inversion H; subst. auto.
  - intros H; inversion H; subst. auto.
Qed.
Lemma hidden_proof D : supported D = true -> forall s i gs xs ys, reachable D s -> nth_error D i = Some gs ->
  (forall j g, nth_error gs j = Some g -> tagged g = true -> nth_error xs j = nth_error ys j) ->
  fst (Size D (ptr i xs) s) = fst (Size D (ptr i ys) s) /\ fst (Marshal D (ptr i xs) s) = fst (Marshal D (ptr i ys) s).
Proof.
  intros HD s i gs xs ys Hs Hi H. apply (reachable_SInv D HD) in Hs.
  assert (Hk : user_key D (SNamed i) = true) by (cbn; apply Nat.ltb_lt; apply nth_error_Some; congruence).
  assert (G : forall f, In f (i_fields (piget D (SNamed i))) -> nth_error xs (f_idx f) = nth_error ys (f_idx f)).
  { intros f Hf. unfold piget, pinfo in Hf. cbn [struct_fields] in Hf. rewrite Hi in Hf. destruct (pfields 0 gs) as [l|] eqn:E; [|destruct Hf].
    cbn in Hf. destruct (pfields_tagged _ _ _ _ E Hf) as (j & g & -> & Hj & Ht). cbn. eapply H; eassumption. }
  assert (A : struct_size plook (piget D) (SNamed i) (VStruct xs) = struct_size plook (piget D) (SNamed i) (VStruct ys)).
  { unfold struct_size. revert G. generalize (i_fields (piget D (SNamed i))). induction l as [|f l IH]; intros G; [reflexivity|].
    cbn [fields_size get_field]. rewrite (G f (or_introl eq_refl)). cbn [get_field] in IH. rewrite (IH (fun g Hg => G g (or_intror Hg))). reflexivity. }
  assert (B : forall b, struct_encode plook (piget D) (SNamed i) b (VStruct xs) = struct_encode plook (piget D) (SNamed i) b (VStruct ys)).
  { unfold struct_encode. revert G. generalize (i_fields (piget D (SNamed i))). induction l as [|f l IH]; intros G b; [reflexivity|].
    cbn [fields_encode get_field]. rewrite (G f (or_introl eq_refl)). cbn [get_field] in IH.
    destruct (option_map _ (nth_error ys (f_idx f))) as [e|]; [|reflexivity]. unfold rbind. destruct (e _ _ _); [|reflexivity].
    apply (IH (fun g Hg => G g (or_intror Hg))). }
  split.
  - destruct (size_pure D HD s (SNamed i) (Some (VStruct xs)) Hs Hk) as (s1 & _ & ->). destruct (size_pure D HD s (SNamed i) (Some (VStruct ys)) Hs Hk) as (s2 & _ & ->).
    cbn [fst]. rewrite A. reflexivity.
  - destruct (marshal_pure D HD s (SNamed i) (Some (VStruct xs)) Hs Hk) as (s1 & _ & ->). destruct (marshal_pure D HD s (SNamed i) (Some (VStruct ys)) Hs Hk) as (s2 & _ & ->).
    cbn [fst]. rewrite A, B. reflexivity.
Qed.

Lemma implements_tagged gs : forall fs j g, implements_msg gs fs = true -> nth_error gs j = Some g -> tagged g = true ->
  exists n f, nth_error fs j = Some (Field n f).
Proof.
  induction gs as [|g' gs IH]; intros [|f fs] j g; cbn [implements_msg]; try discriminate; [destruct j; discriminate|].
  intros H Hj Ht. apply andb_true_iff in H. destruct H as [H1 H2]. destruct j as [|j]; [|exact (IH fs j g H2 Hj Ht)].
  cbn in Hj. inversion Hj; subst g'. destruct f as [t|n f]; [|cbn; eauto]. exfalso. cbn [implements_field] in H1. unfold tagged in Ht.
  destruct (gf_exported g); [|discriminate]. destruct (gf_tag g); [|discriminate]. rewrite andb_false_r in H1. discriminate.
Qed.

Section OneOf.
Variable F : descriptors.
Hypothesis HV : valid F = true.
Hypothesis HU : usable F = true.
Hypothesis HA : agreeing (schema_of F) = true.

Lemma member_number i m fd : nth_error F i = Some m -> In fd (m_fields m) -> oneof_member m fd = true -> ~ In (d_number fd) (numbers (msg (schema_of F) i)).
Proof.
  intros Hi Hfd Ho Hin. destruct (m_entry m) eqn:E.
  { unfold schema_of in Hin. rewrite (msg_nth _ i (message_schema F m)) in Hin by (rewrite nth_error_map, Hi; reflexivity). unfold message_schema in Hin. rewrite E in Hin. destruct Hin. }
  rewrite numbers_visible, (schema_visible F HU i m Hi E), map_map in Hin. cbn [fst] in Hin. apply in_map_iff in Hin. destruct Hin as (fd' & En & Hfd').
  unfold ordinary in Hfd'. apply filter_In in Hfd'. destruct Hfd' as [Hfd' Ho'].
  assert (fd = fd').
  { assert (Hm := valid_in F HV m (nth_error_In _ _ Hi)). unfold valid_message in Hm. apply andb_true_iff in Hm. destruct Hm as [Hm _]. apply andb_true_iff in Hm. destruct Hm as [_ Hm].
    clear -Hm Hfd Hfd' En. induction (m_fields m) as [|a l IH]; [destruct Hfd|]. cbn [map nodup_N] in Hm. apply andb_true_iff in Hm. destruct Hm as [H1 H2].
    assert (X : forall b, In b l -> d_number b = d_number a -> False).
    { intros b Hb E. apply negb_true_iff in H1. rewrite <- not_true_iff_false in H1. apply H1. apply existsb_exists. exists (d_number b). split; [apply in_map; exact Hb|]. apply N.eqb_eq. congruence. }
    destruct Hfd as [->|Hfd], Hfd' as [->|Hfd']; auto; exfalso; eapply X; eauto. }
  subst fd'. rewrite Ho in Ho'. discriminate.
Qed.

Lemma oneof_proof s1 s2 i m fd xs ys b r tag k r1 p : reachable (generate F) s1 -> reachable (generate F) s2 ->
  nth_error F i = Some m -> In fd (m_fields m) -> oneof_member m fd = true ->
  (forall j n f, nth_error (msg (schema_of F) i) j = Some (Field n f) -> nth_error xs j = nth_error ys j) ->
  read_varint r = VOk tag k r1 -> read_payload (tag mod 8) r1 = Some (p, []) -> tag / 8 = d_number fd ->
  wts (generate F) (VStruct xs) (SNamed i) = true -> bytes_okb (r ++ b) = true -> (zlen (r ++ b) < 2^63)%Z ->
  fst (Size (generate F) (ptr i xs) s1) = fst (Size (generate F) (ptr i ys) s1) /\
  fst (Marshal (generate F) (ptr i xs) s1) = fst (Marshal (generate F) (ptr i ys) s1) /\
  fst (Unmarshal (generate F) (r ++ b) (ptr i xs) s1) = fst (Unmarshal (generate F) b (ptr i xs) s2).
Proof.
  intros Hs1 Hs2 Hi Hfd Ho Hag Hr Hp Hn Hw Hb Hl. assert (HD := generated_supported F HV HU HA). assert (HI := generated_implements F HV HU).
  assert (Hg : nth_error (generate F) i = Some (genMessage F m)) by (unfold generate; rewrite nth_error_map, Hi; reflexivity).
  destruct (hidden_proof (generate F) HD s1 i _ xs ys Hs1 Hg) as [E1 E2].
  { intros j g Hj Ht. assert (X := implements_nth _ _ HI i). rewrite Hg in X. destruct (nth_error (schema_of F) i) as [fs|] eqn:Ef; [|contradiction].
    destruct (implements_tagged _ _ _ _ X Hj Ht) as (n & f & Hf). eapply Hag. rewrite (msg_nth _ _ _ Ef). exact Hf. }
  split; [exact E1|]. split; [exact E2|].
  apply (unknown_proof (generate F) (schema_of F) HD HI (schema_valid F HV HU) s1 s1 s2 i [] r b (VStruct xs) (VStruct xs) tag k r1 p); auto.
  - unfold generate. rewrite map_length. apply nth_error_Some. congruence.
  - rewrite Hn. eapply member_number; eassumption.
Qed.
End OneOf.

(** message Event { int32 id = 1; oneof body { string text = 2; int64 code = 3; } } *)
Definition plain_field (n : N) (k : pkind) : pfield_desc :=
  {| d_number := n; d_kind := k; d_card := CardOptional; d_presence := false; d_weak := false; d_message := 0; d_oneof := None |}.
Definition member_field (n : N) (k : pkind) : pfield_desc :=
  {| d_number := n; d_kind := k; d_card := CardOptional; d_presence := true; d_weak := false; d_message := 0; d_oneof := Some 0%nat |}.
Definition eventF : descriptors :=
  [{| m_entry := false; m_fields := [plain_field 1 Int32Kind; member_field 2 StringKind; member_field 3 Int64Kind]; m_oneofs := [false] |}].

(** ** Kinds and positions the library gets wrong *)
Definition card_field (c : cardinality) (pres : bool) (k : pkind) : pfield_desc :=
  {| d_number := 1; d_kind := k; d_card := c; d_presence := pres; d_weak := false; d_message := 1; d_oneof := None |}.
Definition empty_message : pmessage := {| m_entry := false; m_fields := []; m_oneofs := [] |}.
(** A message with one field; message 1 is for fields of message type. *)
Definition probe (c : cardinality) (pres : bool) (k : pkind) : descriptors :=
  [{| m_entry := false; m_fields := [card_field c pres k]; m_oneofs := [] |}; empty_message].
Definition probe_map (kk vk : pkind) : descriptors :=
  [{| m_entry := false; m_fields := [card_field CardRepeated false MessageKind]; m_oneofs := [] |};
   {| m_entry := true; m_oneofs := [];
      m_fields := [plain_field 1 kk;
                   {| d_number := 2; d_kind := vk; d_card := CardOptional; d_presence := false; d_weak := false; d_message := 2; d_oneof := None |}] |};
   empty_message].

(** Marshal of a legal and encodable message is not its encoding, or Unmarshal
    of a plain input is not the merge. *)
Definition deviates (F : descriptors) : Prop :=
  (exists xs, legal (generate F) (schema_of F) xs /\ encodable_msg (schema_of F) xs (msg (schema_of F) 0) = true /\
     fst (Marshal (generate F) (ptr 0 xs) g_empty) <> Returns (Some (ser (message (schema_of F) xs (msg (schema_of F) 0))), None)) \/
  (exists xs b, plain (schema_of F) (S (length b)) (msg (schema_of F) 0) b = true /\ forallb fresh xs = true /\ misread (generate F) (schema_of F) xs b).
(** The same without the condition encodable. *)
Definition deviates_map (F : descriptors) : Prop :=
  (exists xs, legal (generate F) (schema_of F) xs /\
     fst (Marshal (generate F) (ptr 0 xs) g_empty) <> Returns (Some (ser (message (schema_of F) xs (msg (schema_of F) 0))), None)) \/
  (exists xs b, plain (schema_of F) (S (length b)) (msg (schema_of F) 0) b = true /\ forallb fresh xs = true /\ misread (generate F) (schema_of F) xs b).

Definition one (s : sty) : val :=
  match s with
  | Y_int32 | Y_sint32 | Y_sfixed32 => VI32 1
  | Y_int64 | Y_sint64 | Y_sfixed64 => VI64 1
  | Y_uint32 | Y_fixed32 => VU32 1
  | Y_uint64 | Y_fixed64 => VU64 1
  | Y_float => VF32 1
  | Y_double => VF64 1
  | Y_bool => VBool true
  | Y_string => VStr [65]
  end.
Definition one_elem (e : fty) : val :=
  match e with
  | FAlways s => one s
  | FBytes => VBytes (Some [65])
  | _ => VPtr (Some (VStruct [VOther 0]))
  end.
Definition one_field (f : fty) : val :=
  match f with
  | FImplicit s => one s
  | FOptional s => VOpt true (one s)
  | FRepeated e => VSlice true [one_elem e] []
  | FMap k e => VMap (Some [(one k, one_elem e)])
  | _ => one_elem f
  end.
Definition the_field (F : descriptors) : fty := match msg (schema_of F) 0 with Field _ f :: _ => f | _ => FBytes end.
(** The candidate: a message with the value one. *)
Definition cand (F : descriptors) : list val :=
  match msg (schema_of F) 0 with
  | Field _ f :: rest => one_field f :: map (fun _ => VOther 0) rest
  | _ => []
  end.
Definition bytes_eqb (a b : bytes) : bool := if list_eq_dec N.eq_dec a b then true else false.
Definition wrong_write (F : descriptors) : bool :=
  implements (generate F) (schema_of F) && schema_ok (schema_of F) && wts (generate F) (VStruct (cand F)) (SNamed 0) &&
  match fst (Marshal (generate F) (ptr 0 (cand F)) g_empty) with
  | Returns (Some b, None) => negb (bytes_eqb b (ser (message (schema_of F) (cand F) (msg (schema_of F) 0))))
  | _ => true
  end.
Lemma wrong_write_ok F : wrong_write F = true -> exists xs, xs = cand F /\ legal (generate F) (schema_of F) xs /\
     fst (Marshal (generate F) (ptr 0 xs) g_empty) <> Returns (Some (ser (message (schema_of F) xs (msg (schema_of F) 0))), None).
Proof.
  unfold wrong_write. intros H. apply andb_true_iff in H. destruct H as [H E]. apply andb_true_iff in H. destruct H as [H H3]. apply andb_true_iff in H. destruct H as [H1 H2].
  exists (cand F). split; [reflexivity|]. split; [split; [|split]; assumption|]. intros C. rewrite C in E. unfold bytes_eqb in E.
  destruct (list_eq_dec N.eq_dec _ _); [discriminate|contradiction].
Qed.

Definition scalars : list pkind :=
  [BoolKind; EnumKind; Int32Kind; Sint32Kind; Uint32Kind; Int64Kind; Sint64Kind; Uint64Kind; Sfixed32Kind; Fixed32Kind; FloatKind;
   Sfixed64Kind; Fixed64Kind; DoubleKind; StringKind; BytesKind; MessageKind].

Lemma probe_valid c pres k : c <> CardRequired -> k <> GroupKind -> (c = CardRepeated -> pres = false) ->
  valid (probe c pres k) = true /\ usable (probe c pres k) = true /\ coherent (schema_of (probe c pres k)) = true.
Proof.
  intros Hc Hk Hp. destruct c; [|congruence|rewrite (Hp eq_refl)]; destruct k; try congruence; try destruct pres; vm_compute; repeat split.
Qed.
Lemma probe_exact_proof c pres k : c <> CardRequired -> k <> GroupKind -> (c = CardRepeated -> pres = false) ->
  valid (probe c pres k) = true /\ usable (probe c pres k) = true /\
  (covered (probe c pres k) = true \/ covered (probe c pres k) = false /\ deviates (probe c pres k)).
Proof.
  intros Hc Hk Hp. destruct (probe_valid c pres k Hc Hk Hp) as (A & B & _). split; [exact A|]. split; [exact B|].
  assert (X : covered (probe c pres k) = true \/ covered (probe c pres k) = false /\ wrong_write (probe c pres k) = true /\
    encodable_msg (schema_of (probe c pres k)) (cand (probe c pres k)) (msg (schema_of (probe c pres k)) 0) = true).
  { clear A B. destruct c; [|congruence|rewrite (Hp eq_refl)]; destruct k; try congruence; try destruct pres;
      first [left; vm_compute; reflexivity|right; vm_compute; repeat split]. }
  destruct X as [X|(X & W & E)]; [left; exact X|right]. split; [exact X|]. left.
  destruct (wrong_write_ok _ W) as (xs & -> & L & M). exists (cand (probe c pres k)). auto.
Qed.

Definition map_input (F : descriptors) : bytes :=
  match the_field F with
  | FMap k e => ser [(1, PLen (ser ((1, pay k (one k)) :: match e with
      | FAlways s => [(2, pay s (one s))] | FBytes => [(2, PLen [65])] | _ => [(2, PLen [])] end)))]
  | _ => []
  end.
Definition wrong_read (F : descriptors) : Prop :=
  let xs := zeros (msg (schema_of F) 0) in let b := map_input F in
  plain (schema_of F) (S (length b)) (msg (schema_of F) 0) b = true /\ forallb fresh xs = true /\ misread (generate F) (schema_of F) xs b.
Lemma probe_map_exact_proof kk vk : key_kind kk = true -> vk <> GroupKind ->
  valid (probe_map kk vk) = true /\ usable (probe_map kk vk) = true /\
  (covered (probe_map kk vk) = true \/ covered (probe_map kk vk) = false /\ deviates_map (probe_map kk vk)).
Proof.
  intros Hk Hv. destruct kk; try discriminate Hk; clear Hk; destruct vk; try congruence; clear Hv;
    (split; [vm_compute; reflexivity|]); (split; [vm_compute; reflexivity|]);
    first [left; vm_compute; reflexivity|right; split; [vm_compute; reflexivity|]];
    match goal with |- deviates_map ?F =>
      first [ assert (W : wrong_write F = true) by (vm_compute; reflexivity); left; destruct (wrong_write_ok F W) as (xs & _ & H); exists xs; exact H
            | right; exists (zeros (msg (schema_of F) 0)), (map_input F); split; [vm_compute; reflexivity|]; split; [vm_compute; reflexivity|];
              split; [split; [|split]; vm_compute; reflexivity|]; split; [vm_compute; reflexivity|vm_compute; discriminate] ]
    end.
Qed.

(** message Mix { repeated int32 a = 1; repeated sint32 b = 2; } *)
Definition mixF : descriptors :=
  [{| m_entry := false; m_oneofs := [];
      m_fields := map (fun '(n, k) => {| d_number := n; d_kind := k; d_card := CardRepeated; d_presence := false; d_weak := false; d_message := 0; d_oneof := None |})
        [(1, Int32Kind); (2, Sint32Kind)] |}].
Lemma mix_proof : valid mixF = true /\ usable mixF = true /\ in_scope (schema_of mixF) = true /\ exists xs, miswritten (generate mixF) (schema_of mixF) xs.
Proof.
  split; [reflexivity|]. split; [reflexivity|]. split; [reflexivity|]. exists [VSlice true [] []; VSlice true [VI32 1] []].
  split; [split; [|split]; vm_compute; reflexivity|]. exists [16; 1]. split; [vm_compute; reflexivity|]. vm_compute. discriminate.
Qed.

Lemma generated_wire_proof F : covered F = true -> forall s m xs, reachable (generate F) s ->
  wts (generate F) (VStruct xs) (SNamed m) = true -> encodable_msg (schema_of F) xs (msg (schema_of F) m) = true ->
  (zlen (ser (message (schema_of F) xs (msg (schema_of F) m))) < 2^63)%Z ->
  fst (Size (generate F) (ptr m xs) s) = Returns (zlen (ser (message (schema_of F) xs (msg (schema_of F) m)))) /\
  fst (Marshal (generate F) (ptr m xs) s) = Returns (Some (ser (message (schema_of F) xs (msg (schema_of F) m))), None).
Proof. intros H. apply (marshal_spec _ _ (generated_covers F H)). Qed.
Lemma generated_merge_proof F : covered F = true -> forall s m xs zs b, reachable (generate F) s ->
  wts (generate F) (VStruct xs) (SNamed m) = true -> forallb fresh xs = true -> map norm xs = map norm zs ->
  bytes_okb b = true -> (zlen b < 2^63)%Z -> plain (schema_of F) (S (length b)) (msg (schema_of F) m) b = true ->
  match merge (schema_of F) (S (length b)) (msg (schema_of F) m) zs b with
  | MOk zs' => exists xs', fst (Unmarshal (generate F) b (ptr m xs) s) = Returns (ptr m xs', None) /\
      map norm xs' = map norm zs' /\ forallb fresh xs' = true /\ wts (generate F) (VStruct xs') (SNamed m) = true
  | MBad => exists x e, fst (Unmarshal (generate F) b (ptr m xs) s) = Returns (IPtr (SNamed m) (Some x), Some e)
  | MFuel => False
  end.
Proof. intros H. apply (unmarshal_spec _ _ (generated_covers F H)). Qed.
Lemma generated_lib_proof F : covered F = true -> forall s m xs zs b, reachable (generate F) s ->
  wts (generate F) (VStruct xs) (SNamed m) = true -> forallb fresh xs = true -> map norm xs = map norm zs ->
  bytes_okb b = true -> (zlen b < 2^63)%Z ->
  match merge_lib (schema_of F) (S (length b)) (msg (schema_of F) m) zs b with
  | MOk zs' => exists xs', fst (Unmarshal (generate F) b (ptr m xs) s) = Returns (ptr m xs', None) /\
      map norm xs' = map norm zs' /\ forallb fresh xs' = true /\ wts (generate F) (VStruct xs') (SNamed m) = true
  | MBad => exists x e, fst (Unmarshal (generate F) b (ptr m xs) s) = Returns (IPtr (SNamed m) (Some x), Some e)
  | MFuel => False
  end.
Proof. intros H. apply (unmarshal_lib _ _ (generated_covers F H)). Qed.
Lemma generated_visible_proof F : usable F = true -> forall i m, nth_error F i = Some m -> m_entry m = false ->
  map Some (map snd (visible (msg (schema_of F) i))) = map (meaning F) (ordinary m) /\
  map fst (visible (msg (schema_of F) i)) = map d_number (ordinary m).
Proof.
  intros HU i m Hi He. rewrite (schema_visible F HU i m Hi He), !map_map. cbn [fst snd]. split; [|reflexivity].
  unfold usable in HU. rewrite forallb_forall in HU. specialize (HU m (nth_error_In _ _ Hi)). rewrite He in HU. cbn [orb] in HU. rewrite forallb_forall in HU.
  apply map_ext_in. intros fd Hfd. specialize (HU fd Hfd). destruct (meaning F fd); [reflexivity|discriminate].
Qed.

(** A message using most of the language:
    message A { int32 a = 1; optional sint64 b = 2; repeated string c = 3; map<string, string> d = 4;
                A e = 5; bytes f = 6; repeated A g = 7; fixed32 h = 8; oneof i { int32 j = 9; string k = 10; } repeated int32 l = 11; } *)
Definition rep_field (n : N) (k : pkind) (m : nat) : pfield_desc :=
  {| d_number := n; d_kind := k; d_card := CardRepeated; d_presence := false; d_weak := false; d_message := m; d_oneof := None |}.
Definition bigF : descriptors :=
  [{| m_entry := false; m_oneofs := [false; true];
      m_fields := [plain_field 1 Int32Kind;
        {| d_number := 2; d_kind := Sint64Kind; d_card := CardOptional; d_presence := true; d_weak := false; d_message := 0; d_oneof := Some 1%nat |};
        rep_field 3 StringKind 0; rep_field 4 MessageKind 1; plain_field 5 MessageKind; plain_field 6 BytesKind; rep_field 7 MessageKind 0;
        plain_field 8 Fixed32Kind; member_field 9 Int32Kind; member_field 10 StringKind; rep_field 11 Int32Kind 0] |};
   {| m_entry := true; m_oneofs := []; m_fields := [plain_field 1 StringKind; plain_field 2 StringKind] |}].
Lemma event_lost : exists xs ys b, wts (generate eventF) (VStruct xs) (SNamed 0) = true /\ xs <> ys /\
  fst (Marshal (generate eventF) (ptr 0 xs) g_empty) = Returns (Some b, None) /\
  fst (Marshal (generate eventF) (ptr 0 ys) g_empty) = Returns (Some b, None) /\
  wts (generate eventF) (VStruct ys) (SNamed 0) = true.
Proof.
  exists [VI32 7; VOther 1; VOther 0], [VI32 7; VOther 2; VOther 0], [8; 7]. split; [vm_compute; reflexivity|]. split; [discriminate|].
  split; [vm_compute; reflexivity|]. split; vm_compute; reflexivity.
Qed.
Lemma required_proof : exists F s xs, valid F = true /\ reachable (generate F) s /\ wts (generate F) (VStruct xs) (SNamed 0) = true /\
  fst (Marshal (generate F) (ptr 0 xs) s) = Panics Unsupported.
Proof.
  exists [{| m_entry := false; m_oneofs := []; m_fields := [{| d_number := 1; d_kind := Int32Kind; d_card := CardRequired; d_presence := true; d_weak := false; d_message := 0; d_oneof := None |}] |}],
    g_empty, [VOpt true (VI32 1); VOther 0]. split; [reflexivity|]. split; [constructor|]. split; vm_compute; reflexivity.
Qed.
