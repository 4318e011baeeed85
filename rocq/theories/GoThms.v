(** The structs of a generated file are those of the descriptors. *)
From Coq Require Import String Ascii.
From Verif Require Import Base GoType ProtoGen SpecProto StructTag StructTagFacts ErrText GenText GenDesc SpecStructTag SpecText TextFacts TextThms SpecGo SpecDesc GoFacts GoText GoParse.
Local Open Scope string_scope.

Lemma cut_app : forall c a b, all_chars (fun n => negb (n =? N_of_ascii c)%N) a = true -> cut c (a ++ b) = (a ++ fst (cut c b), snd (cut c b)).
Proof.
  induction a as [|d a IH]; intros b A; [cbn [append]; destruct (cut c b); reflexivity|]. cbn [all_chars] in A. apply andb_true_iff in A. destruct A as [A B].
  cbn [append cut]. destruct (Ascii.eqb_spec c d) as [->|N]; [rewrite N.eqb_refl in A; discriminate A|]. rewrite (IH b B). reflexivity.
Qed.
Lemma cut_space : forall a b, word a = true -> cut space (a ++ String space b) = (a, String space b).
Proof. intros a b W. rewrite cut_app; [cbn; rewrite app_nil_s; reflexivity|apply word_spaceless, W]. Qed.
Lemma cut_tags : forall a ts, word a = true -> cut backtick (a ++ tagsString ts) = (a, tagsString ts).
Proof.
  intros a ts W. rewrite cut_app.
  - destruct ts; cbn; rewrite app_nil_s; reflexivity.
  - apply word_chars in W. eapply all_impl; [|exact W]. intros n. unfold word_char. change (N_of_ascii backtick) with 96%N. destruct (N.eqb_spec n 96); [subst; discriminate|reflexivity].
Qed.
(** A line with a name, a type and tags. *)
Lemma read_line : forall scope name ty ts t, word name = true -> is_upper name = true -> word ty = true -> good_tags ts = true -> spells scope ty t ->
  read_field scope (name ++ String space (ty ++ tagsString ts)) = option_map (pair name) (reflect_field true (tagsString ts) t).
Proof.
  intros scope name ty ts t N U T G (g & P & E & _). unfold read_field. rewrite cut_space by exact N. rewrite cut_tags by exact T. rewrite (parses_type _ _ P), E, U. reflexivity.
Qed.

Section X.
Variable X : list nmessage.
Variable scope : string -> entity.
Hypothesis SC : good_scope X scope.
Hypothesis V : valid (descs X) = true.
Notation F := (descs X).

Lemma message_desc : forall x, message_of F (nf_desc x) = nm_desc (nmessage_of X x).
Proof. intros x. unfold message_of, nmessage_of, descs. change no_message with (nm_desc no_nmessage). apply map_nth. Qed.
Lemma valid_in : forall m, In m X -> valid_message F (nm_desc m) = true.
Proof. intros m I. unfold valid in V. rewrite forallb_forall in V. apply V, in_map, I. Qed.
Lemma valid_x : forall m x, In m X -> In x (nm_fields m) -> valid_field F (nm_desc m) (nf_desc x) = true.
Proof.
  intros m x I J. pose proof (valid_in m I) as W. unfold valid_message in W. apply andb_true_iff in W. destruct W as [W _]. apply andb_true_iff in W. destruct W as [W _].
  rewrite forallb_forall in W. apply W. cbn. apply in_map, J.
Qed.
(** The message of a field. *)
Lemma field_message : forall m x, In m X -> In x (nm_fields m) -> refers (d_kind (nf_desc x)) = true ->
  nth_error X (d_message (nf_desc x)) = Some (nmessage_of X x) /\ (is_map F (nf_desc x) = false -> nm_entry (nmessage_of X x) = false).
Proof.
  intros m x I J R. pose proof (valid_x m x I J) as W. unfold valid_field in W. rewrite R in W. split_bools.
  match goal with E : (Nat.ltb _ _) = true |- _ => rename E into L | E : (negb true || _)%bool = true |- _ => rename E into L end.
  cbn [negb orb] in L. apply Nat.ltb_lt in L. unfold descs in L. rewrite map_length in L.
  assert (E : nth_error X (d_message (nf_desc x)) = Some (nmessage_of X x)) by (apply nth_error_nth'; exact L). split; [exact E|].
  assert (IE : is_entry F (nf_desc x) = nm_entry (nmessage_of X x)) by (unfold is_entry, descs; rewrite nth_error_map, E; reflexivity).
  rewrite IE in *. unfold is_map. rewrite message_desc. cbn [m_entry nm_desc]. intros M.
  destruct (d_kind (nf_desc x)); try discriminate R; [exact M|]. destruct (nm_entry (nmessage_of X x)); [|reflexivity].
  match goal with E : negb true = true |- _ => discriminate E end.
Qed.
Lemma spells_kind : forall m x, In m X -> In x (nm_fields m) -> is_map F (nf_desc x) = false -> spells scope (kindText X x) (fst (fst (kindGoType (nf_desc x)))).
Proof.
  intros m x I J M. unfold kindText, kindGoType.
  assert (R : refers (d_kind (nf_desc x)) = true -> spells scope ("*" ++ nm_ref (nmessage_of X x)) (TMsg (d_message (nf_desc x)))).
  { intros R. destruct (field_message m x I J R) as [E N]. destruct (scope_message _ _ SC _ _ E (N M)) as [T Q]. apply spells_message; assumption. }
  destruct (d_kind (nf_desc x)) eqn:K; cbn [fst]; try (apply spells_scalar; reflexivity); try (apply R; reflexivity).
  - destruct (scope_enum _ _ SC m x I J K) as [T Q]. apply spells_enum; assumption.
  - apply spells_bytes.
Qed.
Lemma kindGoType_fst : forall fd, fst (kindGoType fd) = (fst (fst (kindGoType fd)), snd (fst (kindGoType fd))).
Proof. intros fd. destruct (kindGoType fd) as [[t p] c]. reflexivity. Qed.
Lemma spells_plain : forall m x, In m X -> In x (nm_fields m) -> is_map F (nf_desc x) = false -> spells scope (plainText X x) (fst (fst (plainGoType F (nf_desc x)))).
Proof.
  intros m x I J M. unfold plainText, plainGoType. destruct (d_weak (nf_desc x)); [apply spells_struct|].
  pose proof (spells_kind m x I J M) as K. destruct (kindGoType (nf_desc x)) as [[t p] c]. cbn [fst] in K.
  destruct (is_list F (nf_desc x)); [apply spells_slice, K|exact K].
Qed.
(** The fields of a map's entry. *)
Lemma entry_fields : forall m x, In m X -> In x (nm_fields m) -> is_map F (nf_desc x) = true ->
  exists kf vf, nm_fields (nmessage_of X x) = [kf; vf] /\ In (nmessage_of X x) X /\ is_map F (nf_desc kf) = false /\ is_map F (nf_desc vf) = false /\
    exists k, fst (fst (plainGoType F (nf_desc kf))) = TScalar k.
Proof.
  intros m x I J M. assert (R : refers (d_kind (nf_desc x)) = true) by (unfold is_map in M; destruct (d_kind (nf_desc x)); try discriminate M; reflexivity).
  destruct (field_message m x I J R) as [E _]. assert (IM : In (nmessage_of X x) X) by (eapply nth_error_In, E).
  assert (EN : nm_entry (nmessage_of X x) = true) by (unfold is_map in M; rewrite message_desc in M; destruct (d_kind (nf_desc x)); try discriminate M; exact M).
  pose proof (valid_in _ IM) as W. unfold valid_message in W. cbn [m_entry nm_desc m_fields] in W. rewrite EN in W. cbn [negb orb] in W. apply andb_true_iff in W. destruct W as [_ W].
  destruct (nm_fields (nmessage_of X x)) as [|kf [|vf [|? ?]]] eqn:NF; cbn [map] in W; try discriminate W. exists kf, vf. split; [reflexivity|]. split; [exact IM|].
  cbn [forallb] in W. split_bools.
  assert (Fl : forall y, In y [kf; vf] -> d_card (nf_desc y) = CardOptional -> is_map F (nf_desc y) = false).
  { intros y Iy C. rewrite <- NF in Iy. pose proof (valid_x _ y IM Iy) as Wy. unfold valid_field in Wy. rewrite C in Wy. split_bools. unfold is_map.
    destruct (d_kind (nf_desc y)) eqn:K; try reflexivity.
    match goal with E : negb (refers _ && is_entry _ _) = true |- _ => rename E into RE end. cbn [refers andb] in RE. apply negb_true_iff in RE.
    assert (Ry : refers (d_kind (nf_desc y)) = true) by (rewrite K; reflexivity). destruct (field_message _ y IM Iy Ry) as [Ey _].
    unfold is_entry, descs in RE. rewrite nth_error_map, Ey in RE. rewrite message_desc. exact RE. }
  assert (Ck : d_card (nf_desc kf) = CardOptional /\ d_weak (nf_desc kf) = false).
  { destruct (d_card (nf_desc kf)); try discriminate; split; try reflexivity. destruct (d_weak (nf_desc kf)); [discriminate|reflexivity]. }
  assert (Cv : d_card (nf_desc vf) = CardOptional) by (destruct (d_card (nf_desc vf)); try discriminate; reflexivity).
  destruct Ck as [Ck Wk]. split; [apply Fl; [left; reflexivity|exact Ck]|]. split; [apply Fl; [right; left; reflexivity|exact Cv]|].
  unfold plainGoType, is_list, kindGoType. rewrite Wk, Ck. destruct (d_kind (nf_desc kf)); try discriminate; eexists; reflexivity.
Qed.
Lemma spells_type : forall m x, In m X -> In x (nm_fields m) -> spells scope (typeText X x) (fst (fst (fieldGoType F (nf_desc x)))).
Proof.
  intros m x I J. unfold typeText, fieldGoType. destruct (d_weak (nf_desc x)); [apply spells_struct|].
  destruct (is_map F (nf_desc x)) eqn:M; [|eapply spells_plain; eassumption].
  destruct (entry_fields m x I J M) as (kf & vf & NF & IM & Mk & Mv & k & K). rewrite message_desc. cbn [m_fields nm_desc]. rewrite NF. cbn [map].
  rewrite K. cbn [fst]. apply spells_map; [rewrite <- K|]; (eapply spells_plain; [exact IM|rewrite NF|assumption]); [left|right; left]; reflexivity.
Qed.
Lemma option_scalar : forall fd, snd (fst (fieldGoType F fd)) = true -> exists k, fst (fst (fieldGoType F fd)) = TScalar k.
Proof.
  intros fd. unfold fieldGoType, plainGoType. destruct (d_weak fd); [discriminate|]. destruct (is_map F fd).
  - destruct (m_fields (message_of F fd)) as [|kf [|vf l]]; try discriminate. destruct (fst (fst (if d_weak kf then _ else _))); discriminate.
  - unfold kindGoType. destruct (is_list F fd), (d_kind fd); cbn [fst snd]; try discriminate; eexists; reflexivity.
Qed.

(** Texts of types and default values are words. *)
Lemma word_kind : forall m x, In m X -> In x (nm_fields m) -> is_map F (nf_desc x) = false -> word (kindText X x) = true.
Proof.
  intros m x I J M. unfold kindText.
  assert (R : refers (d_kind (nf_desc x)) = true -> word ("*" ++ nm_ref (nmessage_of X x)) = true).
  { intros R. destruct (field_message m x I J R) as [E N]. destruct (scope_message _ _ SC _ _ E (N M)) as [T Q]. apply chars_word; [reflexivity|]. apply type_name_word, T. }
  destruct (d_kind (nf_desc x)) eqn:K; try reflexivity; try (apply R; reflexivity).
  destruct (scope_enum _ _ SC m x I J K) as [T Q]. apply type_name_word, T.
Qed.
Lemma word_plain : forall m x, In m X -> In x (nm_fields m) -> is_map F (nf_desc x) = false -> word (plainText X x) = true.
Proof.
  intros m x I J M. unfold plainText. destruct (d_weak (nf_desc x)); [reflexivity|]. pose proof (word_kind m x I J M) as K.
  destruct (is_list F (nf_desc x)); [apply chars_word; [reflexivity|exact K]|exact K].
Qed.
Lemma word_type : forall m x, In m X -> In x (nm_fields m) -> word (typeText X x) = true.
Proof.
  intros m x I J. unfold typeText. destruct (d_weak (nf_desc x)); [reflexivity|]. destruct (is_map F (nf_desc x)) eqn:M; [|eapply word_plain; eassumption].
  destruct (entry_fields m x I J M) as (kf & vf & NF & IM & Mk & Mv & _). rewrite NF.
  assert (Wk : word (plainText X kf) = true) by (eapply word_plain; [exact IM|rewrite NF; left; reflexivity|exact Mk]).
  assert (Wv : word (plainText X vf) = true) by (eapply word_plain; [exact IM|rewrite NF; right; left; reflexivity|exact Mv]).
  apply chars_word; [reflexivity|]. apply chars_word; [apply word_chars, Wk|]. apply chars_word; [reflexivity|exact Wv].
Qed.
Lemma fmt_word : forall z, all_chars word_char (fmt_d z) = true.
Proof.
  assert (U : forall u, all_chars word_char (DecimalString.NilEmpty.string_of_uint u) = true) by (induction u; cbn; auto).
  intros z. unfold fmt_d, DecimalString.NilZero.string_of_int, DecimalString.NilZero.string_of_uint. destruct (Z.to_int z); cbn [all_chars]; destruct d; try reflexivity; apply U.
Qed.
Lemma word_default : forall m x, In m X -> In x (nm_fields m) -> word (nf_first x) = true -> value_text (defaultText X x) = true.
Proof.
  intros m x I J W. unfold defaultText. destruct (is_list F (nf_desc x)); [reflexivity|]. destruct (d_kind (nf_desc x)) eqn:K; try reflexivity.
  unfold value_text. destruct (nf_first_here x); [rewrite W; reflexivity|]. destruct (scope_enum _ _ SC m x I J K) as [T _]. apply type_name_word in T.
  rewrite chars_word; [reflexivity|apply word_chars, T|]. apply chars_word; [reflexivity|]. apply chars_word; [apply fmt_word|reflexivity].
Qed.
Lemma to_field_good : forall m x, In m X -> In x (nm_fields m) -> named_field x = true -> good_field (to_field X m x) = true.
Proof.
  intros m x I J N. unfold named_field in N. split_bools. unfold good_field. cbn [x_name x_ident x_type x_default x_tags to_field].
  rewrite (word_type m x I J), (word_default m x I J) by assumption. repeat match goal with E : word _ = true |- _ => rewrite E; clear E end.
  destruct (real_oneof (nm_desc m) (nf_desc x)); [|apply fieldTags_good].
  unfold wrapperTags, good_tags. cbn [forallb fst snd]. rewrite tag_value_ascii. destruct (nm_tracked m); reflexivity.
Qed.
Lemma to_message_good : forall m, In m X -> named_message m = true -> good_message (to_message X m) = true.
Proof.
  intros m I N. unfold named_message in N. split_bools. unfold good_message. cbn [g_ident g_fields g_groups to_message].
  apply andb_true_iff. split; [apply andb_true_iff; split|].
  - assumption.
  - rewrite forallb_forall. intros y Iy. apply in_map_iff in Iy. destruct Iy as (x & <- & Ix). apply to_field_good; [exact I|exact Ix|].
    match goal with E : forallb named_field _ = true |- _ => rewrite forallb_forall in E; exact (E x Ix) end.
  - rewrite forallb_forall. intros n In_. match goal with E : forallb named_oneof _ = true |- _ => rewrite forallb_forall in E; specialize (E n In_); unfold named_oneof in E; apply andb_true_iff in E; apply E end.
Qed.
Lemma to_file_good : forall f, incl (nx_messages f) X -> named_file f = true -> good_file (to_file X f) = true.
Proof.
  intros f I N. unfold named_file in N. split_bools. unfold good_file. cbn [f_path f_package f_public f_allEnums f_allMessages to_file].
  repeat match goal with E : ?b = true |- context [?b] => rewrite E; clear E end. cbn [andb].
  rewrite forallb_forall. intros y Iy. apply in_map_iff in Iy. destruct Iy as (m & <- & Im).
  apply to_message_good; [apply I, Im|]. match goal with E : forallb named_message _ = true |- _ => rewrite forallb_forall in E; exact (E m Im) end.
Qed.

(** Members of oneofs. *)
Lemma real_member : forall m x, In m X -> In x (nm_fields m) -> real_oneof (nm_desc m) (nf_desc x) = member m x.
Proof.
  intros m x I J. pose proof (valid_x m x I J) as W. unfold valid_field in W. apply andb_true_iff in W. destruct W as [_ W]. unfold real_oneof, member.
  destruct (d_oneof (nf_desc x)) as [o|]; [|reflexivity]. apply andb_true_iff in W. destruct W as [L _]. apply Nat.ltb_lt in L. cbn [m_oneofs nm_desc] in *. rewrite map_length in L.
  destruct (nth_error (nm_oneofs m) o) as [n|] eqn:E; [|apply nth_error_None in E; lia].
  replace (nth o (map n_synthetic (nm_oneofs m)) false) with (n_synthetic n); [reflexivity|].
  symmetry. apply nth_error_nth. rewrite nth_error_map, E. reflexivity.
Qed.
Lemma text_member : forall m x, In m X -> In x (nm_fields m) -> member_of (to_message X m) (to_field X m x) = member m x.
Proof.
  intros m x I J. unfold member_of, member. cbn [x_oneof to_field g_groups to_message]. destruct (d_oneof (nf_desc x)) as [o|]; [|reflexivity].
  destruct (nth_error (nm_oneofs m) o) as [n|] eqn:E; [rewrite (nth_error_nth _ _ _ E); reflexivity|].
  rewrite nth_overflow by (apply nth_error_None, E). reflexivity.
Qed.
Lemma member_in : forall m x o, member m x = Some o -> In (nth o (nm_oneofs m) no_oneof) (nm_oneofs m) /\ d_oneof (nf_desc x) = Some o /\ n_synthetic (nth o (nm_oneofs m) no_oneof) = false.
Proof.
  intros m x o M. unfold member in M. destruct (d_oneof (nf_desc x)) as [o'|]; [|discriminate M]. destruct (nth_error (nm_oneofs m) o') as [n|] eqn:E; [|discriminate M].
  destruct (n_synthetic n) eqn:S; [discriminate M|]. injection M as ->. rewrite (nth_error_nth _ _ _ E). split; [eapply nth_error_In, E|]. split; [reflexivity|exact S].
Qed.
Lemma text_in_oneof : forall m o b, existsb (GenText.in_oneof o) (map (to_field X m) b) = existsb (ProtoGen.in_oneof o) (map nf_desc b).
Proof. intros m o b. induction b as [|x b IH]; [reflexivity|]. cbn [map existsb]. rewrite IH. reflexivity. Qed.

(** One field. *)
Definition read_as (m : nmessage) (b : list nfield) (x : nfield) : list (string * gofield) :=
  match fst (genMessageField F (nm_desc m) (map nf_desc b) (nf_desc x)) with
  | Some g => [(match member m x with Some o => n_name (nth o (nm_oneofs m) no_oneof) | None => nf_name x end, g)]
  | None => []
  end.
Lemma field_read : forall m b x, In m X -> named_message m = true -> In x (nm_fields m) ->
  read_fields scope (field_code (to_message X m) (map (to_field X m) b) (to_field X m x)) = Some (read_as m b x).
Proof.
  intros m b x I N J. unfold field_code, read_as. rewrite text_member by assumption. unfold named_message in N. split_bools.
  pose proof (generated_seen_proof F (nm_desc m) (map nf_desc b) (nf_desc x)) as GS. rewrite (real_member m x I J) in GS.
  destruct (member m x) as [o|] eqn:M.
  - destruct (member_in _ _ _ M) as (In_ & _ & _). set (n := nth o (nm_oneofs m) no_oneof) in *.
    unfold genMessageField in *. rewrite (real_member m x I J), M in *. unfold first_of. rewrite text_in_oneof.
    destruct (existsb (ProtoGen.in_oneof o) (map nf_desc b)); [reflexivity|]. cbn [negb]. cbv zeta.
    match goal with E : forallb named_oneof _ = true |- _ => rewrite forallb_forall in E; specialize (E n In_); unfold named_oneof in E end. split_bools.
    match goal with E : good_oneof n = true |- _ => rename E into GO end. pose proof GO as GO'. unfold good_oneof in GO'. split_bools.
    change (g_groups (to_message X m)) with (nm_oneofs m). change (g_tracked (to_message X m)) with (nm_tracked m). fold n. cbn [read_fields].
    destruct (scope_oneof _ _ SC m n I In_) as [SI SO].
    rewrite (read_line scope _ _ _ TOther); [|assumption|assumption| | |apply spells_interface; assumption].
    + specialize (GS _ _ (n_desc n) (nm_tracked m) ltac:(assumption) eq_refl). cbn [gf_type] in GS. rewrite GS. reflexivity.
    + apply oneof_name_word, GO.
    + unfold good_tags, oneofTags. cbn [forallb fst snd]. match goal with E : ascii_text (n_desc n) = true |- _ => rewrite E end. destruct (nm_tracked m); reflexivity.
  - match goal with E : forallb named_field _ = true |- _ => rewrite forallb_forall in E; specialize (E x J); unfold named_field in E end. split_bools.
    destruct (genMessageField F (nm_desc m) (map nf_desc b) (nf_desc x)) as [[g|] c] eqn:G.
    2:{ exfalso. unfold genMessageField in G. rewrite (real_member m x I J), M in G. destruct (fieldGoType F (nf_desc x)) as [[t p] c'].
        destruct (is_map F (nf_desc x)); [destruct (m_fields (message_of F (nf_desc x))) as [|? [|? ?]]|]; discriminate G. }
    cbn [fst]. specialize (GS g c "" (nm_tracked m) eq_refl eq_refl).
    assert (GT : gf_type g = (let '(t, p, _) := fieldGoType F (nf_desc x) in if p then match t with TScalar k => TOption k | _ => TOther end else t)).
    { unfold genMessageField in G. rewrite (real_member m x I J), M in G. destruct (fieldGoType F (nf_desc x)) as [[t p] c'].
      destruct (is_map F (nf_desc x)); [destruct (m_fields (message_of F (nf_desc x))) as [|? [|? ?]]|]; injection G as <- _; reflexivity. }
    assert (SP : spells scope (ftype (to_field X m x)) (gf_type g) /\ word (ftype (to_field X m x)) = true).
    { rewrite GT. unfold ftype. cbn [x_option x_type to_field]. pose proof (spells_type m x I J) as S. pose proof (option_scalar (nf_desc x)) as O. pose proof (word_type m x I J) as W.
      destruct (fieldGoType F (nf_desc x)) as [[t p] c']. cbn [fst snd] in *. destruct p; [|split; assumption]. destruct (O eq_refl) as [k ->].
      split; [apply spells_option, S|]. apply chars_word; [reflexivity|]. apply chars_word; [apply word_chars, W|reflexivity]. }
    destruct SP as [SP WP]. cbn [read_fields]. change (x_name (to_field X m x)) with (nf_name x).
    assert (TG : x_tags (to_field X m x) = fieldTags F (nf_desc x) (nm_tracked m)) by (cbn [x_tags to_field]; rewrite (real_member m x I J), M; reflexivity).
    rewrite TG, (read_line scope (nf_name x) _ _ _ ltac:(assumption) ltac:(assumption) WP (fieldTags_good _ _ _) SP), GS. reflexivity.
Qed.
Lemma read_fields_app : forall a b l m, read_fields scope a = Some l -> read_fields scope b = Some m -> read_fields scope (a ++ b)%list = Some (l ++ m)%list.
Proof.
  induction a as [|x a IH]; intros b l m A B; [injection A as <-; exact B|]. cbn [app read_fields] in *. destruct (read_field scope x); [|discriminate A].
  destruct (read_fields scope a); [|discriminate A]. injection A as <-. rewrite (IH b _ m eq_refl B). reflexivity.
Qed.
Lemma marker_read : read_fields scope [marker] = Some [("_", {| gf_exported := false; gf_tag := None; gf_key := ""; gf_val := ""; gf_type := TOther |})].
Proof. reflexivity. Qed.
Lemma comparable_slice : forall fd, snd (fieldGoType F fd) = negb (is_slice F fd).
Proof.
  intros fd. unfold fieldGoType, plainGoType, is_slice. destruct (d_weak fd); [reflexivity|]. destruct (is_map F fd) eqn:M.
  - rewrite !orb_true_r. destruct (m_fields (message_of F fd)) as [|kf [|vf l]]; try reflexivity. destruct (fst (fst (if d_weak kf then _ else _))); reflexivity.
  - unfold is_list. rewrite M. unfold kindGoType. destruct (d_card fd), (d_kind fd); reflexivity.
Qed.
(** All fields. *)
Definition keeps (m : nmessage) (x : nfield) : bool := match real_oneof (nm_desc m) (nf_desc x) with Some _ => true | None => snd (fieldGoType F (nf_desc x)) end.
Lemma keeps_comp : forall m b x, snd (genMessageField F (nm_desc m) b (nf_desc x)) = keeps m x.
Proof.
  intros m b x. unfold genMessageField, keeps. destruct (real_oneof (nm_desc m) (nf_desc x)); [destruct (existsb _ _); reflexivity|].
  destruct (fieldGoType F (nf_desc x)) as [[t p] c]. destruct (is_map F (nf_desc x)); [destruct (m_fields (message_of F (nf_desc x))) as [|? [|? ?]]|]; reflexivity.
Qed.
Lemma fields_read : forall m, In m X -> named_message m = true -> forall xs b seen comp, incl xs (nm_fields m) ->
  (forall o, n_synthetic (nth o (nm_oneofs m) no_oneof) = false -> existsb (Nat.eqb o) seen = existsb (ProtoGen.in_oneof o) (map nf_desc b)) ->
  exists l, read_fields scope (fields_code (to_message X m) (map (to_field X m) b) (map (to_field X m) xs) ++ (if comp && forallb (keeps m) xs then [marker] else [])) = Some l /\
    map snd l = genFields F (nm_desc m) (map nf_desc b) (map nf_desc xs) comp /\
    map fst l = (field_names m seen xs ++ (if comp && forallb (keeps m) xs then ["_"] else []))%list.
Proof.
  intros m I N. induction xs as [|x xs IH]; intros b seen comp IN RS.
  - cbn [forallb map fields_code genFields field_names app]. rewrite andb_true_r. destruct comp; eexists; (split; [reflexivity|split; reflexivity]).
  - cbn [map fields_code genFields forallb]. pose proof (field_read m b x I N (IN x (or_introl eq_refl))) as FR.
    pose proof (keeps_comp m (map nf_desc b) x) as KC.
    assert (E : (map nf_desc b ++ [nf_desc x] = map nf_desc (b ++ [x]))%list) by (rewrite map_app; reflexivity).
    assert (E' : (map (to_field X m) b ++ [to_field X m x] = map (to_field X m) (b ++ [x]))%list) by (rewrite map_app; reflexivity).
    set (seen' := match member m x with Some o => o :: seen | None => seen end).
    destruct (IH (b ++ [x])%list seen' (comp && keeps m x)) as (l & L & G & H).
    { intros y Iy. apply IN. right. exact Iy. }
    { intros o So. rewrite map_app, existsb_app, <- (RS o So). cbn [map existsb]. rewrite orb_false_r. unfold seen'.
      destruct (member m x) as [o'|] eqn:M.
      - destruct (member_in _ _ _ M) as (_ & D & _). cbn [existsb]. unfold ProtoGen.in_oneof. rewrite D. apply orb_comm.
      - unfold ProtoGen.in_oneof. destruct (d_oneof (nf_desc x)) as [o'|] eqn:D; [|rewrite orb_false_r; reflexivity]. unfold member in M. rewrite D in M.
        destruct (Nat.eqb_spec o o') as [->|]; [|rewrite orb_false_r; reflexivity]. exfalso.
        destruct (nth_error (nm_oneofs m) o') as [n|] eqn:En.
        + rewrite (nth_error_nth _ _ _ En) in So. rewrite So in M. discriminate M.
        + rewrite nth_overflow in So by (apply nth_error_None, En). discriminate So. }
    exists (read_as m b x ++ l)%list. rewrite E', <- app_assoc, andb_assoc. split; [apply read_fields_app; assumption|]. rewrite !map_app, G, H, <- E. unfold read_as.
    assert (R : fst (genMessageField F (nm_desc m) (map nf_desc b) (nf_desc x)) = None <-> exists o, member m x = Some o /\ existsb (Nat.eqb o) seen = true).
    { unfold genMessageField. rewrite (real_member m x I (IN x (or_introl eq_refl))). destruct (member m x) as [o|] eqn:M.
      - destruct (member_in _ _ _ M) as (_ & D & S). rewrite <- (RS o S). destruct (existsb (Nat.eqb o) seen) eqn:Q; cbn [fst]; split; intros HH; try reflexivity; try discriminate HH.
        + exists o. auto.
        + destruct HH as (o' & A & B). injection A as <-. congruence.
      - destruct (fieldGoType F (nf_desc x)) as [[t p] c]. destruct (is_map F (nf_desc x)); [destruct (m_fields (message_of F (nf_desc x))) as [|? [|? ?]]|];
          cbn [fst]; split; intros HH; try discriminate HH; destruct HH as (o' & A & B); discriminate A. }
    destruct (genMessageField F (nm_desc m) (map nf_desc b) (nf_desc x)) as [[g|] c] eqn:GG; cbn [fst snd] in *; subst c.
    + split; [reflexivity|]. cbn [field_names map]. unfold seen'. destruct (member m x) as [o|] eqn:M; [|reflexivity].
      destruct (existsb (Nat.eqb o) seen) eqn:Q; [exfalso; destruct R as [_ R]; discriminate R; exists o; auto|]. reflexivity.
    + split; [reflexivity|]. cbn [field_names map]. destruct R as [R _]. destruct (R eq_refl) as (o & M & Q). unfold seen'. rewrite M, Q.
      cbn [app]. f_equal. clear -Q. revert Q.
      assert (W : forall xs s s', (forall k, existsb (Nat.eqb k) s = existsb (Nat.eqb k) s') -> field_names m s xs = field_names m s' xs).
      { induction xs0 as [|y ys IHy]; intros s s' E; [reflexivity|]. cbn [field_names]. destruct (member m y) as [k|]; [|rewrite (IHy s s' E); reflexivity].
        rewrite (E k). destruct (existsb (Nat.eqb k) s'); [apply IHy, E|]. f_equal. apply IHy. intros j. cbn [existsb]. rewrite E. reflexivity. }
      intros Q. apply W. intros k. cbn [existsb]. destruct (Nat.eqb_spec k o) as [->|]; [exact (eq_sym Q)|reflexivity].
Qed.
Lemma keeps_slice : forall m, In m X -> forallb (keeps m) (nm_fields m) =
  negb (existsb (fun x => match member m x with None => is_slice F (nf_desc x) | Some _ => false end) (nm_fields m)).
Proof.
  intros m I. assert (H : forall xs, incl xs (nm_fields m) -> forallb (keeps m) xs = negb (existsb (fun x => match member m x with None => is_slice F (nf_desc x) | Some _ => false end) xs)).
  { induction xs as [|x xs IH]; intros IN; [reflexivity|]. cbn [forallb existsb]. rewrite IH by (intros y Iy; apply IN; right; exact Iy). unfold keeps.
    rewrite (real_member m x I (IN x (or_introl eq_refl))), negb_orb. destruct (member m x); [reflexivity|]. rewrite comparable_slice. reflexivity. }
  apply H, incl_refl.
Qed.
Lemma struct_read : forall m, In m X -> named_message m = true -> nm_entry m = false -> exists l,
  read_fields scope (snd (struct_code (to_message X m))) = Some l /\ map snd l = genMessage F (nm_desc m) /\ map fst l = struct_names X m.
Proof.
  intros m I N E. destruct (fields_read m I N (nm_fields m) [] [] true (incl_refl _)) as (l & L & G & H); [intros; reflexivity|]. cbn [andb] in *.
  exists l. split; [exact L|]. split; [unfold genMessage; cbn [m_entry nm_desc m_fields]; rewrite E; exact G|]. rewrite H. unfold struct_names. rewrite (keeps_slice m I).
  destruct (existsb _ _); reflexivity.
Qed.

(** Wrappers. *)
Lemma members_text : forall m o n, In m X -> nth_error (nm_oneofs m) o = Some n -> n_synthetic n = false ->
  members (to_message X m) o = map (to_field X m) (filter (fun x => match member m x with Some o' => Nat.eqb o o' | None => false end) (nm_fields m)).
Proof.
  intros m o n I E S. unfold members. cbn [g_fields to_message]. induction (nm_fields m) as [|x xs IH]; [reflexivity|]. cbn [map filter].
  replace (match member m x with Some o' => Nat.eqb o o' | None => false end) with (GenText.in_oneof o (to_field X m x)).
  - destruct (GenText.in_oneof o (to_field X m x)); cbn [map]; rewrite IH; reflexivity.
  - unfold GenText.in_oneof, member. cbn [x_oneof to_field]. destruct (d_oneof (nf_desc x)) as [o'|]; [|reflexivity]. destruct (Nat.eqb_spec o o') as [<-|N].
    + rewrite E, S, Nat.eqb_refl. reflexivity.
    + destruct (nth_error (nm_oneofs m) o') as [n'|]; [|reflexivity]. destruct (n_synthetic n'); [reflexivity|]. symmetry. apply Nat.eqb_neq, N.
Qed.
Lemma wrapper_read : forall m x, In m X -> named_message m = true -> In x (nm_fields m) -> (exists o, member m x = Some o) ->
  read_fields scope [x_name (to_field X m x) ++ String space (x_type (to_field X m x) ++ tagsString (x_tags (to_field X m x)))] = Some [(nf_name x, wrapped F x)].
Proof.
  intros m x I N J (o & M). unfold named_message in N. split_bools.
  match goal with E : forallb named_field _ = true |- _ => rewrite forallb_forall in E; specialize (E x J); unfold named_field in E end. split_bools.
  cbn [read_fields x_name x_type x_tags to_field]. rewrite (real_member m x I J), M.
  rewrite (read_line scope (nf_name x) (typeText X x) _ (fst (fst (fieldGoType F (nf_desc x)))) ltac:(assumption) ltac:(assumption) (word_type m x I J)); [| |apply (spells_type m x I J)].
  - rewrite wrapper_seen_proof. reflexivity.
  - unfold good_tags, wrapperTags. cbn [forallb fst snd]. rewrite tag_value_ascii. destruct (nm_tracked m); reflexivity.
Qed.
Lemma read_structs_app : forall a b l m, read_structs scope a = Some l -> read_structs scope b = Some m -> read_structs scope (a ++ b)%list = Some (l ++ m)%list.
Proof.
  induction a as [|[n x] a IH]; intros b l m A B; [injection A as <-; exact B|]. cbn [app read_structs] in *. destruct (read_fields scope x); [|discriminate A].
  destruct (read_structs scope a); [|discriminate A]. injection A as <-. rewrite (IH b _ m eq_refl B). reflexivity.
Qed.
Definition wrapper_decl (x : nfield) : string * list (string * gofield) := (nf_ident x, [(nf_name x, wrapped F x)]).
Lemma wrappers_read : forall m, In m X -> named_message m = true -> forall xs, incl xs (nm_fields m) -> (forall x, In x xs -> exists o, member m x = Some o) ->
  read_structs scope (map (fun x => (x_ident x, [x_name x ++ String space (x_type x ++ tagsString (x_tags x))])) (map (to_field X m) xs)) = Some (map wrapper_decl xs).
Proof.
  intros m I N. induction xs as [|x xs IH]; intros IN M; [reflexivity|]. cbn [map read_structs].
  rewrite (wrapper_read m x I N (IN x (or_introl eq_refl)) (M x (or_introl eq_refl))). rewrite IH; [reflexivity| |].
  - intros y Iy. apply IN. right. exact Iy.
  - intros y Iy. apply M. right. exact Iy.
Qed.
Lemma oneofs_wrappers : forall m, In m X -> named_message m = true -> forall ns o, (forall k, nth_error ns k = nth_error (nm_oneofs m) (o + k)) ->
  read_structs scope (oneofs_codes (to_message X m) o ns) =
  Some (map wrapper_decl (concat (map (fun o => filter (fun x => match member m x with Some o' => Nat.eqb o o' | None => false end) (nm_fields m)) (seq o (length ns))))).
Proof.
  intros m I N. induction ns as [|n ns IH]; intros o E; [reflexivity|]. cbn [oneofs_codes length seq map concat]. rewrite map_app.
  pose proof (E 0) as E0. cbn [nth_error] in E0. rewrite Nat.add_0_r in E0. apply read_structs_app.
  - unfold wrapper_codes. destruct (n_synthetic n) eqn:S.
    + replace (filter _ (nm_fields m)) with (@nil nfield); [reflexivity|]. clear IH. induction (nm_fields m) as [|x xs IHx]; [reflexivity|]. cbn [filter].
      unfold member at 1. destruct (d_oneof (nf_desc x)) as [o'|]; [|exact IHx]. destruct (nth_error (nm_oneofs m) o') as [n'|] eqn:E'; [|exact IHx].
      destruct (n_synthetic n') eqn:S'; [exact IHx|]. destruct (Nat.eqb_spec o o') as [<-|]; [congruence|exact IHx].
    + rewrite (members_text m o n I (eq_sym E0) S). apply (wrappers_read m I N).
      * intros x Ix. apply filter_In in Ix. apply Ix.
      * intros x Ix. apply filter_In in Ix. destruct Ix as [_ Ix]. destruct (member m x) as [o'|]; [exists o'; reflexivity|discriminate Ix].
  - apply IH. intros k. specialize (E (S k)). cbn [nth_error] in E. rewrite E. f_equal. lia.
Qed.
Lemma message_read : forall m, In m X -> named_message m = true -> exists part, read_structs scope (message_codes (to_message X m)) = Some part /\ declares X m part.
Proof.
  intros m I N. unfold message_codes, declares. cbn [g_mapentry to_message]. destruct (nm_entry m) eqn:E; [exists []; split; reflexivity|].
  destruct (struct_read m I N E) as (fs & R & G & H). exists ((nm_ident m, fs) :: map wrapper_decl (wrapped_fields m)). split; [|exists fs; repeat split; assumption].
  change (g_groups (to_message X m)) with (nm_oneofs m) in *. unfold struct_code in *. cbn [snd g_ident to_message] in R. cbn [read_structs g_ident to_message]. rewrite R.
  fold (to_message X m). rewrite (oneofs_wrappers m I N (nm_oneofs m) 0); [reflexivity|]. intros k. reflexivity.
Qed.
Lemma file_read : forall f, incl (nx_messages f) X -> named_file f = true ->
  exists parts, go_structs scope (GenerateText X f) = Some (concat parts) /\ Forall2 (declares X) (nx_messages f) parts.
Proof.
  intros f IN N. unfold go_structs, GenerateText. rewrite (file_structs _ (to_file_good f IN N)). cbn [f_allMessages to_file].
  unfold named_file in N. split_bools. match goal with E : forallb named_message _ = true |- _ => rewrite forallb_forall in E; rename E into NM end.
  revert IN NM. induction (nx_messages f) as [|m ms IH]; intros IN NM; [exists []; split; [reflexivity|constructor]|].
  destruct (message_read m (IN m (or_introl eq_refl)) (NM m (or_introl eq_refl))) as (part & R & D).
  destruct IH as (parts & Rs & Ds); [intros y Iy; apply IN; right; exact Iy|intros y Iy; apply NM; right; exact Iy|].
  exists (part :: parts). split; [|constructor; assumption]. cbn [map flat_map concat]. apply read_structs_app; assumption.
Qed.
End X.

(** A message of the file, by its number. *)
Lemma number_read : forall X scope f i m, good_scope X scope -> valid (descs X) = true -> incl (nx_messages f) X -> named_file f = true ->
  nth_error X i = Some m -> In m (nx_messages f) -> nm_entry m = false ->
  exists ss fs, go_structs scope (GenerateText X f) = Some ss /\ In (nm_ident m, fs) ss /\ nth_error (generate (descs X)) i = Some (map snd fs).
Proof.
  intros X scope f i m SC V IN N E I NE. destruct (file_read X scope SC V f IN N) as (parts & R & D). exists (concat parts).
  assert (Q : exists part, In part parts /\ declares X m part).
  { clear -D I. induction D as [|m' p ms ps H D IH]; [destruct I|]. destruct I as [->|I]; [exists p; split; [left; reflexivity|exact H]|].
    destruct (IH I) as (q & Iq & Hq). exists q. split; [right; exact Iq|exact Hq]. }
  destruct Q as (part & Ip & Dp). unfold declares in Dp. rewrite NE in Dp. destruct Dp as (fs & -> & _ & G). exists fs. split; [exact R|].
  split; [apply in_concat; eexists; split; [exact Ip|left; reflexivity]|]. unfold generate, descs. rewrite nth_error_map, nth_error_map, E. cbn [option_map]. unfold descs in G. rewrite G. reflexivity.
Qed.
