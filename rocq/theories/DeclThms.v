(** The declarations of a generated file are those of the descriptors, and its
    methods return what they should. *)
From Coq Require Import String Ascii DecimalString.
From Verif Require Import Base GoType ProtoGen SpecProto StructTag StructTagFacts ErrText GenText GenDesc SpecStructTag SpecText TextFacts TextThms SpecGo SpecDesc GoFacts GoText GoParse GoThms SpecDecl SpecMethods DeclFacts DeclText.
Local Open Scope string_scope.

Lemma flat_map_map : forall {A B C} (f : B -> list C) (g : A -> B) l, flat_map f (map g l) = flat_map (fun x => f (g x)) l.
Proof. induction l as [|x l IH]; [reflexivity|]. cbn [map flat_map]. rewrite IH. reflexivity. Qed.
Lemma flat_map_flat : forall {A B C} (f : B -> list C) (g : A -> list B) l, flat_map f (flat_map g l) = flat_map (fun x => flat_map f (g x)) l.
Proof. induction l as [|x l IH]; [reflexivity|]. cbn [flat_map]. rewrite flat_map_app, IH. reflexivity. Qed.
Lemma flat_map_same : forall {A B} (f g : A -> list B) l, (forall x, In x l -> f x = g x) -> flat_map f l = flat_map g l.
Proof. induction l as [|x l IH]; intros E; [reflexivity|]. cbn [flat_map]. rewrite (E x (or_introl eq_refl)), IH by (intros y I; apply E; right; exact I). reflexivity. Qed.
Lemma find_unique : forall me ds, In (Method me) ds -> (forall me', In (Method me') ds -> on me' = on me -> mname me' = mname me -> me' = me) ->
  find_method (on me) (mname me) ds = Some me.
Proof.
  intros me. induction ds as [|d ds IH]; intros I U; [destruct I|]. cbn [find_method].
  destruct (is_method (on me) (mname me) d) as [me'|] eqn:E.
  - destruct d as [| | | | |m0|]; try discriminate E. cbn [is_method] in E. destruct (String.eqb_spec (on m0) (on me)); [|discriminate E]. destruct (String.eqb_spec (mname m0) (mname me)); [|discriminate E].
    injection E as <-. f_equal. apply U; [left; reflexivity|assumption|assumption].
  - destruct I as [->|I]; [|apply IH; [exact I|intros me' I'; apply U; right; exact I']].
    cbn [is_method] in E. rewrite !String.eqb_refl in E. discriminate E.
Qed.
Lemma tokens_chars : forall p s, all_chars p s = true -> Forall (fun t => all_chars p t = true) (tokens s).
Proof.
  induction s as [|c s IH]; intros A; [constructor|]. cbn [all_chars] in A. apply andb_true_iff in A. destruct A as [C A]. specialize (IH A). rewrite tokens_unfold.
  destruct (Ascii.eqb c space); [exact IH|]. destruct (tokens s) as [|t ts]; [repeat constructor; cbn [all_chars one]; rewrite C; reflexivity|].
  inversion IH as [|? ? T R]; subst. destruct (match s with "" => _ | _ => _ end); repeat constructor; try assumption; cbn [all_chars one]; rewrite C; [exact T|reflexivity].
Qed.
Lemma until_app : forall t a b, Forall (fun u => String.eqb t u = false) a -> until t (a ++ t :: b)%list = Some (a, b).
Proof. intros t a b F. induction F as [|u a N _ IH]; cbn [app until]; [rewrite String.eqb_refl; reflexivity|]. rewrite N, IH. reflexivity. Qed.
Lemma tokens_nonempty : forall s, spaceless s = true -> s <> "" -> tokens s <> [].
Proof. intros s S N E. apply text_tokens in S. rewrite E in S. apply N. symmetry. exact S. Qed.

Section X.
Variable X : list nmessage.
Variable scope : string -> entity.
Variable consts : string -> option Z.
Hypothesis SC : good_scope X scope.
Hypothesis V : valid (descs X) = true.
Variable f : nfile.
Hypothesis IN : incl (nx_messages f) X.
Hypothesis NF : named_file f = true.
Hypothesis SF : simple_file f = true.
Notation F := (descs X).

Lemma SM : forall m, In m (nx_messages f) -> simple_message m = true.
Proof. intros m I. pose proof SF as Q. unfold simple_file in Q. split_bools. match goal with E : forallb simple_message _ = true |- _ => rewrite forallb_forall in E; exact (E m I) end. Qed.
Lemma SFx : forall m x, In m (nx_messages f) -> In x (nm_fields m) -> name (nf_name x) = true /\ name (nf_ident x) = true /\ name (nf_first x) = true.
Proof.
  intros m x I J. pose proof (SM m I) as Q. unfold simple_message in Q. split_bools. match goal with E : forallb simple_field _ = true |- _ => rewrite forallb_forall in E; specialize (E x J); unfold simple_field in E end.
  split_bools. auto.
Qed.
Lemma default_leafy : forall m x, In m (nx_messages f) -> In x (nm_fields m) -> leafy ("return " ++ defaultText X x) = true.
Proof.
  intros m x I J. destruct (SFx m x I J) as (_ & _ & N). unfold defaultText. destruct (is_list F (nf_desc x)); [reflexivity|]. destruct (d_kind (nf_desc x)) eqn:K; try reflexivity.
  destruct (nf_first_here x); [apply leafy_name, N|]. change ("return " ++ nf_enum x ++ "(" ++ fmt_d (nf_first_number x) ++ ")") with ("return " ++ (nf_enum x ++ "(" ++ fmt_d (nf_first_number x) ++ ")")).
  rewrite <- !app_assoc_s. apply leafy_close; [rewrite !app_assoc_s; discriminate|left; reflexivity].
Qed.
Lemma plain_to : forall m, In m (nx_messages f) -> plain_message (to_message X m).
Proof.
  intros m I. pose proof (SM m I) as Q. unfold simple_message in Q. split_bools. split; [assumption|]. split.
  - intros y Iy. cbn [g_fields to_message] in Iy. apply in_map_iff in Iy. destruct Iy as (x & <- & J). destruct (SFx m x I J) as (A & B & _).
    split; [exact A|]. split; [exact B|]. cbn [x_tags x_default to_field]. split; [destruct (real_oneof (nm_desc m) (nf_desc x)); discriminate|]. apply (default_leafy m x I J).
  - intros n In_. match goal with E : forallb simple_oneof _ = true |- _ => rewrite forallb_forall in E; exact (E n In_) end.
Qed.
Lemma file_declares : go_decls (GenerateText X f) = Some (file_decls (to_file X f)).
Proof.
  pose proof SF as Q. unfold simple_file in Q. split_bools. apply file_gives; try assumption; [apply (to_file_good X scope SC V f IN NF)|].
  intros y Iy. cbn [f_allMessages to_file] in Iy. apply in_map_iff in Iy. destruct Iy as (m & <- & I). apply plain_to, I.
Qed.

(** ** What is declared *)
Lemma first_seen : forall m o b, first_of (map (to_field X m) b) o = negb (existsb (ProtoGen.in_oneof o) (map nf_desc b)).
Proof. intros m o b. unfold first_of. rewrite text_in_oneof. reflexivity. Qed.
Lemma getters_things : forall m, In m X -> forall xs b seen, incl xs (nm_fields m) ->
  (forall o, (exists x, In x (nm_fields m) /\ member m x = Some o) -> existsb (Nat.eqb o) seen = existsb (ProtoGen.in_oneof o) (map nf_desc b)) ->
  flat_map things_of (getters_decls (to_message X m) (map (to_field X m) b) (map (to_field X m) xs)) = getter_things X m seen xs.
Proof.
  intros m I. induction xs as [|x xs IH]; intros b seen J S; [reflexivity|]. cbn [map getters_decls getter_things]. rewrite flat_map_app. unfold getter_decls.
  assert (Jx : In x (nm_fields m)) by (apply J; left; reflexivity). assert (Js : incl xs (nm_fields m)) by (intros y Iy; apply J; right; exact Iy).
  replace (map (to_field X m) b ++ [to_field X m x])%list with (map (to_field X m) (b ++ [x])%list) by (rewrite map_app; reflexivity).
  rewrite (text_member X m x I Jx). destruct (member m x) as [o|] eqn:M.
  - rewrite first_seen, flat_map_app, <- (S o) by (exists x; auto). rewrite (IH (b ++ [x])%list (o :: seen) Js).
    + change (g_groups (to_message X m)) with (nm_oneofs m). destruct (existsb (Nat.eqb o) seen); reflexivity.
    + intros o' E. rewrite map_app, existsb_app. cbn [existsb map]. rewrite <- (S o' E), orb_false_r.
      replace (ProtoGen.in_oneof o' (nf_desc x)) with (Nat.eqb o' o); [destruct (Nat.eqb o' o), (existsb (Nat.eqb o') seen); reflexivity|].
      apply member_in in M. destruct M as (_ & D & _). unfold ProtoGen.in_oneof. rewrite D. reflexivity.
  - cbn [flat_map app]. apply (IH (b ++ [x])%list seen Js). intros o' E. rewrite map_app, existsb_app, (S o' E). cbn [existsb map].
    replace (ProtoGen.in_oneof o' (nf_desc x)) with false; [rewrite !orb_false_r; reflexivity|].
    unfold ProtoGen.in_oneof. destruct (d_oneof (nf_desc x)) as [o|] eqn:D; [|reflexivity]. destruct (Nat.eqb_spec o' o) as [->|]; [|reflexivity]. exfalso.
    destruct E as (y & _ & My). unfold member in M, My. rewrite D in M. destruct (d_oneof (nf_desc y)) as [oy|]; [|discriminate My].
    destruct (nth_error (nm_oneofs m) oy) as [ny|] eqn:Ey; [|discriminate My]. destruct (n_synthetic ny) eqn:Sy; [discriminate My|]. injection My as ->. rewrite Ey, Sy in M. discriminate M.
Qed.
Lemma oneof_things_at : forall m o n, In m X -> nth_error (nm_oneofs m) o = Some n -> flat_map things_of (wrapper_decls (to_message X m) o n) = oneof_things m o.
Proof.
  intros m o n I E. unfold wrapper_decls, oneof_things. rewrite E. destruct (n_synthetic n) eqn:S; [reflexivity|]. rewrite (members_text X m o n I E S). fold (members_of m o).
  cbn [flat_map things_of app]. f_equal. rewrite flat_map_app, !flat_map_flat, !flat_map_map. cbn [flat_map things_of app x_ident to_field]. rewrite !flat_map_one. reflexivity.
Qed.
Lemma oneofs_things : forall m, In m X -> forall ns o, (forall k, nth_error ns k = nth_error (nm_oneofs m) (o + k)) ->
  flat_map things_of (oneofs_decls (to_message X m) o ns) = flat_map (oneof_things m) (seq o (length ns)).
Proof.
  intros m I. induction ns as [|n ns IH]; intros o E; [reflexivity|]. cbn [oneofs_decls length seq flat_map]. rewrite flat_map_app.
  pose proof (E 0) as E0. cbn [nth_error] in E0. rewrite Nat.add_0_r in E0. rewrite (oneof_things_at m o n I (eq_sym E0)), (IH (S o)); [reflexivity|].
  intros k. specialize (E (S k)). cbn [nth_error] in E. rewrite E. f_equal. lia.
Qed.
Lemma message_things_at : forall m, In m X -> flat_map things_of (message_decls (to_message X m)) = message_things X m.
Proof.
  intros m I. unfold message_decls, message_things. cbn [g_mapentry to_message]. destruct (nm_entry m); [reflexivity|]. cbn [flat_map things_of app]. f_equal.
  rewrite flat_map_app. f_equal.
  - apply (getters_things m I (nm_fields m) [] []); [apply incl_refl|]. intros; reflexivity.
  - apply (oneofs_things m I (nm_oneofs m) 0). intros k. reflexivity.
Qed.
Lemma file_things_at : flat_map things_of (file_decls (to_file X f)) = file_things X f.
Proof.
  unfold file_decls, file_things. cbn [flat_map things_of app f_package to_file f_public f_allEnums f_allMessages]. f_equal. rewrite !flat_map_app, !flat_map_flat. f_equal; [|f_equal].
  - apply flat_map_same. intros i _. unfold import_decls. induction (i_forwards i) as [|[[tok a] q] l IH]; [reflexivity|]. cbn [flat_map map app things_of]. rewrite <- IH. reflexivity.
  - apply flat_map_same. intros e _. unfold enum_decls, enum_things. cbn [flat_map things_of app]. rewrite app_nil_r, map_map. reflexivity.
  - rewrite flat_map_map. apply flat_map_same. intros m I. apply message_things_at, IN, I.
Qed.
Lemma declared_proof : option_map (flat_map things_of) (go_decls (GenerateText X f)) = Some (file_things X f).
Proof. rewrite file_declares. cbn [option_map]. rewrite file_things_at. reflexivity. Qed.

(** ** Methods *)
Notation ds := (file_decls (to_file X f)).
Notation T m := (to_message X m).
Definition group (m : nmessage) (o : nat) : toneof := nth o (nm_oneofs m) no_oneof.
Lemma getters_inv : forall m xs b d, In m X -> incl xs (nm_fields m) -> In d (getters_decls (T m) b (map (to_field X m) xs)) ->
  exists x o, In x (nm_fields m) /\ member m x = Some o /\ (d = Method (oneof_getter (T m) (group m o)) \/ d = Method (member_getter (T m) (group m o) (to_field X m x))).
Proof.
  intros m xs b d I. revert b. induction xs as [|x xs IH]; intros b J D; [destruct D|]. cbn [map getters_decls] in D. apply in_app_iff in D. destruct D as [D|D].
  - unfold getter_decls in D. assert (Jx : In x (nm_fields m)) by (apply J; left; reflexivity). rewrite (text_member X m x I Jx) in D. destruct (member m x) as [o|] eqn:M; [|destruct D].
    exists x, o. split; [exact Jx|]. split; [exact M|]. apply in_app_iff in D. destruct D as [D|[<-|[]]]; [|right; reflexivity]. destruct (first_of b o); [|destruct D]. destruct D as [<-|[]]. left. reflexivity.
  - apply (IH (b ++ [to_field X m x])%list); [intros y Iy; apply J; right; exact Iy|exact D].
Qed.
Lemma getters_member : forall m xs b x o, In m X -> incl xs (nm_fields m) -> In x xs -> member m x = Some o ->
  In (Method (member_getter (T m) (group m o) (to_field X m x))) (getters_decls (T m) b (map (to_field X m) xs)).
Proof.
  intros m xs b x o I. revert b. induction xs as [|y xs IH]; intros b J D M; [destruct D|]. cbn [map getters_decls]. apply in_app_iff. destruct D as [->|D].
  - left. unfold getter_decls. rewrite (text_member X m x I) by (apply J; left; reflexivity). rewrite M. apply in_app_iff. right. left. reflexivity.
  - right. apply IH; [intros z Iz; apply J; right; exact Iz|exact D|exact M].
Qed.
Lemma getters_oneof : forall m xs b x o, In m X -> incl xs (nm_fields m) -> In x xs -> member m x = Some o -> first_of b o = true ->
  In (Method (oneof_getter (T m) (group m o))) (getters_decls (T m) b (map (to_field X m) xs)).
Proof.
  intros m xs b x o I. revert b. induction xs as [|y xs IH]; intros b J D M B; [destruct D|]. cbn [map getters_decls]. apply in_app_iff.
  assert (Jy : In y (nm_fields m)) by (apply J; left; reflexivity).
  destruct (member m y) as [o'|] eqn:My; [destruct (Nat.eqb_spec o' o) as [->|Ne]|].
  - left. unfold getter_decls. rewrite (text_member X m y I Jy), My, B. left. reflexivity.
  - right. destruct D as [->|D]; [congruence|]. apply IH; [intros z Iz; apply J; right; exact Iz|exact D|exact M|].
    unfold first_of in *. rewrite existsb_app. cbn [existsb]. apply negb_true_iff in B. rewrite B. apply member_in in My. destruct My as (_ & Dy & _). unfold GenText.in_oneof. cbn [x_oneof to_field]. rewrite Dy.
    destruct (Nat.eqb_spec o o'); [congruence|reflexivity].
  - right. destruct D as [->|D]; [congruence|]. apply IH; [intros z Iz; apply J; right; exact Iz|exact D|exact M|].
    unfold first_of in *. rewrite existsb_app. cbn [existsb]. apply negb_true_iff in B. rewrite B. unfold GenText.in_oneof. cbn [x_oneof to_field]. destruct (d_oneof (nf_desc y)) as [oy|] eqn:Dy; [|reflexivity].
    destruct (Nat.eqb_spec o oy) as [<-|]; [|reflexivity]. exfalso. unfold member in M, My. rewrite Dy in My. destruct (d_oneof (nf_desc x)) as [ox|]; [|discriminate M].
    destruct (nth_error (nm_oneofs m) ox) as [nx|] eqn:Ex; [|discriminate M]. destruct (n_synthetic nx) eqn:Sx; [discriminate M|]. injection M as ->. rewrite Ex, Sx in My. discriminate My.
Qed.
Lemma oneofs_inv : forall m ns o d, In d (oneofs_decls (T m) o ns) ->
  exists k n, nth_error ns k = Some n /\ In d (wrapper_decls (T m) (o + k) n).
Proof.
  intros m. induction ns as [|n ns IH]; intros o d D; [destruct D|]. cbn [oneofs_decls] in D. apply in_app_iff in D. destruct D as [D|D].
  - exists 0, n. rewrite Nat.add_0_r. auto.
  - destruct (IH (S o) d D) as (k & n' & E & D'). exists (S k), n'. split; [exact E|]. replace (o + S k) with (S o + k) by lia. exact D'.
Qed.
Lemma wrapper_inv : forall m o n d, In m X -> nth_error (nm_oneofs m) o = Some n -> In d (wrapper_decls (T m) o n) -> n_synthetic n = false /\
  (d = Interface (oneofInterfaceName n) [oneofInterfaceName n] \/ exists x, In x (nm_fields m) /\ member m x = Some o /\ (d = Struct (nf_ident x) \/ d = Marker (nf_ident x) (oneofInterfaceName n))).
Proof.
  intros m o n d I E D. unfold wrapper_decls in D. destruct (n_synthetic n) eqn:S; [destruct D|]. split; [reflexivity|]. rewrite (members_text X m o n I E S) in D. destruct D as [<-|D]; [left; reflexivity|]. right.
  apply in_app_iff in D. destruct D as [D|D]; apply in_flat_map in D; destruct D as (y & Iy & D); apply in_map_iff in Iy; destruct Iy as (x & <- & Ix); apply filter_In in Ix; destruct Ix as [Ix Mx];
    (destruct (member m x) as [o'|] eqn:Mm; [|discriminate Mx]); apply Nat.eqb_eq in Mx; subst o'; exists x; (split; [exact Ix|]); (split; [exact Mm|]); destruct D as [<-|[]]; auto.
Qed.
(** The declarations of the file. *)
Lemma decl_inv : forall d, In d ds ->
  (exists p, d = Package p) \/ (exists k a q, d = Forward k a q) \/ (exists cs, d = Consts cs) \/ exists m, In m (nx_messages f) /\ nm_entry m = false /\ In d (message_decls (T m)).
Proof.
  intros d [<-|D]; [left; eexists; reflexivity|]. right. apply in_app_iff in D. destruct D as [D|D]; [|apply in_app_iff in D; destruct D as [D|D]].
  - left. apply in_flat_map in D. destruct D as (i & _ & D). unfold import_decls in D. apply in_flat_map in D. destruct D as ([[tok a] q] & _ & [<-|[]]). repeat eexists.
  - apply in_flat_map in D. destruct D as (e & _ & [<-|[<-|[]]]); [left; repeat eexists|right; left; eexists; reflexivity].
  - right. right. apply in_flat_map in D. destruct D as (y & Iy & D). cbn [f_allMessages to_file] in Iy. apply in_map_iff in Iy. destruct Iy as (m & <- & I). exists m. split; [exact I|].
    destruct (nm_entry m) eqn:E; [|split; [reflexivity|exact D]]. unfold message_decls in D. cbn [g_mapentry to_message] in D. rewrite E in D. destruct D.
Qed.
Lemma message_in : forall m d, In m (nx_messages f) -> In d (message_decls (T m)) -> In d ds.
Proof.
  intros m d I D. right. apply in_app_iff. right. apply in_app_iff. right. apply in_flat_map. exists (T m). split; [|exact D]. cbn [f_allMessages to_file]. apply in_map, I.
Qed.
Lemma method_inv : forall me, In (Method me) ds -> exists m x o, In m (nx_messages f) /\ nm_entry m = false /\ In x (nm_fields m) /\ member m x = Some o /\
  (me = oneof_getter (T m) (group m o) \/ me = member_getter (T m) (group m o) (to_field X m x)).
Proof.
  intros me D. apply decl_inv in D. destruct D as [(p & D)|[(k & a & q & D)|[(cs & D)|(m & I & E & D)]]]; try discriminate D. unfold message_decls in D. cbn [g_mapentry to_message] in D. rewrite E in D.
  destruct D as [D|D]; [discriminate D|]. apply in_app_iff in D. destruct D as [D|D].
  - apply getters_inv in D; [|apply IN, I|apply incl_refl]. destruct D as (x & o & Ix & M & D). exists m, x, o. repeat (split; [assumption|]). destruct D as [D|D]; injection D as ->; auto.
  - apply oneofs_inv in D. destruct D as (k & n & En & D). apply wrapper_inv in D; [|apply IN, I|exact En]. destruct D as (_ & [D|(x & _ & _ & [D|D])]); discriminate D.
Qed.
Hypothesis DN : distinct f.
Lemma member_error : forall m x o, member m x = Some o -> nth_error (nm_oneofs m) o = Some (group m o) /\ n_synthetic (group m o) = false.
Proof.
  intros m x o M. unfold member in M. destruct (d_oneof (nf_desc x)) as [o'|]; [|discriminate M]. destruct (nth_error (nm_oneofs m) o') as [n|] eqn:E; [|discriminate M].
  destruct (n_synthetic n) eqn:S; [discriminate M|]. injection M as ->. unfold group. rewrite (nth_error_nth _ _ _ E). auto.
Qed.
Lemma append_inj : forall a b c, a ++ b = a ++ c -> b = c.
Proof. induction a as [|x a IH]; intros b c E; [exact E|]. injection E as E. apply IH, E. Qed.
Lemma find_oneof : forall m x o, In m (nx_messages f) -> nm_entry m = false -> In x (nm_fields m) -> member m x = Some o ->
  find_method (nm_ident m) ("Get" ++ n_name (group m o)) ds = Some (oneof_getter (T m) (group m o)).
Proof.
  intros m x o I E J M. apply (find_unique (oneof_getter (T m) (group m o)) ds).
  - apply (message_in m _ I). unfold message_decls. cbn [g_mapentry to_message]. rewrite E. right. apply in_app_iff. left. eapply (getters_oneof m (nm_fields m) [] x o (IN m I)); [apply incl_refl|exact J|exact M|reflexivity].
  - intros me D O N. apply method_inv in D. destruct D as (m' & x' & o' & I' & E' & J' & M' & D). assert (K : m' = m) by (eapply (distinct_messages f DN); try eassumption; destruct D as [->| ->]; exact O). subst m'.
    destruct (member_error m x o M) as [G S]. destruct (member_error m x' o' M') as [G' S']. destruct D as [->| ->].
    + apply (append_inj "Get") in N. rewrite (distinct_groups f DN m o' o _ _ I G' G S' S N). reflexivity.
    + apply (append_inj "Get") in N. exfalso. eapply (distinct_getters f DN m x' (group m o) I J'); [eapply nth_error_In, G|exact S|exact N].
Qed.
Lemma find_member : forall m x o, In m (nx_messages f) -> nm_entry m = false -> In x (nm_fields m) -> member m x = Some o ->
  find_method (nm_ident m) ("Get" ++ nf_name x) ds = Some (member_getter (T m) (group m o) (to_field X m x)).
Proof.
  intros m x o I E J M. apply (find_unique (member_getter (T m) (group m o) (to_field X m x)) ds).
  - apply (message_in m _ I). unfold message_decls. cbn [g_mapentry to_message]. rewrite E. right. apply in_app_iff. left. eapply (getters_member m (nm_fields m) [] x o (IN m I)); [apply incl_refl|exact J|exact M].
  - intros me D O N. apply method_inv in D. destruct D as (m' & x' & o' & I' & E' & J' & M' & D). assert (K : m' = m) by (eapply (distinct_messages f DN); try eassumption; destruct D as [->| ->]; exact O). subst m'.
    destruct (member_error m x' o' M') as [G' S']. destruct D as [->| ->].
    + apply (append_inj "Get") in N. exfalso. eapply (distinct_getters f DN m x (group m o') I J); [eapply nth_error_In, G'|exact S'|symmetry; exact N].
    + apply (append_inj "Get") in N. cbn [x_name to_field] in N. assert (x' = x) by (eapply (distinct_fields f DN m); eassumption). subst x'. rewrite M in M'. injection M' as ->. reflexivity.
Qed.

(** ** Calls *)
Lemma interface_other : forall g, is_interface scope g = true -> type_of scope g = TOther.
Proof.
  intros [n| | | | | | |] E; try discriminate E. cbn [is_interface type_of] in *. unfold name_type. destruct (scalar_name n); [discriminate E|]. destruct (scope n); [discriminate E|discriminate E|reflexivity].
Qed.
Lemma is_scalar : forall n, scalar_name (oneofInterfaceName n) = None.
Proof. reflexivity. Qed.
Lemma interface_type : forall m o, In m X -> In (group m o) (nm_oneofs m) ->
  parse_type (oneofInterfaceName (group m o)) = Some (GName (oneofInterfaceName (group m o))) /\ is_interface scope (GName (oneofInterfaceName (group m o))) = true.
Proof.
  intros m o I J. destruct (scope_oneof _ _ SC m _ I J) as [A B]. split; [|cbn [is_interface]; rewrite is_scalar, B; reflexivity].
  apply parses_type, parses_name. unfold oneofInterfaceName, identifier in *. apply andb_true_iff in A. destruct A as [_ A]. cbn [append all_ident]. rewrite A. reflexivity.
Qed.
Lemma call_oneof : forall d m x o p, In m (nx_messages f) -> nm_entry m = false -> In x (nm_fields m) -> member m x = Some o ->
  call scope consts ds (S d) (nm_ident m) ("Get" ++ n_name (group m o)) p = Returns (held p (group m o)).
Proof.
  intros d m x o p I E J M. destruct (member_error m x o M) as [G _]. destruct (interface_type m o (IN m I) (nth_error_In _ _ G)) as [PT II].
  cbn [call]. rewrite (find_oneof m x o I E J M). cbn [result var mbody oneof_getter]. rewrite PT. cbn [run]. unfold bind at 1. cbn [String.eqb Ascii.eqb Bool.eqb].
  destruct p as [s|]; cbn [held].
  - cbn [value]. unfold bind. cbn [String.eqb Ascii.eqb Bool.eqb]. reflexivity.
  - cbn [value]. unfold constant. rewrite II. reflexivity.
Qed.
Lemma ident_token : forall s t, identifier s = true -> In t (tokens s) -> String.eqb "(" t = false.
Proof.
  intros s t I J. unfold identifier in I. apply andb_true_iff in I. destruct I as [_ A]. apply all_ident_calm in A. apply tokens_chars in A. rewrite Forall_forall in A. specialize (A t J).
  destruct (String.eqb_spec "(" t) as [<-|]; [discriminate A|reflexivity].
Qed.
Lemma like_select : forall ts, match ts with [_; _; _] => False | _ => True end -> as_expr ts = Other ts.
Proof.
  intros ts L. unfold as_expr. destruct ts as [|a [|b [|c [|d ts]]]]; try reflexivity; [|destruct L|].
  - cbn [like option_map]. destruct (String.eqb "." b); reflexivity.
  - cbn [like option_map]. destruct (String.eqb "." b); reflexivity.
Qed.
Lemma range_ok : forall z, (-2147483648 <= z <= 2147483647)%Z -> int32_value (TScalar KInt32) z = Some (Plain (VI32 z)).
Proof. intros z R. unfold int32_value. replace ((-2147483648 <=? z)%Z && (z <=? 2147483647)%Z) with true by lia. reflexivity. Qed.
Lemma default_value : forall m x o g e, In m (nx_messages f) -> In x (nm_fields m) -> member m x = Some o -> d_weak (nf_desc x) = false -> good_first consts x ->
  type_of scope g = fst (fst (fieldGoType F (nf_desc x))) -> value scope consts e (as_expr (tokens (defaultText X x))) g = Returns (Plain (default_of x)).
Proof.
  intros m x o g e I J M W GF T0. destruct (SFx m x I J) as (_ & _ & NF1). apply IN in I. apply member_in in M. destruct M as (_ & DO & _).
  pose proof (valid_x X V m x I J) as VX. unfold valid_field in VX. rewrite DO in VX. split_bools.
  assert (CO : d_card (nf_desc x) = CardOptional) by (destruct (d_card (nf_desc x)); [reflexivity| |]; discriminate).
  assert (ML : is_list F (nf_desc x) = false) by (unfold is_list; rewrite CO; reflexivity).
  assert (MM : is_map F (nf_desc x) = false).
  { unfold is_map. destruct (d_kind (nf_desc x)) eqn:K; try reflexivity. rewrite CO in *. cbn [refers andb] in *. unfold is_entry in *. unfold message_of.
    match goal with Q : negb match nth_error F (d_message (nf_desc x)) with _ => _ end = true |- _ => apply negb_true_iff in Q; destruct (nth_error F (d_message (nf_desc x))) as [mm|] eqn:EN; [rewrite (nth_error_nth _ _ _ EN); exact Q|] end.
    rewrite nth_overflow by (apply nth_error_None, EN). reflexivity. }
  unfold fieldGoType, plainGoType in T0. rewrite W, MM, ML in T0. rewrite (kindGoType_fst (nf_desc x)) in T0 || idtac.
  unfold defaultText. rewrite ML. unfold default_of. unfold kindGoType in T0.
  assert (II : type_of scope g <> TOther -> is_interface scope g = false).
  { intros Q. destruct (is_interface scope g) eqn:IG; [|reflexivity]. apply interface_other in IG. contradiction. }
  destruct (d_kind (nf_desc x)) eqn:K; cbn [fst snd] in T0;
    try (change (as_expr (tokens "0")) with (Other ["0"]); cbn [value]; unfold constant; rewrite T0; reflexivity).
  - change (as_expr (tokens "false")) with (Other ["false"]). cbn [value]. unfold constant. rewrite T0. reflexivity.
  - destruct (GF K) as [RG HERE]. destruct (nf_first_here x).
    + destruct (HERE eq_refl) as (C & N1 & N2 & N3). rewrite (tokens_name _ NF1), like_select by exact Logic.I. cbn [value]. unfold constant.
      rewrite (proj2 (String.eqb_neq _ _) N1), (proj2 (String.eqb_neq _ _) N2), (proj2 (String.eqb_neq _ _) N3), C, T0, range_ok by exact RG. reflexivity.
    + destruct (scope_enum _ _ SC m x I J K) as [TN SE]. pose proof (spells_enum scope _ TN SE) as (ge & PE & TE & _). apply type_name_spec in TN. destruct TN as (ID & _ & _).
      pose proof (word_spaceless _ (identifier_word _ ID)) as SP.
      assert (TK : tokens (nf_enum x ++ "(" ++ fmt_d (nf_first_number x) ++ ")") = (tokens (nf_enum x) ++ "(" :: tokens (fmt_d (nf_first_number x)) ++ [")"])%list).
      { change ("(" ++ fmt_d (nf_first_number x) ++ ")") with (String "(" (fmt_d (nf_first_number x) ++ String ")" "")). rewrite tokens_split by reflexivity. rewrite tokens_cons by reflexivity.
        rewrite tokens_split by reflexivity. reflexivity. }
      rewrite TK. destruct (fmt_calm (nf_first_number x)) as [FC FN]. pose proof (fmt_spaceless (nf_first_number x)) as FS.
      assert (NE1 : tokens (nf_enum x) <> []) by (apply tokens_nonempty; [exact SP|apply identifier_calm, ID]). assert (NE2 : tokens (fmt_d (nf_first_number x)) <> []) by (apply tokens_nonempty; assumption).
      set (ts := (tokens (nf_enum x) ++ "(" :: tokens (fmt_d (nf_first_number x)) ++ [")"])%list).
      assert (LT : exists a b c d r, ts = a :: b :: c :: d :: r).
      { unfold ts. destruct (tokens (nf_enum x)) as [|a t1]; [contradiction|]. destruct (tokens (fmt_d (nf_first_number x))) as [|b t2]; [contradiction|].
        destruct t1 as [|c1 [|c2 [|c3 t1]]]; [destruct t2 as [|d1 t2]| | |]; cbn [app]; repeat eexists. }
      rewrite like_select by (destruct LT as (a & b & c & d & r & ->); exact Logic.I). cbn [value].
      replace (constant scope consts ts g) with (conversion scope ts (type_of scope g)) by (unfold constant; destruct LT as (a & b & c & d & r & ->); reflexivity).
      unfold conversion, ts. rewrite until_app by (apply Forall_forall; intros t It; eapply ident_token; eassumption).
      rewrite until_app. 2: { apply tokens_chars in FC. eapply Forall_impl; [|exact FC]. intros t At. destruct (String.eqb_spec ")" t) as [<-|]; [discriminate At|reflexivity]. }
      unfold type_text. rewrite !text_tokens by assumption. rewrite (parses_type _ _ PE). cbn [option_map]. rewrite TE, T0, number_fmt, range_ok by exact RG. reflexivity.
  - change (as_expr (tokens (String (chr 34) (String (chr 34) "")))) with (Other quotes). cbn [value]. unfold constant, quotes. rewrite T0. reflexivity.
  - change (as_expr (tokens "nil")) with (Other ["nil"]). cbn [value]. unfold constant. rewrite II by (rewrite T0; discriminate). rewrite T0. reflexivity.
  - change (as_expr (tokens "nil")) with (Other ["nil"]). cbn [value]. unfold constant. rewrite II by (rewrite T0; discriminate). rewrite T0. reflexivity.
  - change (as_expr (tokens "nil")) with (Other ["nil"]). cbn [value]. unfold constant. rewrite II by (rewrite T0; discriminate). rewrite T0. reflexivity.
Qed.
Lemma call_member : forall d m x o p, In m (nx_messages f) -> nm_entry m = false -> In x (nm_fields m) -> member m x = Some o -> d_weak (nf_desc x) = false -> good_first consts x -> wraps (held p (group m o)) ->
  call scope consts ds (S (S d)) (nm_ident m) ("Get" ++ nf_name x) p = member_value (held p (group m o)) x.
Proof.
  intros d m x o p I E J M W GF WR. pose proof (call_oneof d m x o p I E J M) as CO.
  change (call scope consts ds (S (S d)) (nm_ident m) ("Get" ++ nf_name x) p) with
    (match find_method (nm_ident m) ("Get" ++ nf_name x) ds with
     | Some me => match parse_type (result me) with Some r => run scope consts (call scope consts ds (S d)) (bind (var me) (nm_ident m) p (fun _ => None)) r (mbody me) | None => Stuck end
     | None => Stuck
     end).
  rewrite (find_member m x o I E J M). cbn [result var mbody member_getter x_type to_field]. destruct (spells_type X scope SC V m x (IN m I) J) as (g & PG & TG & _). rewrite (parses_type _ _ PG).
  cbn [run x_ident x_name x_default to_field]. unfold bind at 1. cbn [String.eqb Ascii.eqb Bool.eqb]. rewrite CO.
  unfold member_value. destruct (held p (group m o)) as [v| |w q]; [destruct WR| |].
  - cbn [run]. apply (default_value m x o g _ I J M W GF TG).
  - rewrite (String.eqb_sym w (nf_ident x)). destruct (String.eqb (nf_ident x) w).
    + cbn [value]. unfold bind. cbn [String.eqb Ascii.eqb Bool.eqb]. reflexivity.
    + cbn [run]. apply (default_value m x o g _ I J M W GF TG).
Qed.
Lemma getters_proof : forall m x o, In m (nx_messages f) -> nm_entry m = false -> In x (nm_fields m) -> member m x = Some o -> d_weak (nf_desc x) = false -> good_first consts x ->
  exists decls, go_decls (GenerateText X f) = Some decls /\ forall p depth, wraps (held p (nth o (nm_oneofs m) no_oneof)) -> (2 <= depth)%nat ->
    call scope consts decls depth (nm_ident m) ("Get" ++ n_name (nth o (nm_oneofs m) no_oneof)) p = Returns (held p (nth o (nm_oneofs m) no_oneof)) /\
    call scope consts decls depth (nm_ident m) ("Get" ++ nf_name x) p = member_value (held p (nth o (nm_oneofs m) no_oneof)) x.
Proof.
  intros m x o I E J M W GF. exists ds. split; [exact file_declares|]. intros p [|[|d]] WR D; [lia|lia|]. split; [exact (call_oneof (S d) m x o p I E J M)|exact (call_member d m x o p I E J M W GF WR)].
Qed.

(** ** Interfaces *)
Lemma interface_inv : forall i fs, In (Interface i fs) ds -> exists m o n, In m (nx_messages f) /\ nm_entry m = false /\ nth_error (nm_oneofs m) o = Some n /\ n_synthetic n = false /\ i = oneofInterfaceName n /\ fs = [oneofInterfaceName n].
Proof.
  intros i fs D. apply decl_inv in D. destruct D as [(p & D)|[(k & a & q & D)|[(cs & D)|(m & I & E & D)]]]; try discriminate D. unfold message_decls in D. cbn [g_mapentry to_message] in D. rewrite E in D.
  destruct D as [D|D]; [discriminate D|]. apply in_app_iff in D. destruct D as [D|D].
  - apply getters_inv in D; [|apply IN, I|apply incl_refl]. destruct D as (x & o & _ & _ & [D|D]); discriminate D.
  - apply oneofs_inv in D. destruct D as (k & n & En & D). apply wrapper_inv in D; [|apply IN, I|exact En]. destruct D as (S & [D|(x & _ & _ & [D|D])]); try discriminate D. injection D as -> ->.
    exists m, k, n. auto 10.
Qed.
Lemma marker_inv : forall t i, In (Marker t i) ds -> exists m o n x, In m (nx_messages f) /\ nm_entry m = false /\ nth_error (nm_oneofs m) o = Some n /\ n_synthetic n = false /\ In x (nm_fields m) /\ member m x = Some o /\
  t = nf_ident x /\ i = oneofInterfaceName n.
Proof.
  intros t i D. apply decl_inv in D. destruct D as [(p & D)|[(k & a & q & D)|[(cs & D)|(m & I & E & D)]]]; try discriminate D. unfold message_decls in D. cbn [g_mapentry to_message] in D. rewrite E in D.
  destruct D as [D|D]; [discriminate D|]. apply in_app_iff in D. destruct D as [D|D].
  - apply getters_inv in D; [|apply IN, I|apply incl_refl]. destruct D as (x & o & _ & _ & [D|D]); discriminate D.
  - apply oneofs_inv in D. destruct D as (k & n & En & D). pose proof D as D0. apply wrapper_inv in D; [|apply IN, I|exact En]. destruct D as (S & [D|(x & Ix & Mx & [D|D])]); try discriminate D. injection D as -> ->.
    exists m, k, n, x. auto 12.
Qed.
Lemma oneofs_in : forall m ns o k n d, nth_error ns k = Some n -> In d (wrapper_decls (T m) (o + k) n) -> In d (oneofs_decls (T m) o ns).
Proof.
  intros m. induction ns as [|n0 ns IH]; intros o k n d E D; [destruct k; discriminate E|]. cbn [oneofs_decls]. apply in_app_iff. destruct k as [|k].
  - injection E as ->. left. rewrite Nat.add_0_r in D. exact D.
  - right. apply (IH (S o) k n d E). replace (S o + k) with (o + S k) by lia. exact D.
Qed.
Lemma wrapper_in : forall m o n d, In m (nx_messages f) -> nm_entry m = false -> nth_error (nm_oneofs m) o = Some n -> In d (wrapper_decls (T m) o n) -> In d ds.
Proof.
  intros m o n d I E En D. apply (message_in m d I). unfold message_decls. cbn [g_mapentry to_message]. rewrite E. right. apply in_app_iff. right. exact (oneofs_in m (nm_oneofs m) 0 o n d En D).
Qed.
Lemma implements_proof : forall m o n, In m (nx_messages f) -> nm_entry m = false -> nth_error (nm_oneofs m) o = Some n -> n_synthetic n = false ->
  exists decls, go_decls (GenerateText X f) = Some decls /\
  forall t, implements decls t ("is" ++ n_ident n) <-> exists x, In x (nm_fields m) /\ member m x = Some o /\ t = nf_ident x.
Proof.
  intros m o n I E En S. exists ds. split; [exact file_declares|]. intros t. split.
  - intros (fs & D & H). apply interface_inv in D. destruct D as (m' & o' & n' & I' & E' & En' & S' & Ei & ->).
    destruct (H _ (or_introl eq_refl)) as [D|(me & D & Ht & Hn)].
    + apply marker_inv in D. destruct D as (m2 & o2 & n2 & x & I2 & E2 & En2 & S2 & J & M & -> & Ej). rewrite <- Ei in Ej. apply (append_inj "is") in Ej.
      destruct (distinct_oneofs f DN m m2 o o2 n n2 I I2 En En2 S S2 Ej) as [<- <-]. exists x. auto.
    + exfalso. apply method_inv in D. destruct D as (m2 & x & o2 & _ & _ & _ & _ & [-> | ->]); discriminate Hn.
  - intros (x & J & M & ->). exists [oneofInterfaceName n]. split.
    + apply (wrapper_in m o n _ I E En). unfold wrapper_decls. rewrite S. left. reflexivity.
    + intros g [<-|[]]. left. apply (wrapper_in m o n _ I E En). unfold wrapper_decls. rewrite S. right. apply in_app_iff. right. apply in_flat_map. exists (to_field X m x).
      split; [|left; reflexivity]. rewrite (members_text X m o n (IN m I) En S). apply in_map, filter_In. split; [exact J|]. rewrite M. apply Nat.eqb_refl.
Qed.
End X.
