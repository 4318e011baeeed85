(** The declarations of a generated file. *)
From Coq Require Import String Ascii DecimalString.
From Verif Require Import Base GoType StructTag SpecStructTag StructTagFacts ErrText GenText SpecText TextFacts TextThms SpecGo SpecDesc GoFacts GoText GoParse SpecDecl SpecMethods DeclFacts.
Local Open Scope string_scope.

Definition oneof_getter (m : tmsg) (n : toneof) : method :=
  {| on := g_ident m; var := "m"; mname := "Get" ++ n_name n; result := oneofInterfaceName n;
     mbody := [ReturnIf (NotNil "m") (Select "m" (n_name n)); Return (Other ["nil"])] |}.
Definition member_getter (m : tmsg) (n : toneof) (x : tfield) : method :=
  {| on := g_ident m; var := "x"; mname := "Get" ++ x_name x; result := x_type x;
     mbody := [ReturnIf (Holds "x" "x" ("Get" ++ n_name n) (x_ident x)) (Select "x" (x_name x)); Return (as_expr (tokens (x_default x)))] |}.
Definition getter_decls (m : tmsg) (b : list tfield) (x : tfield) : list decl :=
  match member_of m x with
  | Some o =>
    let n := nth o (g_groups m) no_oneof in
    ((if first_of b o then [Method (oneof_getter m n)] else []) ++ [Method (member_getter m n x)])%list
  | None => []
  end.
Fixpoint getters_decls (m : tmsg) (b xs : list tfield) : list decl :=
  match xs with [] => [] | x :: xs => (getter_decls m b x ++ getters_decls m (b ++ [x]) xs)%list end.
Definition wrapper_decls (m : tmsg) (o : nat) (n : toneof) : list decl :=
  if n_synthetic n then []
  else (Interface (oneofInterfaceName n) [oneofInterfaceName n] ::
        flat_map (fun x => [Struct (x_ident x)]) (members m o) ++ flat_map (fun x => [Marker (x_ident x) (oneofInterfaceName n)]) (members m o))%list.
Fixpoint oneofs_decls (m : tmsg) (o : nat) (ns : list toneof) : list decl :=
  match ns with [] => [] | n :: ns => (wrapper_decls m o n ++ oneofs_decls m (S o) ns)%list end.
Definition message_decls (m : tmsg) : list decl :=
  if g_mapentry m then [] else (Struct (g_ident m) :: getters_decls m [] (g_fields m) ++ oneofs_decls m 0 (g_groups m))%list.
Definition enum_decls (e : tenum) : list decl :=
  [Forward "type" (e_ident e) "int32"; Consts (map (fun v => (v_ident v, e_ident e, v_number v)) (e_vals e))].
Definition import_decls (i : timport) : list decl := flat_map (fun f => let '(tok, a, q) := f in [Forward tok a q]) (i_forwards i).
Definition file_decls (f : tfile) : list decl :=
  (Package (f_package f) :: flat_map import_decls (f_public f) ++ flat_map enum_decls (f_allEnums f) ++ flat_map message_decls (f_allMessages f))%list.

(** What is needed of names. *)
Definition plain_field (x : tfield) : Prop := name (x_name x) = true /\ name (x_ident x) = true /\ x_tags x <> [] /\ leafy ("return " ++ x_default x) = true.
Definition plain_message (m : tmsg) : Prop :=
  name (g_ident m) = true /\ (forall x, In x (g_fields m) -> plain_field x) /\ (forall n, In n (g_groups m) -> simple_oneof n = true).

Lemma tags_leafy : forall a ts, ts <> [] -> leafy (a ++ tagsString ts) = true.
Proof.
  intros a [|t ts] N; [contradiction|]. unfold tagsString. eapply leafy_app with (d := backtick); [|reflexivity].
  change (String backtick (joinTags (t :: ts) ++ str1 backtick)) with (String backtick (joinTags (t :: ts)) ++ String backtick ""). rewrite last_app. reflexivity.
Qed.
Lemma app_ne : forall a b, b <> "" -> a ++ b <> "".
Proof. intros [|c a] b N; [exact N|discriminate]. Qed.
Ltac ends := repeat (rewrite closer_app by (repeat apply app_ne; discriminate)); reflexivity.
Lemma grows_lines : forall ls, Forall (fun l => leafy l = true) ls -> grows ls (map Line ls).
Proof. induction 1; [exact grows_nil|]. cbn [map]. apply grows_cons; assumption. Qed.
Lemma as_struct : forall n ns, name n = true -> as_block (tokens ("type " ++ n ++ " struct {")) ns = Some (Struct n).
Proof.
  intros n ns N. replace (tokens ("type " ++ n ++ " struct {")) with ["type"; n; "struct"; "{"]; [reflexivity|].
  change ("type " ++ n ++ " struct {") with ("type" ++ String space (n ++ String space ("struct" ++ String space (String "{" "")))). toks. reflexivity.
Qed.
(** A struct in the text. *)
Lemma gives_struct : forall h n a ls, shows h ["type " ++ n ++ " struct {"] -> name n = true -> shows a ls -> Forall (fun l => leafy l = true) ls ->
  gives (h ++ a ++ P ["}"]) [Struct n].
Proof.
  intros h n a ls H N A F. eapply gives_block with (h := "type " ++ n ++ " struct {") (c := "}") (ls := ls).
  - apply (shows_app _ ["type " ++ n ++ " struct {"]); [exact H|]. apply shows_app; [exact A|]. apply (shows_line ["}"]); [parts|reflexivity|reflexivity].
  - ends.
  - apply grows_lines, F.
  - apply as_struct, N.
Qed.

Section M.
Variable m : tmsg.
Hypothesis G : good_message m = true.
Hypothesis Q : plain_message m.
Lemma QI : name (g_ident m) = true.
Proof. apply Q. Qed.
Lemma QF : forall x, In x (g_fields m) -> plain_field x.
Proof. apply Q. Qed.
Lemma QO : forall n, In n (g_groups m) -> name (n_name n) = true /\ name (n_ident n) = true.
Proof. intros n I. apply Q in I. unfold simple_oneof in I. apply andb_true_iff in I. exact I. Qed.
Lemma fields_leafy : forall xs b, incl xs (g_fields m) -> Forall (fun l => leafy l = true) (fields_code m b xs).
Proof.
  induction xs as [|x xs IH]; intros b I; [constructor|]. cbn [fields_code]. apply Forall_app. split; [|apply IH; intros y Iy; apply I; right; exact Iy].
  unfold field_code. destruct (member_of m x).
  - destruct (first_of b n); [|constructor]. repeat constructor. set (y := nth n _ _). change (n_name y ++ String space (oneofInterfaceName y ++ tagsString (oneofTags (n_desc y) (g_tracked m))))
      with (n_name y ++ (" " ++ oneofInterfaceName y) ++ tagsString (oneofTags (n_desc y) (g_tracked m))). rewrite <- app_assoc_s. apply tags_leafy. discriminate.
  - repeat constructor. change (x_name x ++ String space (ftype x ++ tagsString (x_tags x))) with (x_name x ++ (" " ++ ftype x) ++ tagsString (x_tags x)). rewrite <- app_assoc_s. apply tags_leafy.
    destruct (QF x) as (_ & _ & T & _); [apply I; left; reflexivity|exact T].
Qed.
Lemma struct_gives : gives (P [lead (g_doc m); "type "; g_ident m; " struct {"] ++ fields_text m ++ P ["}"]) [Struct (g_ident m)].
Proof.
  eapply gives_struct with (ls := (fields_code m [] (g_fields m) ++ (if g_comparable m then [marker] else []))%list); [exact (start_shows m G)|exact QI| |].
  - unfold fields_text. apply shows_app; [apply (over_shows m G), incl_refl|]. destruct (g_comparable m); [|apply shows_nil].
    apply (emits_shows _ [marker] []). apply (code_line False ["_ [0]func()"]); [parts|reflexivity|reflexivity].
  - apply Forall_app. split; [apply fields_leafy, incl_refl|]. destruct (g_comparable m); repeat constructor.
Qed.
Lemma pragma_gives : forall t, gives (pragma t) [].
Proof. intros [|]; [|apply gives_nil]. unfold pragma. apply gives_skip; [exact (gives_comment "go:nointerface" eq_refl)|apply gives_empty]. Qed.
Lemma return_select : forall x f, name x = true -> name f = true -> as_return ("return " ++ x ++ String "." f) = Some (Select x f).
Proof.
  intros x f X F. unfold as_return. change ("return " ++ x ++ String "." f) with ("return" ++ String space (x ++ String "." f)). toks. reflexivity.
Qed.
Lemma oneof_getter_gives : forall n, In n (g_groups m) ->
  gives (String.concat "" [P ["func (m *"; g_ident m; ") Get"; n_name n; "() "; oneofInterfaceName n; " {"];
          P ["if m != nil {"]; P ["return m."; n_name n]; P ["}"]; P ["return nil"]; P ["}"]; P []]) [Method (oneof_getter m n)].
Proof.
  intros n I. pose proof (GO m G n I) as N. pose proof (oneof_name_word _ N) as W. destruct (QO n I) as [N1 N2]. pose proof QI as Ni. pose proof (GI m G) as Gi. unfold good_oneof in N. split_bools.
  assert (NI : name (oneofInterfaceName n) = true) by (apply name_app; [reflexivity|exact N2]).
  rewrite !concat_cons. cbn [String.concat].
  match goal with |- gives (?a ++ ?b ++ ?c ++ ?d ++ ?e ++ ?f ++ ?g ++ "") _ => replace (a ++ b ++ c ++ d ++ e ++ f ++ g ++ "") with ((a ++ b ++ c ++ d ++ e ++ f) ++ g) by (rewrite !app_assoc_s, app_nil_s; reflexivity) end.
  apply gives_then; [|apply gives_empty].
  eapply gives_block with (h := "func (m *" ++ g_ident m ++ ") Get" ++ n_name n ++ "() " ++ oneofInterfaceName n ++ " {") (c := "}") (ls := ["if m != nil {"; "return m." ++ n_name n; "}"; "return nil"]).
  - cbn [app]. apply (shows_app _ [_]); [|apply (shows_app _ [_]); [|apply (shows_app _ [_]); [|apply (shows_app _ [_]); [|apply (shows_app _ [_] _ [_])]]]].
    + replace ("func (m *" ++ g_ident m ++ ") Get" ++ n_name n ++ "() " ++ oneofInterfaceName n ++ " {") with (String.concat "" ["func (m *"; g_ident m; ") Get"; n_name n; "() "; oneofInterfaceName n; " {"])
        by (rewrite !concat_cons; reflexivity). apply shows_line; [parts|inked|begun].
    + apply (shows_line ["if m != nil {"]); [parts|reflexivity|reflexivity].
    + apply (shows_line ["return m."; n_name n]); [parts|reflexivity|reflexivity].
    + apply (shows_line ["}"]); [parts|reflexivity|reflexivity].
    + apply (shows_line ["return nil"]); [parts|reflexivity|reflexivity].
    + apply (shows_line ["}"]); [parts|reflexivity|reflexivity].
  - ends.
  - apply (grows_app ["if m != nil {"; "return m." ++ n_name n; "}"] [Block "if m != nil {" [Line ("return m." ++ n_name n)]] ["return nil"] [Line "return nil"]); [|apply grows_line; reflexivity].
    apply (grows_block "if m != nil {" "}" ["return m." ++ n_name n]); [reflexivity|]. apply grows_line, leafy_name, N1.
  - change ("func (m *" ++ g_ident m ++ ") Get" ++ n_name n ++ "() " ++ oneofInterfaceName n ++ " {") with
      ("func" ++ String space (String "(" ("m" ++ String space (String "*" (g_ident m ++ String ")" (String space (("Get" ++ n_name n) ++ String "(" (String ")" (String space (oneofInterfaceName n ++ String space (String "{" ""))))))))))).
    toks. change (tokens "") with (@nil string). unfold as_block. cbn [like one String.eqb Ascii.eqb Bool.eqb]. unfold as_method. cbn [like one String.eqb Ascii.eqb Bool.eqb option_map rev app].
    pose proof (return_select "m" (n_name n) eq_refl N1) as R. cbn [each as_stmt option_map].
    change (as_return ("return m." ++ n_name n)) with (as_return ("return " ++ "m" ++ String "." (n_name n))). rewrite R. reflexivity.
Qed.
Lemma cond_holds : forall f w, name f = true -> name w = true -> as_cond ("if x, ok := x." ++ f ++ "().(*" ++ w ++ "); ok {") = Some (Holds "x" "x" f w).
Proof.
  intros f w F W. unfold as_cond.
  change ("if x, ok := x." ++ f ++ "().(*" ++ w ++ "); ok {") with
    ("if" ++ String space ("x" ++ String "," (String space ("ok" ++ String space (String ":" (String "=" (String space ("x" ++ String "." (f ++ String "(" (String ")" (String "." (String "(" (String "*" (w ++
      String ")" (String ";" (String space ("ok" ++ String space (String "{" "")))))))))))))))))). toks. reflexivity.
Qed.
Lemma member_getter_gives : forall n x, In n (g_groups m) -> In x (g_fields m) ->
  gives (String.concat "" [P [Comments (appendDeprecationSuffix "" (deprecated (x_doc x)));
          "func (x *"; g_ident m; ") Get"; x_name x; "() "; x_type x; " {"];
          P ["if x, ok := x.Get"; n_name n; "().(*"; x_ident x; "); ok {"];
          P ["return x."; x_name x]; P ["}"]; P ["return "; x_default x]; P ["}"]]) [Method (member_getter m n x)].
Proof.
  intros n x I J. pose proof (GO m G n I) as N. pose proof (GF m G x J) as Gx. destruct (QO n I) as [N1 N2]. destruct (QF x J) as (X1 & X2 & _ & X3). pose proof QI as Ni. pose proof (GI m G) as Gi.
  unfold good_oneof in N. unfold good_field in Gx. split_bools.
  assert (NI : name ("Get" ++ n_name n) = true) by (apply name_app; [reflexivity|exact N1]).
  rewrite !concat_cons. cbn [String.concat]. rewrite app_nil_s.
  set (h := "func (x *" ++ g_ident m ++ ") Get" ++ x_name x ++ "() " ++ x_type x ++ " {"). set (c := "if x, ok := x." ++ ("Get" ++ n_name n) ++ "().(*" ++ x_ident x ++ "); ok {").
  eapply gives_block with (h := h) (c := "}") (ls := [c; "return x." ++ x_name x; "}"; "return " ++ x_default x]).
  - cbn [app]. apply (shows_app _ [_]); [|apply (shows_app _ [_]); [|apply (shows_app _ [_]); [|apply (shows_app _ [_]); [|apply (shows_app _ [_] _ [_])]]]].
    + replace h with (String.concat "" ["func (x *"; g_ident m; ") Get"; x_name x; "() "; x_type x; " {"]) by (rewrite !concat_cons; reflexivity). apply shows_doc; [parts|inked|begun].
    + replace c with (String.concat "" ["if x, ok := x.Get"; n_name n; "().(*"; x_ident x; "); ok {"]) by (rewrite !concat_cons; reflexivity). apply shows_line; [parts|inked|begun].
    + apply (shows_line ["return x."; x_name x]); [parts|reflexivity|reflexivity].
    + apply (shows_line ["}"]); [parts|reflexivity|reflexivity].
    + apply (shows_line ["return "; x_default x]); [parts|reflexivity|reflexivity].
    + apply (shows_line ["}"]); [parts|reflexivity|reflexivity].
  - unfold h. ends.
  - apply (grows_app [c; "return x." ++ x_name x; "}"] [Block c [Line ("return x." ++ x_name x)]] ["return " ++ x_default x] [Line ("return " ++ x_default x)]); [|apply grows_line, X3].
    apply (grows_block c "}" ["return x." ++ x_name x]); [unfold c; ends|]. apply grows_line, leafy_name, X1.
  - replace (tokens h) with ("func" :: "(" :: "x" :: "*" :: g_ident m :: ")" :: ("Get" ++ x_name x) :: "(" :: ")" :: app (tokens (x_type x)) ["{"]).
    2: { unfold h. change ("func (x *" ++ g_ident m ++ ") Get" ++ x_name x ++ "() " ++ x_type x ++ " {") with
      ("func" ++ String space (String "(" ("x" ++ String space (String "*" (g_ident m ++ String ")" (String space (("Get" ++ x_name x) ++ String "(" (String ")" (String space (x_type x ++ String space (String "{" ""))))))))))).
      toks. rewrite (tokens_split (x_type x)) by reflexivity. toks. reflexivity. }
    unfold as_block. cbn [like one String.eqb Ascii.eqb Bool.eqb]. unfold as_method. cbn [like one String.eqb Ascii.eqb Bool.eqb option_map].
    rewrite rev_app_distr. cbn [rev app String.eqb Ascii.eqb Bool.eqb]. rewrite rev_involutive, text_tokens by (apply word_spaceless; assumption).
    pose proof (return_select "x" (x_name x) eq_refl X1) as R. pose proof (cond_holds _ _ NI X2) as C. cbn [each as_stmt option_map]. fold c in C. rewrite C.
    change (as_return ("return x." ++ x_name x)) with (as_return ("return " ++ "x" ++ String "." (x_name x))). rewrite R.
    replace (as_return ("return " ++ x_default x)) with (Some (as_expr (tokens (x_default x)))); [reflexivity|].
    unfold as_return. change ("return " ++ x_default x) with ("return" ++ String space (x_default x)). toks. reflexivity.
Qed.
Lemma getter_gives : forall b x, In x (g_fields m) -> gives (getter_text m b x) (getter_decls m b x).
Proof.
  intros b x I. unfold getter_text, getter_decls. apply gives_skip; [apply pragma_gives|]. apply gives_then; [|apply gives_empty].
  destruct (member_of m x) as [o|] eqn:M; [|apply gives_nil]. pose proof (member_group _ _ _ M) as Gr.
  apply gives_app; [destruct (first_of b o); [apply oneof_getter_gives, Gr|apply gives_nil]|]. apply member_getter_gives; assumption.
Qed.
Lemma getters_give : forall xs b, incl xs (g_fields m) -> gives (over_fields (getter_text m) b xs) (getters_decls m b xs).
Proof.
  induction xs as [|x xs IH]; intros b I; [apply gives_nil|]. cbn [over_fields getters_decls]. apply gives_app; [apply getter_gives, I; left; reflexivity|].
  apply IH. intros y Iy. apply I. right. exact Iy.
Qed.
Lemma wrapper_gives : forall o n, In n (g_groups m) -> gives (wrapper_text m o n) (wrapper_decls m o n).
Proof.
  intros o n I. unfold wrapper_text, wrapper_decls. destruct (n_synthetic n); [apply gives_nil|].
  pose proof (GO m G n I) as N. pose proof (oneof_name_word _ N) as W. destruct (QO n I) as [N1 N2]. unfold good_oneof in N. split_bools.
  assert (NI : name (oneofInterfaceName n) = true) by (apply name_app; [reflexivity|exact N2]).
  assert (MB : forall x, In x (members m o) -> In x (g_fields m)) by (intros x Ix; apply filter_In in Ix; apply Ix).
  apply (gives_app _ [_]); [|apply gives_app].
  - rewrite !concat_cons. cbn [String.concat].
    match goal with |- gives (?a ++ ?b ++ ?c ++ ?d ++ "") _ => replace (a ++ b ++ c ++ d ++ "") with ((a ++ b ++ c) ++ d) by (rewrite !app_assoc_s, app_nil_s; reflexivity) end.
    apply gives_then; [|apply gives_empty].
    eapply gives_block with (h := "type " ++ oneofInterfaceName n ++ " interface {") (c := "}") (ls := [oneofInterfaceName n ++ "()"]).
    + cbn [app]. apply (shows_app _ [_]); [|apply (shows_app _ [_] _ [_])].
      * replace ("type " ++ oneofInterfaceName n ++ " interface {") with (String.concat "" ["type "; oneofInterfaceName n; " interface {"]) by (rewrite !concat_cons; reflexivity).
        apply shows_line; [parts|inked|begun].
      * apply (shows_line [oneofInterfaceName n; "()"]); [parts|inked|begun].
      * apply (shows_line ["}"]); [parts|reflexivity|reflexivity].
    + ends.
    + apply grows_line, leafy_close; [intros E; rewrite E in NI; discriminate NI|left; reflexivity].
    + replace (tokens ("type " ++ oneofInterfaceName n ++ " interface {")) with ["type"; oneofInterfaceName n; "interface"; "{"].
      2: { change ("type " ++ oneofInterfaceName n ++ " interface {") with ("type" ++ String space (oneofInterfaceName n ++ String space ("interface" ++ String space (String "{" "")))). toks. reflexivity. }
      unfold as_block. cbn [like one String.eqb Ascii.eqb Bool.eqb option_map each as_signature].
      replace (tokens (oneofInterfaceName n ++ "()")) with [oneofInterfaceName n; "("; ")"] by (toks; reflexivity). reflexivity.
  - apply gives_map. intros x Ix. apply MB in Ix. pose proof (GF m G x Ix) as Gx. destruct (QF x Ix) as (X1 & X2 & X4 & _). unfold good_field in Gx. split_bools.
    rewrite !concat_cons. cbn [String.concat]. rewrite app_nil_s.
    replace (P ["type "; x_ident x; " struct {"] ++ P [lead (x_doc x); x_name x; " "; x_type x; tagsString (x_tags x); trailingComment (trailing (x_doc x))] ++ P ["}"] ++ P [])
      with ((P ["type "; x_ident x; " struct {"] ++ P [lead (x_doc x); x_name x; " "; x_type x; tagsString (x_tags x); trailingComment (trailing (x_doc x))] ++ P ["}"]) ++ P [])
      by (rewrite !app_assoc_s; reflexivity).
    apply gives_then; [|apply gives_empty]. eapply gives_struct with (ls := [String.concat "" [x_name x; " "; x_type x; tagsString (x_tags x)]]).
    + rewrite <- concat3. apply shows_line; [parts|inked|begun].
    + exact X2.
    + apply (shows_doc_end _ [x_name x; " "; x_type x; tagsString (x_tags x)]); [parts|inked|begun|apply trailing_tail].
    + repeat constructor. rewrite !concat_cons. cbn [String.concat]. rewrite app_nil_s, <- !app_assoc_s. apply tags_leafy. exact X4.
  - apply gives_map. intros x Ix. apply MB in Ix. pose proof (GF m G x Ix) as Gx. destruct (QF x Ix) as (X1 & X2 & _). unfold good_field in Gx. split_bools.
    apply gives_then; [|apply gives_empty]. eapply gives_line; [apply shows_line; [parts|inked|begun]| |].
    + rewrite !concat_cons. cbn [String.concat]. rewrite app_nil_s. rewrite <- !app_assoc_s. apply leafy_close; [|right; reflexivity].
      intros E. apply (f_equal String.length) in E. rewrite !app_assoc_s in E. discriminate E.
    + rewrite !concat_cons. cbn [String.concat]. rewrite app_nil_s.
      change ("func (*" ++ x_ident x ++ ") " ++ oneofInterfaceName n ++ "() {}") with
        ("func" ++ String space (String "(" (String "*" (x_ident x ++ String ")" (String space (oneofInterfaceName n ++ String "(" (String ")" (String space (String "{" (String "}" "")))))))))).
      toks. reflexivity.
Qed.
Lemma oneofs_give : forall ns o, incl ns (g_groups m) -> gives (over_oneofs (wrapper_text m) o ns) (oneofs_decls m o ns).
Proof.
  induction ns as [|n ns IH]; intros o I; [apply gives_nil|]. cbn [over_oneofs oneofs_decls]. apply gives_app; [apply wrapper_gives, I; left; reflexivity|].
  apply IH. intros y Iy. apply I. right. exact Iy.
Qed.
Lemma message_gives : gives (message_text m) (message_decls m).
Proof.
  unfold message_text, message_decls. destruct (g_mapentry m); [apply gives_nil|].
  replace (P [lead (g_doc m); "type "; g_ident m; " struct {"] ++ fields_text m ++ P ["}"] ++ P [] ++ over_fields (getter_text m) [] (g_fields m) ++ over_oneofs (wrapper_text m) 0 (g_groups m))
    with ((P [lead (g_doc m); "type "; g_ident m; " struct {"] ++ fields_text m ++ P ["}"]) ++ P [] ++ over_fields (getter_text m) [] (g_fields m) ++ over_oneofs (wrapper_text m) 0 (g_groups m))
    by (rewrite !app_assoc_s; reflexivity).
  apply (gives_app _ [_]); [exact struct_gives|]. apply gives_skip; [apply gives_empty|]. apply gives_app; [apply getters_give, incl_refl|apply oneofs_give, incl_refl].
Qed.
End M.

Lemma flat_map_one : forall {A B} (f : A -> B) l, flat_map (fun v => [f v]) l = map f l.
Proof. induction l as [|x l IH]; [reflexivity|]. cbn [flat_map map app]. rewrite IH. reflexivity. Qed.
Lemma fmt_spaceless : forall z, spaceless (fmt_d z) = true.
Proof.
  assert (U : forall u, spaceless (NilEmpty.string_of_uint u) = true) by (induction u; cbn; auto).
  intros z. unfold fmt_d, NilZero.string_of_int, NilZero.string_of_uint. destruct (Z.to_int z); destruct d; try reflexivity; apply U.
Qed.
Lemma enum_gives : forall e, good_enum e = true -> simple_enum e = true -> gives (enum_text e) (enum_decls e).
Proof.
  intros e H S. unfold good_enum in H. unfold simple_enum in S. split_bools. unfold enum_text, enum_decls.
  rewrite !concat_app, !concat_cons. cbn [String.concat]. rewrite !app_nil_s, !app_assoc_s.
  apply (gives_app _ [_]).
  - eapply gives_line; [apply shows_doc; [parts|inked|begun]| |].
    + rewrite !concat_cons. cbn [String.concat]. rewrite app_nil_s, <- !app_assoc_s. eapply leafy_app; reflexivity.
    + rewrite !concat_cons. cbn [String.concat]. rewrite app_nil_s.
      change ("type " ++ e_ident e ++ "= int32") with ("type" ++ String space (e_ident e ++ String "=" (String space "int32"))). toks. reflexivity.
  - match goal with |- gives (?a ++ ?b ++ ?c ++ ?d) _ => replace (a ++ b ++ c ++ d) with ((a ++ b ++ c) ++ d) by (rewrite !app_assoc_s; reflexivity) end.
    apply gives_then; [|apply gives_empty].
    set (line := fun v => v_ident v ++ " " ++ e_ident e ++ " = " ++ fmt_d (v_number v)).
    eapply gives_block with (h := "const (") (c := ")") (ls := map line (e_vals e)).
    + apply (shows_app _ ["const ("]); [apply (shows_line ["const ("]); [parts|reflexivity|reflexivity]|]. apply shows_app.
      * rewrite <- (flat_map_one line (e_vals e)).
        apply shows_map. intros v Iv. match goal with E : forallb good_value _ = true |- _ => rewrite forallb_forall in E; specialize (E v Iv); unfold good_value in E end.
        replace (line v) with (String.concat "" [v_ident v; " "; e_ident e; " = "; fmt_d (v_number v)]) by (rewrite !concat_cons; cbn [String.concat]; rewrite app_nil_s; reflexivity).
        apply (shows_doc_end _ [v_ident v; " "; e_ident e; " = "; fmt_d (v_number v)]); [parts|inked|begun|apply trailing_tail].
      * apply (shows_line [")"]); [parts|reflexivity|reflexivity].
    + reflexivity.
    + apply grows_lines. apply Forall_forall. intros l Il. apply in_map_iff in Il. destruct Il as (v & <- & _). unfold line. rewrite <- !app_assoc_s. destruct (fmt_calm (v_number v)). apply leafy_chars; assumption.
    + unfold as_block. change (tokens "const (") with ["const"; "("]. cbn [like one String.eqb Ascii.eqb Bool.eqb].
      replace (each as_const (map Line (map line (e_vals e)))) with (Some (map (fun v => (v_ident v, e_ident e, v_number v)) (e_vals e))); [reflexivity|].
      match goal with E : forallb (fun v => name (v_ident v)) _ = true |- _ => rename E into V end. match goal with E : name (e_ident e) = true |- _ => clear - V E end.
      induction (e_vals e) as [|v l IH]; [reflexivity|]. cbn [map each forallb] in *. apply andb_true_iff in V. destruct V as [V1 V2]. rewrite <- (IH V2).
      unfold as_const, line. change (v_ident v ++ " " ++ e_ident e ++ " = " ++ fmt_d (v_number v)) with (v_ident v ++ String space (e_ident e ++ String space (String "=" (String space (fmt_d (v_number v)))))).
      toks. cbn [like one String.eqb Ascii.eqb Bool.eqb option_map]. rewrite text_tokens by apply fmt_spaceless. rewrite number_fmt. reflexivity.
Qed.
Lemma import_gives : forall i, good_import i = true -> simple_import i = true -> gives (import_text i) (import_decls i).
Proof.
  intros i H S. unfold good_import in H. split_bools. unfold simple_import in S. unfold import_text, import_decls.
  apply gives_skip; [|apply gives_skip; [apply gives_empty|apply gives_then; [|apply gives_empty]]].
  - replace (P ["// Symbols defined in public import of "; i_path i; "."]) with ("//" ++ (" Symbols defined in public import of " ++ i_path i ++ ".") ++ newline)
      by (unfold P; rewrite !concat_cons, !app_assoc_s; reflexivity).
    apply gives_comment. rewrite !one_app. match goal with E : one_line (i_path i) = true |- _ => rewrite E end. reflexivity.
  - apply gives_map. intros [[tok a] q] It. rewrite forallb_forall in S. specialize (S _ It). match goal with E : forallb _ (i_forwards i) = true |- _ => rewrite forallb_forall in E; specialize (E _ It) end.
    cbn beta iota in *. split_bools. eapply gives_line; [apply shows_line; [parts|inked|begun]| |].
    + rewrite !concat_cons. cbn [String.concat]. rewrite app_nil_s, <- !app_assoc_s. apply leafy_ident. assumption.
    + rewrite !concat_cons. cbn [String.concat]. rewrite app_nil_s. change (tok ++ " " ++ a ++ " = " ++ q) with (tok ++ String space (a ++ String space (String "=" (String space q)))). toks.
      assert (T : text (tokens q) = q) by (apply text_tokens, word_spaceless; assumption).
      assert (NA : String.eqb "(" a = false) by (destruct (String.eqb_spec "(" a) as [<-|]; [discriminate|reflexivity]).
      unfold as_line. cbn [like one option_map]. rewrite NA. change (String.eqb "=" "=") with true. cbv iota.
      destruct (String.eqb "package" tok); destruct (String.eqb "func" tok); cbn [option_map one String.eqb Ascii.eqb Bool.eqb]; rewrite T; reflexivity.
Qed.
Lemma file_gives : forall f, good_file f = true -> name (f_package f) = true -> forallb simple_import (f_public f) = true -> forallb simple_enum (f_allEnums f) = true ->
  (forall m, In m (f_allMessages f) -> plain_message m) -> go_decls (file_text f) = Some (file_decls f).
Proof.
  intros f H Np Si Se Sm. apply gives_decls. unfold good_file in H. split_bools. unfold file_text, file_decls.
  apply gives_skip; [|apply (gives_app _ [_]); [|apply gives_skip; [|apply gives_app; [|apply gives_app]]]].
  - unfold header_text. apply gives_skip; [apply (gives_comment " Code generated by protoc-gen-golite. DO NOT EDIT."); reflexivity|].
    apply gives_skip; [|apply gives_empty]. destruct (f_deprecated f).
    + replace (P ["// "; f_path f; " is a deprecated file."]) with ("//" ++ (" " ++ f_path f ++ " is a deprecated file.") ++ newline)
        by (unfold P; rewrite !concat_cons, !app_assoc_s; reflexivity).
      apply gives_comment. rewrite !one_app. match goal with E : one_line (f_path f) = true |- _ => rewrite E end. reflexivity.
    + replace (P ["// source: "; f_path f]) with ("//" ++ (" source: " ++ f_path f) ++ newline)
        by (unfold P; rewrite !concat_cons, !app_assoc_s; cbn [String.concat append]; rewrite ?app_nil_s; reflexivity).
      apply gives_comment. rewrite !one_app. match goal with E : one_line (f_path f) = true |- _ => rewrite E end. reflexivity.
  - eapply gives_line; [apply (shows_line ["package "; f_package f]); [parts|inked|begun]| |].
    + rewrite !concat_cons. cbn [String.concat]. rewrite app_nil_s. apply leafy_name, Np.
    + rewrite !concat_cons. cbn [String.concat]. rewrite app_nil_s. change ("package " ++ f_package f) with ("package" ++ String space (f_package f)). toks. reflexivity.
  - apply gives_empty.
  - apply gives_map. intros i Ii. rewrite forallb_forall in Si. match goal with E : forallb good_import _ = true |- _ => rewrite forallb_forall in E; specialize (E _ Ii) end. apply import_gives; auto.
  - apply gives_map. intros e Ie. rewrite forallb_forall in Se. match goal with E : forallb good_enum _ = true |- _ => rewrite forallb_forall in E; specialize (E _ Ie) end. apply enum_gives; auto.
  - apply gives_map. intros m Im. match goal with E : forallb good_message _ = true |- _ => rewrite forallb_forall in E; specialize (E _ Im) end. apply message_gives; auto.
Qed.
