(** Reading the types that the plugin writes. *)
From Coq Require Import String Ascii.
From Verif Require Import Base GoType ProtoGen SpecProto GenText GenDesc SpecStructTag SpecText StructTagFacts TextFacts SpecGo SpecDesc.
Local Open Scope string_scope.

Definition open_end (r : string) : Prop := r = "" \/ exists c r', r = String c r' /\ ident_char c = false.
Lemma span_ident : forall s r, all_ident s = true -> open_end r -> span (s ++ r) = (s, r).
Proof.
  induction s as [|c s IH]; intros r A O.
  - destruct O as [->|(c & r' & -> & N)]; [reflexivity|]. cbn [append span]. rewrite N. reflexivity.
  - cbn [all_ident] in A. apply andb_true_iff in A. destruct A as [A B]. cbn [append span]. rewrite A, (IH r B O). reflexivity.
Qed.
Definition parse_rest (fuel : nat) (s : string) : option (gtype * string) :=
  let inner (s : string) := match parse fuel s with Some (t, String "]" r) => Some (t, r) | _ => None end in
  match span s with
  | (EmptyString, _) => None
  | (n, String "[" r) =>
    match inner r with
    | Some (t, r) =>
      if String.eqb n "map" then option_map (fun '(v, r) => (GMap t v, r)) (parse fuel r) else Some (GInst n t, r)
    | None => None
    end
  | (n, String "(" (String ")" r)) => if String.eqb n "func" then Some (GFunc, r) else None
  | (n, String "{" (String "}" r)) => if String.eqb n "struct" then Some (GStruct, r) else None
  | (n, r) => Some (GName n, r)
  end.
Lemma parse_ident : forall fuel c s, ident_char c = true -> parse (S fuel) (String c s) = parse_rest fuel (String c s).
Proof. intros fuel [[|] [|] [|] [|] [|] [|] [|] [|]] s I; first [discriminate I | reflexivity]. Qed.

Definition stop (r : string) : Prop := r = "" \/ exists r', r = String "]" r'.
Lemma stop_open : forall r, stop r -> open_end r.
Proof. intros r [->|(r' & ->)]; [left; reflexivity|]. right. exists "]"%char, r'. split; reflexivity. Qed.
Definition parses (s : string) (g : gtype) : Prop :=
  forall fuel r, (String.length s < fuel)%nat -> stop r -> parse fuel (s ++ r) = Some (g, r).
Lemma parses_type : forall s g, parses s g -> parse_type s = Some g.
Proof.
  intros s g P. unfold parse_type. specialize (P (S (String.length s)) "" (Nat.lt_succ_diag_r _) (or_introl eq_refl)). rewrite app_nil_s in P. rewrite P. reflexivity.
Qed.
Lemma parses_name : forall s, identifier s = true -> parses s (GName s).
Proof.
  intros s I fuel r L S. unfold identifier in I. apply andb_true_iff in I. destruct I as [N A]. destruct s as [|c s]; [discriminate N|].
  destruct fuel as [|fuel]; [inversion L|]. cbn [append]. rewrite parse_ident by (cbn [all_ident] in A; apply andb_true_iff in A; apply A).
  unfold parse_rest. change (String c (s ++ r)) with (String c s ++ r). rewrite (span_ident _ _ A (stop_open _ S)).
  destruct S as [->|(r' & ->)]; reflexivity.
Qed.
Lemma parses_star : forall s g, parses s g -> parses ("*" ++ s) (GStar g).
Proof.
  intros s g P fuel r L S. destruct fuel as [|fuel]; [inversion L|]. cbn [append String.length] in *. cbn [parse]. rewrite P; [reflexivity|lia|exact S].
Qed.
Lemma parses_slice : forall s g, parses s g -> parses ("[]" ++ s) (GSlice g).
Proof.
  intros s g P fuel r L S. destruct fuel as [|fuel]; [inversion L|]. cbn [append String.length] in *. cbn [parse]. rewrite P; [reflexivity|lia|exact S].
Qed.
Lemma parses_inner : forall s g fuel r, parses s g -> (String.length s < fuel)%nat ->
  match parse fuel (s ++ String "]" r) with Some (t, String "]" r) => Some (t, r) | _ => None end = Some (g, r).
Proof. intros s g fuel r P L. rewrite P; [reflexivity|exact L|right; exists r; reflexivity]. Qed.
Lemma parses_map : forall k gk v gv, parses k gk -> parses v gv -> parses ("map[" ++ k ++ "]" ++ v) (GMap gk gv).
Proof.
  intros k gk v gv K V fuel r L S. destruct fuel as [|fuel]; [inversion L|]. rewrite !length_app_s in L. cbn [String.length] in L.
  rewrite !app_assoc_s. change (("map[" ++ (k ++ "]" ++ v ++ r))) with ("map" ++ String "[" (k ++ String "]" (v ++ r))).
  change ("map" ++ String "[" (k ++ String "]" (v ++ r))) with (String "m" ("ap" ++ String "[" (k ++ String "]" (v ++ r)))).
  rewrite parse_ident by reflexivity. unfold parse_rest.
  change (String "m" ("ap" ++ String "[" (k ++ String "]" (v ++ r)))) with ("map" ++ String "[" (k ++ String "]" (v ++ r))).
  rewrite span_ident; [|reflexivity|right; eexists _, _; split; reflexivity]. cbv zeta.
  rewrite (parses_inner k gk fuel (v ++ r) K) by lia. cbn [String.eqb Ascii.eqb Bool.eqb].
  rewrite V; [reflexivity|lia|exact S].
Qed.
Lemma parses_option : forall s g, parses s g -> parses ("proto.Option[" ++ s ++ "]") (GInst "proto.Option" g).
Proof.
  intros s g P fuel r L S. destruct fuel as [|fuel]; [inversion L|]. rewrite !length_app_s in L. cbn [String.length] in L.
  rewrite !app_assoc_s.
  change ("proto.Option[" ++ s ++ "]" ++ r) with (String "p" ("roto.Option" ++ String "[" (s ++ String "]" r))).
  rewrite parse_ident by reflexivity. unfold parse_rest.
  change (String "p" ("roto.Option" ++ String "[" (s ++ String "]" r))) with ("proto.Option" ++ String "[" (s ++ String "]" r)).
  rewrite span_ident; [|reflexivity|right; eexists _, _; split; reflexivity]. cbv zeta.
  rewrite (parses_inner s g fuel r P) by lia. reflexivity.
Qed.
Lemma parses_struct : parses "struct{}" GStruct.
Proof.
  intros fuel r L S. destruct fuel as [|fuel]; [inversion L|].
  change ("struct{}" ++ r) with (String "s" ("truct" ++ String "{" (String "}" r))). rewrite parse_ident by reflexivity. unfold parse_rest.
  change (String "s" ("truct" ++ String "{" (String "}" r))) with ("struct" ++ String "{" (String "}" r)).
  rewrite span_ident; [reflexivity|reflexivity|right; eexists _, _; split; reflexivity].
Qed.

(** Texts that stand for a type. *)
Section S.
Variable scope : string -> entity.
Definition spells (s : string) (t : gotype) : Prop :=
  exists g, parses s g /\ type_of scope g = t /\ match g with GName n => is_byte n = false | _ => True end.
Lemma spells_scalar : forall s k, identifier s = true -> scalar_name s = Some k -> is_byte s = false -> spells s (TScalar k).
Proof. intros s k I E B. exists (GName s). split; [apply parses_name, I|]. split; [|exact B]. cbn [type_of]. unfold name_type. rewrite E. reflexivity. Qed.
Lemma type_name_spec : forall s, type_name s = true -> identifier s = true /\ scalar_name s = None /\ is_byte s = false.
Proof.
  intros s T. unfold type_name in T. apply andb_true_iff in T. destruct T as [T B]. apply andb_true_iff in T. destruct T as [T N].
  split; [exact T|]. split; [destruct (scalar_name s); [discriminate N|reflexivity]|]. apply negb_true_iff, B.
Qed.
Lemma spells_enum : forall s, type_name s = true -> scope s = EInt32 -> spells s (TScalar KInt32).
Proof.
  intros s T E. apply type_name_spec in T. destruct T as (I & N & B). exists (GName s). split; [apply parses_name, I|]. split; [|exact B].
  cbn [type_of]. unfold name_type. rewrite N, E. reflexivity.
Qed.
Lemma spells_message : forall s i, type_name s = true -> scope s = EStruct i -> spells ("*" ++ s) (TMsg i).
Proof.
  intros s i T E. apply type_name_spec in T. destruct T as (I & N & B). exists (GStar (GName s)). split; [apply parses_star, parses_name, I|]. split; [|exact Logic.I].
  cbn [type_of]. rewrite N, E. reflexivity.
Qed.
Lemma spells_slice : forall s t, spells s t -> spells ("[]" ++ s) (TSlice t).
Proof.
  intros s t (g & P & E & B). exists (GSlice g). split; [apply parses_slice, P|]. split; [|exact Logic.I]. cbn [type_of].
  destruct g; try (rewrite <- E; reflexivity). rewrite B, <- E. reflexivity.
Qed.
Lemma spells_bytes : spells "[]byte" TBytes.
Proof. exists (GSlice (GName "byte")). split; [apply (parses_slice "byte"), parses_name; reflexivity|]. split; [reflexivity|exact Logic.I]. Qed.
Lemma spells_map : forall k sk v t, spells k (TScalar sk) -> spells v t -> spells ("map[" ++ k ++ "]" ++ v) (TMap sk t).
Proof.
  intros k sk v t (gk & P & E & _) (gv & Q & F & _). exists (GMap gk gv). split; [apply parses_map; assumption|]. split; [|exact Logic.I].
  cbn [type_of]. rewrite E, F. reflexivity.
Qed.
Lemma spells_option : forall s k, spells s (TScalar k) -> spells ("proto.Option[" ++ s ++ "]") (TOption k).
Proof.
  intros s k (g & P & E & _). exists (GInst "proto.Option" g). split; [apply parses_option, P|]. split; [|exact Logic.I]. cbn [type_of]. rewrite E. reflexivity.
Qed.
Lemma spells_struct : spells "struct{}" TOther.
Proof. exists GStruct. split; [exact parses_struct|]. split; [reflexivity|exact Logic.I]. Qed.
Lemma spells_interface : forall n, identifier (n_ident n) = true -> scope (oneofInterfaceName n) = EElse -> spells (oneofInterfaceName n) TOther.
Proof.
  intros n I E. exists (GName (oneofInterfaceName n)). split.
  - apply parses_name. unfold identifier in I. apply andb_true_iff in I. destruct I as [_ I]. exact I.
  - split; [|reflexivity]. cbn [type_of]. unfold name_type. rewrite E. reflexivity.
Qed.
End S.

(** Words. *)
Lemma all_ident_chars : forall s, all_ident s = true -> all_chars word_char s = true.
Proof.
  induction s as [|c s IH]; [reflexivity|]. cbn [all_ident all_chars]. intros A. apply andb_true_iff in A. destruct A as [A B]. rewrite (IH B), andb_true_r.
  destruct c as [[|] [|] [|] [|] [|] [|] [|] [|]]; first [reflexivity|discriminate A].
Qed.
Lemma identifier_word : forall s, identifier s = true -> word s = true.
Proof. intros s I. unfold identifier in I. apply andb_true_iff in I. destruct I as [N A]. unfold word. rewrite N. apply all_ident_chars, A. Qed.
Lemma type_name_word : forall s, type_name s = true -> word s = true.
Proof. intros s T. apply identifier_word, type_name_spec, T. Qed.
Lemma chars_word : forall a b, all_chars word_char a = true -> word b = true -> word (a ++ b) = true.
Proof.
  intros a b A B. unfold word in *. apply andb_true_iff in B. destruct B as [N B]. rewrite all_app, A, B. destruct a; [cbn [append]; rewrite N; reflexivity|reflexivity].
Qed.
Lemma word_chars : forall a, word a = true -> all_chars word_char a = true.
Proof. intros a W. unfold word in W. apply andb_true_iff in W. apply W. Qed.
