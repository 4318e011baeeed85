(** Struct tags are read back as written. *)
From Coq Require Import String Ascii Lia ZifyBool ZifyNat ZifyN.
From Verif Require Import Base GoType ProtoGen StructTag SpecStructTag.
Local Open Scope string_scope.

Lemma app_assoc_s : forall a b c : string, (a ++ b) ++ c = a ++ (b ++ c).
Proof. induction a as [|x a IH]; intros b c; [reflexivity|]. cbn. f_equal. apply IH. Qed.
Lemma app_nil_s : forall a : string, a ++ "" = a.
Proof. induction a as [|x a IH]; [reflexivity|]. cbn. f_equal. exact IH. Qed.
Lemma length_app_s : forall a b : string, String.length (a ++ b) = (String.length a + String.length b)%nat.
Proof. induction a as [|x a IH]; intro b; [reflexivity|]. cbn. f_equal. apply IH. Qed.
Lemma all_app : forall p a b, all_chars p (a ++ b) = all_chars p a && all_chars p b.
Proof. induction a as [|x a IH]; intro b; [reflexivity|]. cbn. rewrite IH. apply andb_assoc. Qed.
Lemma replace_app : forall a b, replace_backtick (a ++ b) = replace_backtick a ++ replace_backtick b.
Proof. induction a as [|x a IH]; intro b; [reflexivity|]. cbn [append replace_backtick]. rewrite IH. symmetry. apply app_assoc_s. Qed.

(** The text written for one character. *)
Definition esc (c : ascii) : string := replace_backtick (escape c).
Fixpoint escs (s : string) : string := match s with EmptyString => "" | String c s => esc c ++ escs s end.
Lemma escs_eq : forall s, replace_backtick (escapes s) = escs s.
Proof. induction s as [|c s IH]; [reflexivity|]. cbn [escapes escs]. rewrite replace_app, IH. reflexivity. Qed.
Lemma quote_eq : forall s, replace_backtick (Quote s) = String quote_chr (escs s ++ str1 quote_chr).
Proof.
  intro s. unfold Quote. change (replace_backtick (String quote_chr (escapes s ++ str1 quote_chr))) with (String quote_chr (replace_backtick (escapes s ++ str1 quote_chr))).
  rewrite replace_app, escs_eq. reflexivity.
Qed.

Definition small (c : ascii) := (N_of_ascii c <? 128)%N = true.
Lemma esc_scan : forall c s q r, small c -> scan_quoted s = Some (q, r) -> scan_quoted (esc c ++ s) = Some (esc c ++ q, r).
Proof.
  intros c s q r C E. destruct c as [[] [] [] [] [] [] [] []]; try discriminate C; clear C; cbn - [scan_quoted];
    repeat (cbn [scan_quoted Ascii.eqb quote_chr backslash]; unfold quote_chr, backslash; cbn - [scan_quoted]); cbn; rewrite E; reflexivity.
Qed.
Lemma esc_unquote : forall c s, small c -> Unquote (esc c ++ s) = option_map (String c) (Unquote s).
Proof. intros c s C. destruct c as [[] [] [] [] [] [] [] []]; try discriminate C; reflexivity. Qed.
Lemma esc_plain : forall c, small c -> all_chars (fun n => negb (n =? 96)%N && negb (n =? 13)%N) (esc c) = true.
Proof. intros c C. destruct c as [[] [] [] [] [] [] [] []]; try discriminate C; reflexivity. Qed.

Lemma escs_scan : forall v r, ascii_text v = true -> scan_quoted (escs v ++ String quote_chr r) = Some (escs v, r).
Proof.
  induction v as [|c v IH]; intros r A; [reflexivity|]. unfold ascii_text in A. cbn [all_chars] in A. apply andb_prop in A as [C A].
  cbn [escs]. rewrite app_assoc_s. apply esc_scan; [exact C|]. apply IH. exact A.
Qed.
Lemma escs_unquote : forall v, ascii_text v = true -> Unquote (escs v) = Some v.
Proof.
  induction v as [|c v IH]; intros A; [reflexivity|]. unfold ascii_text in A. cbn [all_chars] in A. apply andb_prop in A as [C A].
  cbn [escs]. rewrite esc_unquote by exact C. rewrite IH by exact A. reflexivity.
Qed.
Lemma escs_plain : forall v, ascii_text v = true -> all_chars (fun n => negb (n =? 96)%N && negb (n =? 13)%N) (escs v) = true.
Proof.
  induction v as [|c v IH]; intros A; [reflexivity|]. unfold ascii_text in A. cbn [all_chars] in A. apply andb_prop in A as [C A].
  cbn [escs]. rewrite all_app, esc_plain by exact C. apply IH. exact A.
Qed.

(** Raw literals. *)
Lemma raw_plain : forall s, all_chars (fun n => negb (n =? 96)%N && negb (n =? 13)%N) s = true -> raw_body (s ++ str1 backtick) = Some s.
Proof.
  induction s as [|c s IH]; intro A; [reflexivity|]. cbn [all_chars] in A. apply andb_prop in A as [C A].
  cbn [append raw_body]. rewrite (IH A). destruct (Ascii.eqb_spec c backtick) as [->|N]; [discriminate C|].
  unfold code. destruct (N_of_ascii c =? 13)%N; [|reflexivity]. destruct (N_of_ascii c =? 96)%N; discriminate C.
Qed.
Lemma all_impl : forall p q s, (forall n, p n = true -> q n = true) -> all_chars p s = true -> all_chars q s = true.
Proof. intros p q s I. induction s as [|c s IH]; cbn; [reflexivity|]. intro A. apply andb_prop in A as [C A]. rewrite (I _ C), (IH A). reflexivity. Qed.
Definition key_code (n : N) : bool := (33 <=? n)%N && (n <=? 126)%N && negb (n =? 34)%N && negb (n =? 58)%N && negb (n =? 96)%N.
Lemma good_key_all : forall k, good_key k = true -> k <> "" /\ all_chars key_code k = true.
Proof.
  intros k G. unfold good_key in G. apply andb_prop in G as [E A]. split; [|exact A]. intros ->. discriminate E.
Qed.
Lemma tag_plain : forall t, good_key (fst t) && ascii_text (snd t) = true -> all_chars (fun n => negb (n =? 96)%N && negb (n =? 13)%N) (tagText t) = true.
Proof.
  intros [k v] G. cbn [fst snd] in G. apply andb_prop in G as [K A]. apply good_key_all in K as [_ K]. unfold tagText. cbn [fst snd].
  rewrite all_app. rewrite (all_impl key_code _ k); [|intros n E; unfold key_code in E; lia|exact K].
  rewrite quote_eq. cbn [all_chars]. rewrite all_app, escs_plain by exact A. reflexivity.
Qed.
Lemma join_cons : forall t t' ts, joinTags (t :: t' :: ts) = tagText t ++ String space (joinTags (t' :: ts)).
Proof. reflexivity. Qed.
Lemma join_plain : forall ts, good_tags ts = true -> all_chars (fun n => negb (n =? 96)%N && negb (n =? 13)%N) (joinTags ts) = true.
Proof.
  induction ts as [|t ts IH]; intro G; [reflexivity|]. unfold good_tags in G. cbn [forallb] in G. apply andb_prop in G as [T G].
  apply tag_plain in T. specialize (IH G). destruct ts as [|t' ts]; [exact T|]. rewrite join_cons, all_app, T. exact IH.
Qed.

(** Lookup. *)
Lemma key_char_code : forall c, key_code (N_of_ascii c) = true -> key_char c = true.
Proof. intros c E. unfold key_char, code, key_code in *. lia. Qed.
Lemma scan_key_all : forall k s, all_chars key_code k = true -> scan_key (k ++ String ":" s) = (k, String ":" s).
Proof.
  induction k as [|c k IH]; intros s A; [reflexivity|]. cbn [all_chars] in A. apply andb_prop in A as [C A].
  cbn [append scan_key]. rewrite (key_char_code _ C), (IH s A). reflexivity.
Qed.
Lemma skip_key : forall c k, key_code (N_of_ascii c) = true -> skip_spaces (String c k) = String c k.
Proof.
  intros c k E. cbn [skip_spaces]. destruct (Ascii.eqb_spec c space) as [->|N]; [discriminate E|reflexivity].
Qed.
Lemma loop_tag : forall f t r key, good_key (fst t) && ascii_text (snd t) = true ->
  lookup_loop (S f) (tagText t ++ r) key = if String.eqb key (fst t) then Found (snd t) else lookup_loop f r key.
Proof.
  intros f [k v] r key G. cbn [fst snd] in *. apply andb_prop in G as [K A]. apply good_key_all in K as [NE K].
  unfold tagText. cbn [fst snd]. rewrite quote_eq. rewrite app_assoc_s. cbn [append]. rewrite app_assoc_s. cbn [append str1].
  destruct k as [|c k]; [contradiction|].
  cbn [lookup_loop]. pose proof K as K'. cbn [all_chars] in K'. apply andb_prop in K' as [C _].
  pose proof (skip_key c (k ++ String ":" (String quote_chr (escs v ++ String quote_chr r))) C) as SK.
  cbn [append]. rewrite SK. pose proof (scan_key_all (String c k) (String quote_chr (escs v ++ String quote_chr r)) K) as SC.
  cbn [append] in SC. rewrite SC. cbn [Ascii.eqb Bool.eqb andb]. 
  replace (Ascii.eqb ":" ":" && Ascii.eqb quote_chr quote_chr)%bool with true by reflexivity. cbv iota.
  change (str1 quote_chr ++ r) with (String quote_chr r). rewrite escs_scan by exact A. rewrite escs_unquote by exact A. reflexivity.
Qed.
Lemma loop_space : forall f r key, lookup_loop f (String space r) key = lookup_loop f r key.
Proof. intros [|f] r key; reflexivity. Qed.
Lemma loop_join : forall ts f key, good_tags ts = true -> (length ts < f)%nat ->
  lookup_loop f (joinTags ts) key = match value_of ts key with Some v => Found v | None => Missing end.
Proof.
  induction ts as [|t ts IH]; intros f key G L; (destruct f as [|f]; [inversion L|]); [reflexivity|].
  unfold good_tags in G. cbn [forallb] in G. apply andb_prop in G as [T G]. cbn [length] in L.
  destruct t as [k v]. cbn [value_of]. destruct ts as [|t' ts].
  - change (joinTags [(k, v)]) with (tagText (k, v)). rewrite <- (app_nil_s (tagText (k, v))), loop_tag by exact T. cbn [fst snd].
    destruct (String.eqb key k); [reflexivity|]. destruct f as [|f]; [lia|reflexivity].
  - rewrite join_cons, loop_tag by exact T. cbn [fst snd]. destruct (String.eqb key k); [reflexivity|].
    rewrite loop_space. apply IH; [exact G|]. lia.
Qed.
Lemma join_length : forall ts, good_tags ts = true -> (length ts <= String.length (joinTags ts))%nat.
Proof.
  induction ts as [|t ts IH]; intro G; [apply Nat.le_refl|]. unfold good_tags in G. cbn [forallb] in G. apply andb_prop in G as [T G].
  assert (P : (1 <= String.length (tagText t))%nat) by (unfold tagText; rewrite length_app_s; cbn [String.length]; lia).
  specialize (IH G). destruct ts as [|t' ts]; [exact P|]. rewrite join_cons, length_app_s. cbn [String.length length] in *. lia.
Qed.
Lemma tags_survive_proof : forall ts, good_tags ts = true -> exists tag, raw_literal (tagsString ts) = Some tag /\
  forall key, Lookup tag key = match value_of ts key with Some v => Found v | None => Missing end.
Proof.
  intros ts G. exists (joinTags ts). split.
  - destruct ts as [|t ts]; [reflexivity|]. unfold tagsString, raw_literal. rewrite Ascii.eqb_refl. apply raw_plain, join_plain, G.
  - intro key. unfold Lookup. apply loop_join; [exact G|]. pose proof (join_length ts G). lia.
Qed.

(** Lookup ends on every text. *)
Lemma skip_length : forall s, (String.length (skip_spaces s) <= String.length s)%nat.
Proof. induction s as [|c s IH]; cbn [skip_spaces String.length]; [lia|]. destruct (Ascii.eqb c space); cbn [String.length]; lia. Qed.
Lemma scan_key_length : forall s k r, scan_key s = (k, r) -> (String.length r <= String.length s)%nat.
Proof.
  induction s as [|c s IH]; cbn; intros k r E; [injection E as <- <-; cbn; lia|].
  destruct (key_char c); [|injection E as <- <-; cbn; lia]. destruct (scan_key s) as [k' r'] eqn:E'. injection E as <- <-. specialize (IH _ _ eq_refl). lia.
Qed.
Lemma scan_quoted_length : forall n s q r, (String.length s <= n)%nat -> scan_quoted s = Some (q, r) -> (String.length r < String.length s)%nat.
Proof.
  induction n as [|n IH]; intros s q r L E; (destruct s as [|c s]; [discriminate E|]); cbn [String.length] in L; [lia|].
  cbn [scan_quoted] in E. destruct (Ascii.eqb c quote_chr); [injection E as <- <-; cbn; lia|].
  destruct (Ascii.eqb c backslash).
  - destruct s as [|d s]; [discriminate E|]. destruct (scan_quoted s) as [[q' r']|] eqn:E'; [|discriminate E]. injection E as <- <-.
    cbn [String.length] in *. apply IH in E'; [|lia]. lia.
  - destruct (scan_quoted s) as [[q' r']|] eqn:E'; [|discriminate E]. injection E as <- <-. apply IH in E'; [|lia]. cbn; lia.
Qed.
Lemma loop_fuel : forall f tag key, (String.length tag < f)%nat -> lookup_loop f tag key <> LookupFuel.
Proof.
  induction f as [|f IH]; intros tag key L; [lia|]. cbn [lookup_loop]. pose proof (skip_length tag) as SL.
  destruct (skip_spaces tag) as [|c s] eqn:ES; [discriminate|]. destruct (scan_key (String c s)) as [name r] eqn:EK.
  apply scan_key_length in EK. destruct name as [|k name]; [discriminate|]. destruct r as [|c1 [|c2 r]]; try discriminate.
  destruct (_ && _)%bool; [|discriminate]. destruct (scan_quoted r) as [[q r']|] eqn:EQ; [|discriminate].
  apply (scan_quoted_length _ _ _ _ (Nat.le_refl _)) in EQ. destruct (String.eqb key _).
  - destruct (Unquote q); discriminate.
  - apply IH. cbn [String.length] in *. lia.
Qed.
Lemma lookup_ends : forall tag key, Lookup tag key <> LookupFuel.
Proof. intros tag key. apply loop_fuel. lia. Qed.

(** Generated fields. *)
Lemma uint_ascii : forall u, ascii_text (DecimalString.NilEmpty.string_of_uint u) = true.
Proof. induction u; cbn; auto. Qed.
Lemma itoa_ascii : forall n, ascii_text (itoa n) = true.
Proof.
  intro n. unfold itoa, DecimalString.NilZero.string_of_uint. pose proof (uint_ascii (N.to_uint n)) as U. destruct (N.to_uint n); exact U.
Qed.
Lemma ascii_app : forall a b, ascii_text (a ++ b) = ascii_text a && ascii_text b.
Proof. intros a b. apply all_app. Qed.
Lemma tag_value_ascii : forall fd, ascii_text (fieldProtobufTagValue fd) = true.
Proof.
  intro fd. unfold fieldProtobufTagValue. rewrite !ascii_app, itoa_ascii. destruct (d_kind fd), (d_card fd); reflexivity.
Qed.
Lemma reflect_of : forall ts e t, good_tags ts = true -> reflect_field e (tagsString ts) t =
  Some {| gf_exported := e; gf_tag := value_of ts "protobuf";
          gf_key := match value_of ts "protobuf_key" with Some v => v | None => "" end;
          gf_val := match value_of ts "protobuf_val" with Some v => v | None => "" end; gf_type := t |}.
Proof.
  intros ts e t G. destruct (tags_survive_proof ts G) as (tag & R & L). unfold reflect_field, Get. rewrite R, !L.
  destruct (value_of ts "protobuf"), (value_of ts "protobuf_key"), (value_of ts "protobuf_val"); reflexivity.
Qed.
Lemma fieldTags_good : forall F fd tr, good_tags (fieldTags F fd tr) = true.
Proof.
  intros F fd tr. unfold fieldTags, good_tags. cbn [forallb fst snd]. rewrite tag_value_ascii. rewrite forallb_app.
  replace (forallb _ (if tr then gotrackTags else [])) with true by (destruct tr; reflexivity).
  destruct (is_map F fd); [|reflexivity]. destruct (m_fields (message_of F fd)) as [|kf [|vf l]]; try reflexivity.
  cbn [forallb fst snd]. rewrite !tag_value_ascii. reflexivity.
Qed.
Lemma generated_seen_proof : forall F m before fd g c name tr, ascii_text name = true -> genMessageField F m before fd = (Some g, c) ->
  reflect_field true (tagsString (match real_oneof m fd with Some _ => oneofTags name tr | None => fieldTags F fd tr end)) (gf_type g) = Some g.
Proof.
  intros F m before fd g c name tr A E. unfold genMessageField in E. destruct (real_oneof m fd) as [o|].
  - destruct (existsb _ _); [discriminate E|]. injection E as <- <-. rewrite reflect_of; [|unfold good_tags, oneofTags; cbn [forallb fst snd]; rewrite A; destruct tr; reflexivity].
    destruct tr; reflexivity.
  - rewrite reflect_of by apply fieldTags_good. destruct (fieldGoType F fd) as [[t opt] comp]. unfold fieldTags.
    destruct (is_map F fd); [destruct (m_fields (message_of F fd)) as [|kf [|vf l]]|]; injection E as <- <-; destruct tr; reflexivity.
Qed.
Lemma wrapper_seen_proof : forall fd tr t, reflect_field true (tagsString (wrapperTags fd tr)) t =
  Some {| gf_exported := true; gf_tag := Some (fieldProtobufTagValue fd); gf_key := ""; gf_val := ""; gf_type := t |}.
Proof.
  intros fd tr t. rewrite reflect_of.
  - destruct tr; reflexivity.
  - unfold wrapperTags, good_tags. cbn [forallb fst snd]. rewrite tag_value_ascii. destruct tr; reflexivity.
Qed.
