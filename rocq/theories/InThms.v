(** Reading of every message of generated types: at the API. *)
From Coq Require Import ZifyBool ZifyNat ZifyN String.
From Verif Require Import Base Wire GoType Leaf Codec Tag Walker Api Resolve Typing SpecWire SpecTag SpecMsg SpecLib SpecProto SpecOut SpecIn
  WireFacts DecodeFacts GenFacts TypingFacts TagFacts EncFacts WalkSeq ApiFacts MsgResolve MsgEnc MsgDec MsgFit MsgApi ProtoGen ProtoFacts ProtoFit OutFacts InFacts.
Local Open Scope Z_scope.

Lemma reads_proof D sch : implements D sch = true -> schema_ok sch = true -> all_made sch = true -> agreeing sch = true ->
  forall s m ys zs b, reachable D s -> wts D (VStruct ys) (SNamed m) = true -> forallb fresh ys = true ->
  map norm ys = map norm zs -> bytes_okb b = true -> zlen b < 2^63 ->
  match merge_any sch (S (length b)) (msg sch m) zs b with
  | MOk zs => exists ys', fst (Unmarshal D b (ptr m ys) s) = Returns (ptr m ys', None) /\ map norm ys' = map norm zs /\
                forallb fresh ys' = true /\ wts D (VStruct ys') (SNamed m) = true
  | MBad => exists x e, fst (Unmarshal D b (ptr m ys) s) = Returns (IPtr (SNamed m) (Some x), Some e)
  | MFuel => False
  end.
Proof.
  intros HI HS HM HA s m ys zs b Hr Hw Hf Hn Hb Hs. apply all_made_generable in HM.
  pose proof (gen_supported D sch HI HS HM HA) as HP. pose proof (gen_fits D sch HI HS HM) as HF.
  pose proof (wts_msg _ _ _ Hw) as [Hk Hw']. pose proof (reachable_SInv D HP s Hr) as HR.
  destruct (unmarshal_pure D HP s (SNamed m) b (VStruct ys) HR Hk Hw Hb Hs) as (s' & _ & U).
  assert (K : key_fs D sch (SNamed m) (msg sch m)) by (split; [apply user_key_ok; exact Hk|left; eauto]).
  pose proof (merges_all D sch HI HS HM HF (S (length b)) (SNamed m) (msg sch m) b ys zs (decode_fuel D b) K (Nat.lt_succ_diag_r _) Hb Hs Hw Hf Hn) as M.
  fold (pdecode D (SNamed m) b (VStruct ys)) in M.
  destruct U as [(x' & P & W & E)|(x' & e & P & W & E)]; rewrite P in M; rewrite E; destruct M as [M|M]; try discriminate M.
  - destruct (merge_any _ _ _ _ _) as [zs'| |]; [|destruct M as (? & ? & M); discriminate|exact M].
    destruct M as (ys' & M & N & F). inversion M; subst x'. exists ys'. cbn [fst]. auto.
  - destruct (merge_any _ _ _ _ _) as [zs'| |]; [destruct M as (? & M & _); discriminate| |exact M]. exists x', e. reflexivity.
Qed.

Lemma generated_reads_proof F : valid F = true -> usable F = true -> agreeing (schema_of F) = true ->
  forall s m ys zs b, reachable (generate F) s -> wts (generate F) (VStruct ys) (SNamed m) = true -> forallb fresh ys = true ->
  map norm ys = map norm zs -> bytes_okb b = true -> zlen b < 2^63 ->
  match merge_any (schema_of F) (S (length b)) (msg (schema_of F) m) zs b with
  | MOk zs => exists ys', fst (Unmarshal (generate F) b (ptr m ys) s) = Returns (ptr m ys', None) /\ map norm ys' = map norm zs /\
                forallb fresh ys' = true /\ wts (generate F) (VStruct ys') (SNamed m) = true
  | MBad => exists x e, fst (Unmarshal (generate F) b (ptr m ys) s) = Returns (IPtr (SNamed m) (Some x), Some e)
  | MFuel => False
  end.
Proof.
  intros HV HU HA. apply reads_proof; [apply generated_implements; assumption|apply schema_valid; assumption|apply generable_all_made, schema_generable|exact HA].
Qed.

(** ** In scope *)
Section Scope.
Variable sch : schema.
Hypothesis HC : in_scope sch = true.
Definition right_field (f : fty) : bool := scope_field f || scope_val f.
Definition right_fs (fs : list sfld) : Prop := forall n f, In (Field n f) fs -> right_field f = true.
Lemma right_pick f r p r' : right_field f = true -> as_read f = f /\ pick f r p r' = Some (seen f r p, after f r r').
Proof.
  intros Hf.
  assert (A : as_read f = f).
  { destruct f as [s|s|s|s| |m|e|k e]; cbn [as_read]; try reflexivity; try (destruct s; try discriminate Hf; reflexivity).
    destruct e as [s|s|s|s| |m|e|k e]; try reflexivity. destruct s; try discriminate Hf; reflexivity. }
  split; [exact A|]. unfold pick, seen, after. rewrite A. destruct (SpecLib.scalar_of f) as [s|]; [|reflexivity].
  unfold take. rewrite N.eqb_refl. destruct s; reflexivity.
Qed.
Lemma right_put m f p y : (forall fs xs b, right_fs fs -> merge_any sch m fs xs b = merge_lib sch m fs xs b) -> right_field f = true ->
  put sch (merge_any sch m) f p y = put sch (merge_lib sch m) f p y.
Proof.
  intros IH.
  assert (Msg : forall m0, right_fs (msg sch m0)).
  { intros m0 n g Hin. pose proof (scope_nth sch HC m0) as S. unfold scope_msg in S. rewrite forallb_forall in S. apply S in Hin. unfold right_field. rewrite Hin. reflexivity. }
  assert (ME : forall e p y, scope_elem e = true -> put sch (merge_any sch m) e p y = put sch (merge_lib sch m) e p y).
  { intros e p' y' He. destruct e as [s|s|s|s| |m0|e|k e]; try discriminate He; cbn [put]; try reflexivity. destruct p'; try reflexivity. rewrite IH by apply Msg. reflexivity. }
  destruct f as [s|s|s|s| |m0|e|k e]; intros Hf; cbn [put]; try reflexivity.
  - destruct p; try reflexivity. rewrite IH by apply Msg. reflexivity.
  - unfold right_field in Hf. cbn [scope_field scope_val] in Hf. rewrite orb_false_r in Hf. rewrite ME by exact Hf. reflexivity.
  - destruct p; try reflexivity. unfold right_field in Hf. cbn [scope_field scope_val] in Hf. rewrite orb_false_r in Hf. apply andb_true_iff in Hf. destruct Hf as [Hk He].
    rewrite IH; [reflexivity|]. intros n g [H|[H|[]]]; inversion H; subst; unfold right_field.
    + destruct k; try discriminate Hk; reflexivity.
    + rewrite He, orb_true_r. reflexivity.
Qed.
Lemma right_merge m : forall fs xs b, right_fs fs -> merge_any sch m fs xs b = merge_lib sch m fs xs b.
Proof.
  induction m as [|m IH]; intros fs xs b Hfs; [reflexivity|]. cbn [merge_any merge_lib]. destruct b as [|c b]; [reflexivity|].
  destruct (read_varint (c :: b)) as [tag k r| |]; try reflexivity. destruct (read_payload (tag mod 8) r) as [[p r']|]; [|reflexivity].
  destruct (find_field 0 fs (tag / 8)) as [[i f]|] eqn:Ef; [|apply IH; exact Hfs].
  apply find_field_in in Ef. destruct Ef as [_ Ef]. apply nth_error_In in Ef. pose proof (Hfs _ _ Ef) as Hf.
  destruct (negb (wire_fty f =? tag mod 8)%N); [reflexivity|]. destruct (nth_error xs i) as [y|]; [|reflexivity].
  destruct (right_pick f r p r' Hf) as [-> ->]. rewrite (right_put m f _ y IH Hf).
  destruct (put sch (merge_lib sch m) f (seen f r p) y); [apply IH; exact Hfs|reflexivity|reflexivity].
Qed.
Lemma reads_right_proof m n xs b : merge_any sch n (msg sch m) xs b = merge_lib sch n (msg sch m) xs b.
Proof.
  apply right_merge. intros k g Hin. pose proof (scope_nth sch HC m) as S. unfold scope_msg in S. rewrite forallb_forall in S. apply S in Hin. unfold right_field. rewrite Hin. reflexivity.
Qed.
End Scope.
