(** Facts about the generator of the option codecs (GenOpt.v). *)
From Coq Require Import String.
From Verif Require Import Base Wire GoType Leaf Codec Tag Walker Resolve Typing GenReq GenReqFacts GenOpt.
Local Open Scope string_scope.

Lemma option_generated_proof : expand decoders = option_file.
Proof. vm_compute. reflexivity. Qed.

(** The text of a codec variable means a codec on memory of the type. *)
Definition omeans (file : list odecl) (req : list decl) (name : string) (k : skind) (l : leaf) : Prop :=
  exists s e d fs fe fd, ovar_of file name = Some (s, e, d) /\
    osize_of file s = Some fs /\ oencode_of file e = Some fe /\ odecode_of file d = Some fd /\
    forall D p, wt D p (TOption k) = true ->
      (forall f, run_osize req fs p f = l_size l p f) /\
      (forall b f, run_oencode req fe b p f = l_encode l b p f) /\
      (forall b, run_odecode fd b p = l_decode l b p).
Lemma has_kind_wt : forall D k v, wt D v (TScalar k) = true -> has_kind k v = true.
Proof. intros D k v W. destruct v as [b|z|z|n|n|n|n|b|o|b x|nn it sp|o|o|fs|n]; destruct k; try discriminate W; try reflexivity; (destruct o as [y|]; try discriminate W; destruct y; discriminate W). Qed.
Lemma omeans_intro file req name k l s e d fs fe fd bs be dec :
  ovar_of file name = Some (s, e, d) -> osize_of file s = Some fs -> oencode_of file e = Some fe -> odecode_of file d = Some fd ->
  type_kind (fst fs) = Some k -> type_kind (fst fe) = Some k -> type_kind (fst fd) = Some k ->
  body_of req (snd fs) = Some bs -> body_of req (snd fe) = Some be -> decode_named (snd fd) = Some dec ->
  forall r, (forall p f, run_size bs p f = l_size r p f) -> (forall b p f, run_encode be b p f = l_encode r b p f) ->
  l = optionCodec r dec -> omeans file req name k l.
Proof.
  intros V S E D Ks Ke Kd Bs Be Dn r Rs Re ->. exists s, e, d, fs, fe, fd. split; [exact V|]. split; [exact S|]. split; [exact E|]. split; [exact D|].
  intros D0 p W. destruct p as [b|z|z|n|n|n|n|b|o|b x|nn it sp|o|o|vs|n]; try discriminate W; try (destruct o as [v|]; try discriminate W; destruct v; discriminate W). cbn [wt] in W. apply has_kind_wt in W.
  unfold run_osize, run_oencode, run_odecode, as_option. rewrite Ks, Ke, Kd, W, Bs, Be, Dn. cbn [rbind optionCodec l_size l_encode l_decode IsSome some value].
  split; [|split]; intros; unfold sizeOption, encodeOption, decodeOption; cbn; try rewrite Rs; try rewrite Re; reflexivity.
Qed.
Lemma option_means w : omeans option_file required_file (kind_name w ++ "OptionCodec") (kind_of w) (static (SC w Optional)).
Proof.
  pose proof (required_means w) as M. destruct M as (s & e & d & bs & be & V & Bs & Be & Rs & Re).
  destruct w; vm_compute in V; injection V as <- <- <-;
    (eapply omeans_intro; [vm_compute; reflexivity|vm_compute; reflexivity|vm_compute; reflexivity|vm_compute; reflexivity|reflexivity|reflexivity|reflexivity
      |exact Bs|exact Be|reflexivity|exact Rs|exact Re|reflexivity]).
Qed.

(** Option codecs are the required ones behind the flag. *)
Lemma option_exact_proof : forall w s v b f,
  l_size (static (SC w Optional)) (VOpt s v) f = (if s then l_size (static (SC w Required)) v f else OK 0%Z) /\
  l_encode (static (SC w Optional)) b (VOpt s v) f = (if s then l_encode (static (SC w Required)) b v f else OK b) /\
  l_decode (static (SC w Optional)) b (VOpt s v) = dmap (VOpt true) (l_decode (static (SC w Normal)) b v).
Proof. intros w s v b f. destruct w, s; (split; [reflexivity|split; reflexivity]). Qed.

Lemma option_laws_proof : forall T (z d v : T) (o : goption T),
  IsSome (Some_ v) = true /\ IsSome (None_ z) = false /\ IsNone o = negb (IsSome o) /\
  Leaf.Unwrap z (Some_ v) = v /\ Leaf.Unwrap z (None_ z) = z /\ UnwrapOr (Some_ v) d = v /\ UnwrapOr (None_ z) d = d /\
  (IsSome o = true -> o = Some_ (Leaf.Unwrap z o)).
Proof. intros T z d v [[] x]; cbn; repeat split; intro H; try discriminate H; reflexivity. Qed.
