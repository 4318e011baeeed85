(** Witnesses against properties of the protoc plugin. *)
From Coq Require Import String Permutation.
From Verif Require Import Base GoType Typing ProtoGen SpecProto GenFile SpecGenFile GenFileFacts GenGetter SpecGetter GetterFacts.
Local Open Scope string_scope.
Local Open Scope list_scope.

(** A message without anything in it. *)
Definition plain_msg (n : string) : pmsg := PMsg n false [] [] [].
Definition file_of (pkg : string) (imps : list pimport) (ms : list pmsg) : pfile :=
  {| f_package := pkg; f_descriptor := "File_" ++ pkg; f_imports := imps; f_enums := []; f_messages := ms |}.
Definition pub (i : nat) : pimport := {| i_file := i; i_public := true |}.
Lemma ordered_dec : forall files,
  forallb (fun p => forallb (fun imp => Nat.ltb (i_file imp) (fst p)) (f_imports (snd p))) (combine (seq 0 (length files)) files) = true -> ordered files.
Proof.
  intros files H i f imp Ef I. rewrite forallb_forall in H. specialize (H (i, f)). cbn [fst snd] in H.
  assert (L : (i < length files)%nat) by (apply nth_error_Some; rewrite Ef; discriminate).
  assert (In (i, f) (combine (seq 0 (length files)) files)).
  { apply nth_error_In with i.
    assert (G : forall k l j, nth_error l j = Some f -> (j < length l)%nat -> nth_error (combine (seq k (length l)) l) j = Some (k + j, f)%nat).
    { clear. intros k l. revert k. induction l as [|x l IH]; intros k [|j] E L; cbn in *; try discriminate E; [injection E as ->; rewrite Nat.add_0_r; reflexivity|].
      rewrite (IH (S k) j E) by lia. f_equal. f_equal. lia. }
    specialize (G 0%nat files i Ef). exact (G L). }
  specialize (H H0). rewrite forallb_forall in H. apply Nat.ltb_lt, H, I.
Qed.

(** Public imports are not followed further: the third file should also give
    access to the first. *)
Definition chain : list pfile := [file_of "a" [] [plain_msg "M"]; file_of "b" [pub 0] [plain_msg "N"]; file_of "c" [pub 1] []].
Lemma not_transitive_proof : exists files, ordered files /\ exists i j f g d ds, public files i j /\
  nth_error files i = Some f /\ nth_error files j = Some g /\ f_package f <> f_package g /\ declares g d /\ upper (g_ident d) = true /\ g_ident d <> f_descriptor g /\
  GenerateFile files i = Some ds /\ ~ In (g_ident d) (map g_ident ds).
Proof.
  exists chain. split; [apply ordered_dec; vm_compute; reflexivity|].
  exists 2%nat, 0%nat, (file_of "c" [pub 1] []), (file_of "a" [] [plain_msg "M"]), {| g_tok := Type_; g_ident := "M"; g_expr := Struct |},
    [{| g_tok := Type_; g_ident := "N"; g_expr := Selector "b" "N" |}].
  split; [apply public_more with 1%nat; [apply (public_one chain 2 _ (pub 1) eq_refl)|apply (public_one chain 1 _ (pub 0) eq_refl)]; (left; reflexivity) || reflexivity|].
  split; [reflexivity|]. split; [reflexivity|]. split; [discriminate|].
  split; [apply (D_message _ (plain_msg "M")); [constructor; left; reflexivity|reflexivity]|]. split; [reflexivity|]. split; [discriminate|].
  split; [vm_compute; reflexivity|]. intros [E|[]]. discriminate E.
Qed.
(** Two public imports, from two packages that each declare a name. *)
Definition two : list pfile := [file_of "a" [] [plain_msg "M"]; file_of "b" [] [plain_msg "M"]; file_of "c" [pub 0; pub 1] []].
Lemma clash_proof : exists files, ordered files /\ (forall f, In f files -> NoDup (own_names f)) /\
  exists i ds, GenerateFile files i = Some ds /\ ~ NoDup (map g_ident ds).
Proof.
  exists two. split; [apply ordered_dec; vm_compute; reflexivity|]. split.
  - intros f [<-|[<-|[<-|[]]]]; vm_compute; repeat constructor; intros [].
  - exists 2%nat. eexists. split; [vm_compute; reflexivity|]. cbn. intro N. inversion N as [|x l H _]. apply H. left. reflexivity.
Qed.

(** A oneof with an int32 member and an enum member. *)
Definition member (n : N) (k : pkind) (d : option val) : getter_field :=
  {| y_desc := {| d_number := n; d_kind := k; d_card := CardOptional; d_presence := true; d_weak := false; d_message := 0; d_oneof := Some 0%nat |};
     y_enum := [7; 0]%Z; y_declared := d |}.
Definition choice : getter_message := {| y_fields := [member 1 Int32Kind (Some (VI32 5)); member 2 EnumKind None]; y_oneofs := [false] |}.
Lemma member_choice : forall i, (i < 2)%nat -> member_of choice i 0.
Proof. intros [|[|i]] L; [| |lia]; eexists; (split; [reflexivity|split; reflexivity]). Qed.
Lemma typed_nil_proof : exists m i x, (exists o, member_of m i o) /\ getMember [] m i x = Some (Some NilDereference).
Proof. exists choice, 0%nat, (Some (fun _ => Wrapper 0 None)). split; [exists 0%nat; apply member_choice; lia|reflexivity]. Qed.
Lemma declared_default_proof : exists m i y v, (exists o, member_of m i o) /\ nth_error (y_fields m) i = Some y /\ member_ok [] y = true /\
  getMember [] m i None = Some (Some (Got v)) /\ v <> field_default y.
Proof.
  exists choice, 0%nat, (member 1 Int32Kind (Some (VI32 5))), (VI32 0). split; [exists 0%nat; apply member_choice; lia|].
  split; [reflexivity|]. split; [reflexivity|]. split; [reflexivity|]. discriminate.
Qed.
