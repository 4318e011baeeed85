(** Programs made from generated files. *)
From Coq Require Import String Ascii.
From Verif Require Import Base Wire GoType Leaf Codec Tag Walker Api Resolve Typing SpecWire SpecTag SpecMsg SpecLib
  WalkSeq MsgApi ProtoGen SpecProto ProtoFacts ProtoFit ProtoThms RefuteMsg
  GenText GenDesc SpecStructTag SpecText SpecGo SpecDesc SpecProgram GoThms GoSample.
Local Open Scope list_scope.

Definition texts (X : list nmessage) (files : list nfile) : list (nfile * string) := map (fun f => (f, GenerateText X f)) files.
Definition good_files (X : list nmessage) (files : list nfile) : Prop := forall f, In f files -> incl (nx_messages f) X /\ named_file f = true.

Lemma nodup_fst {A B} (l : list (A * B)) a b c : NoDup (map fst l) -> In (a, b) l -> In (a, c) l -> b = c.
Proof.
  induction l as [|[x y] l IH]; [intros _ []|]. cbn [map fst]. intros N. inversion N as [|? ? N1 N2]; subst. intros [E1|I1] [E2|I2].
  - congruence.
  - exfalso. apply N1. injection E1 as -> ->. apply in_map_iff. exists (a, c). split; [reflexivity|exact I2].
  - exfalso. apply N1. injection E2 as -> ->. apply in_map_iff. exists (a, b). split; [reflexivity|exact I1].
  - apply IH; assumption.
Qed.
Lemma nth_ext' {A} (l l' : list A) : length l = length l' -> (forall i, (i < length l)%nat -> nth_error l i = nth_error l' i) -> l = l'.
Proof.
  revert l'. induction l as [|x l IH]; intros [|y l'] L H; try discriminate L; [reflexivity|]. f_equal.
  - specialize (H 0%nat ltac:(cbn; lia)). cbn in H. congruence.
  - apply IH; [cbn in L; lia|]. intros i Hi. apply (H (S i)). cbn. lia.
Qed.

(** The types of the program are those the theorems about generated code speak of. *)
Lemma compiles_generate X scope files D : good_scope X scope -> valid (descs X) = true -> good_files X files ->
  compiles X scope (texts X files) D -> D = generate (descs X).
Proof.
  intros SC V GF [L NE DE]. apply nth_ext'; [unfold generate, descs; rewrite !map_length; exact L|]. intros i Hi.
  destruct (nth_error X i) as [m|] eqn:E; [|apply nth_error_None in E; lia].
  destruct (nm_entry m) eqn:En.
  - rewrite (NE i m E En). unfold generate, descs. rewrite nth_error_map, nth_error_map, E. cbn [option_map]. unfold genMessage, nm_desc. cbn [m_entry]. rewrite En. reflexivity.
  - destruct (DE i m E En) as (f & text & ss & fs & If & Im & R & ND & Is & ->).
    apply in_map_iff in If. destruct If as (f' & Ef & If). injection Ef as -> <-. destruct (GF f If) as [IN N].
    destruct (number_read X scope f i m SC V IN N E Im En) as (ss' & fs' & R' & Is' & ->). rewrite R in R'. injection R' as <-.
    rewrite (nodup_fst ss _ fs fs' ND Is Is'). reflexivity.
Qed.

(** Every set of files with all messages and without clashes is a program. *)
Lemma declares_idents X : forall ms parts, Forall2 (declares X) ms parts ->
  map fst (concat parts) = flat_map (fun m => if nm_entry m then [] else nm_ident m :: map nf_ident (wrapped_fields m)) ms.
Proof.
  induction 1 as [|m p ms ps H _ IH]; [reflexivity|]. cbn [concat flat_map]. rewrite map_app, IH. f_equal. unfold declares in H.
  destruct (nm_entry m); [rewrite H; reflexivity|]. destruct H as (fs & -> & _). cbn [map fst]. rewrite map_map. reflexivity.
Qed.
Lemma program_exists X scope files : good_scope X scope -> valid (descs X) = true -> good_files X files ->
  (forall m, In m X -> nm_entry m = false -> exists f, In f files /\ In m (nx_messages f)) ->
  (forall f, In f files -> NoDup (struct_idents f)) -> compiles X scope (texts X files) (generate (descs X)).
Proof.
  intros SC V GF AL ND. constructor.
  - unfold generate, descs. rewrite !map_length. reflexivity.
  - intros i m E En. unfold generate, descs. rewrite nth_error_map, nth_error_map, E. cbn [option_map]. unfold genMessage, nm_desc. cbn [m_entry]. rewrite En. reflexivity.
  - intros i m E En. destruct (AL m (nth_error_In _ _ E) En) as (f & If & Im). destruct (GF f If) as [IN N].
    destruct (number_read X scope f i m SC V IN N E Im En) as (ss & fs & R & Is & G). exists f, (GenerateText X f), ss, fs.
    split; [apply in_map_iff; exists f; split; [reflexivity|exact If]|]. split; [exact Im|]. split; [exact R|].
    split; [|split; assumption]. destruct (file_read X scope SC V f IN N) as (parts & R' & Dp). rewrite R in R'. injection R' as ->.
    rewrite (declares_idents X _ _ Dp). apply ND. exact If.
Qed.

Section Program.
Variables (X : list nmessage) (scope : string -> entity) (files : list nfile) (D : decls).
Hypothesis SC : good_scope X scope.
Hypothesis CV : covered (descs X) = true.
Hypothesis GF : good_files X files.
Hypothesis CP : compiles X scope (texts X files) D.
Let E : D = generate (descs X).
Proof. apply compiles_generate with (scope := scope) (files := files); try assumption. unfold covered in CV. apply andb_true_iff in CV. destruct CV as [C _]. apply andb_true_iff in C. destruct C as [C _]. apply andb_true_iff in C. apply C. Qed.
Lemma program_writes s m xs : reachable D s ->
  wts D (VStruct xs) (SNamed m) = true -> encodable_msg (schema_of (descs X)) xs (msg (schema_of (descs X)) m) = true ->
  (zlen (ser (message (schema_of (descs X)) xs (msg (schema_of (descs X)) m))) < 2^63)%Z ->
  fst (Size D (ptr m xs) s) = Returns (zlen (ser (message (schema_of (descs X)) xs (msg (schema_of (descs X)) m)))) /\
  fst (Marshal D (ptr m xs) s) = Returns (Some (ser (message (schema_of (descs X)) xs (msg (schema_of (descs X)) m))), None).
Proof. rewrite E. apply generated_wire_proof. exact CV. Qed.
Lemma program_reads s m xs zs b : reachable D s ->
  wts D (VStruct xs) (SNamed m) = true -> forallb fresh xs = true -> map norm xs = map norm zs ->
  bytes_okb b = true -> (zlen b < 2^63)%Z ->
  match merge_lib (schema_of (descs X)) (S (length b)) (msg (schema_of (descs X)) m) zs b with
  | MOk zs' => exists xs', fst (Unmarshal D b (ptr m xs) s) = Returns (ptr m xs', None) /\
      map norm xs' = map norm zs' /\ forallb fresh xs' = true /\ wts D (VStruct xs') (SNamed m) = true
  | MBad => exists x e, fst (Unmarshal D b (ptr m xs) s) = Returns (IPtr (SNamed m) (Some x), Some e)
  | MFuel => False
  end.
Proof. rewrite E. apply generated_lib_proof. exact CV. Qed.
End Program.

(** A file with one message, with one sfixed32 field. *)
Definition fixedmsg : nmessage :=
  {| nm_ident := "Point"; nm_ref := "Point"; nm_entry := false; nm_tracked := false; nm_doc := no_doc;
     nm_fields := [nfd (nd 1 Sfixed32Kind CardOptional false 0 None) "X" "Point_X"]; nm_oneofs := [] |}.
Definition fixed_file : nfile :=
  {| nx_path := "point.proto"; nx_deprecated := false; nx_package := "geo"; nx_public := []; nx_enums := []; nx_messages := [fixedmsg] |}.
Definition fixed_scope (s : string) : entity := if String.eqb s "Point" then EStruct 0 else EElse.
Lemma fixed_good : good_scope [fixedmsg] fixed_scope.
Proof.
  constructor.
  - intros [|i] m E N; cbn in E; [injection E as <-; split; reflexivity|destruct i; discriminate E].
  - intros m x [<-|[]] J K. cbn in J. destruct J as [<-|[]]. discriminate K.
  - intros m n [<-|[]] [].
Qed.
Lemma world_program : compiles world world_scope (texts world [person_file; address_file]) (generate (descs world)).
Proof.
  apply program_exists; [exact world_good|vm_compute; reflexivity| | |].
  - intros f [<-|[<-|[]]]; (split; [|vm_compute; reflexivity]); intros m I; cbn in I; cbn; tauto.
  - intros m I E. cbn in I. destruct I as [<-|[<-|[<-|[]]]]; [exists person_file|discriminate E|exists address_file]; cbn; tauto.
  - intros f [<-|[<-|[]]]; cbv; repeat (constructor; [cbn; intuition discriminate|]); constructor.
Qed.
Lemma program_refuted : exists X scope f D xs, good_scope X scope /\ valid (descs X) = true /\ usable (descs X) = true /\
  good_files X [f] /\ compiles X scope (texts X [f]) D /\ miswritten D (schema_of (descs X)) xs.
Proof.
  exists [fixedmsg], fixed_scope, fixed_file, (generate (descs [fixedmsg])), [VI32 5; VOther 0].
  split; [exact fixed_good|]. split; [vm_compute; reflexivity|]. split; [vm_compute; reflexivity|].
  assert (GF : good_files [fixedmsg] [fixed_file]) by (intros f [<-|[]]; split; [intros m I; exact I|vm_compute; reflexivity]).
  split; [exact GF|]. split; [|written].
  apply program_exists; [exact fixed_good|vm_compute; reflexivity|exact GF| |].
  - intros m [<-|[]] _. exists fixed_file. cbn. tauto.
  - intros f [<-|[]]. cbv. repeat (constructor; [cbn; intuition discriminate|]). constructor.
Qed.
Lemma program_compiles_proof X scope files : good_scope X scope -> valid (descs X) = true -> good_files X files ->
  (forall m, In m X -> nm_entry m = false -> exists f, In f files /\ In m (nx_messages f)) ->
  (forall f, In f files -> NoDup (struct_idents f)) -> exists D, compiles X scope (texts X files) D.
Proof. intros. exists (generate (descs X)). apply program_exists; assumption. Qed.
Definition here : list val := [VOpt true (VF64 4607182418800017408); VI32 300; VOther 0]%N.
Definition al : list val :=
  [VStr [65;108]; VOpt true (VI32 (-2)); VOther 0; VMap (Some [(VStr [104], VPtr (Some (VStruct [VOpt false (VF64 0); VI32 7; VOther 0])))]);
   VSlice true [VI32 1; VI32 300] []; VSlice true [VPtr (Some (VStruct [VStr [66]; VOpt false (VI32 0); VOther 0; VMap None; VSlice false [] []; VSlice false [] []; VBytes None]))] []; VBytes (Some [7])]%N.
Lemma program_world : good_scope world world_scope /\ covered (descs world) = true /\
  (exists D, compiles world world_scope (texts world [person_file; address_file]) D /\
     fst (Marshal D (ptr 2 here) g_empty) = Returns (Some [9;0;0;0;0;0;0;240;63; 16;172;2]%N, None) /\
     match fst (Unmarshal D [10;2;65;108; 16;3; 34;7;10;1;104;18;2;16;7; 48;1; 48;172;2; 66;1;7; 58;3;10;1;66]%N (ptr 0 (zeros (msg (schema_of (descs world)) 0))) g_empty) with
     | Returns (IPtr _ (Some (VStruct xs)), None) => map norm xs = map norm al
     | _ => False
     end) /\
  encodable_msg (schema_of (descs world)) here (msg (schema_of (descs world)) 2) = true.
Proof.
  split; [exact world_good|]. split; [vm_compute; reflexivity|]. split; [|vm_compute; reflexivity].
  exists (generate (descs world)). split; [exact world_program|]. split; vm_compute; reflexivity.
Qed.
