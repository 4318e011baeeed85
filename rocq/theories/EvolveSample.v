(** Two versions of .proto files. *)
From Coq Require Import String.
From Verif Require Import Base Wire GoType Leaf Codec Tag Walker Api Typing SpecWire SpecMsg SpecExact SpecAbsorb SpecEvolve WalkSeq MsgApi ProtoGen
  RefuteMsg GenText GenDesc SpecText SpecGo SpecDesc SpecProgram GoSample ProgramFacts EvolveThms.
From Verif Require Import SpecProto.
Local Open Scope N_scope.

(** The files person.proto and geo.proto, old *)
Definition entry (k v : pkind) (m : nat) : nmessage :=
  {| nm_ident := "Person_PlacesEntry"; nm_ref := "Person_PlacesEntry"; nm_entry := true; nm_tracked := false; nm_doc := no_doc;
     nm_fields := [nfd (nd 1 k CardOptional false 0 None) "Key" "Person_PlacesEntry_Key";
                   nfd (nd 2 v CardOptional false m None) "Value" "Person_PlacesEntry_Value"]; nm_oneofs := [] |}.
Definition person1 : nmessage :=
  {| nm_ident := "Person"; nm_ref := "Person"; nm_entry := false; nm_tracked := false; nm_doc := no_doc;
     nm_fields := [nfd (nd 1 StringKind CardOptional false 0 None) "Name" "Person_Name";
                   nfd (nd 2 Sint32Kind CardOptional true 0 (Some 0%nat)) "Age" "Person_Age";
                   nfd (nd 4 MessageKind CardRepeated false 1 None) "Places" "Person_Places";
                   nfd (nd 6 EnumKind CardRepeated false 0 None) "Colors" "Person_Colors";
                   nfd (nd 7 MessageKind CardRepeated false 0 None) "Friends" "Person_Friends";
                   nfd (nd 8 MessageKind CardOptional true 2 None) "Home" "Person_Home"];
     nm_oneofs := [{| n_name := "XAge"; n_ident := "Person_XAge"; n_synthetic := true; n_desc := "_age"; n_comments := "" |}] |}.
Definition world1 : list nmessage := [person1; entry StringKind StringKind 0; address].
Definition person1_file : nfile :=
  {| nx_path := "person.proto"; nx_deprecated := false; nx_package := "people"; nx_public := [];
     nx_enums := [{| e_ident := "Color"; e_doc := no_doc; e_vals := [{| v_ident := "Color_RED"; v_number := 0; v_doc := no_doc |}] |}];
     nx_messages := [person1; entry StringKind StringKind 0] |}.
(** and new. A message is new and stands first; names and the values of the map are
    bytes, the colors and the friends are no lists any more, but the latitudes are,
    the age is gone, and a number and a street have been added. *)
Definition street : nmessage :=
  {| nm_ident := "Street"; nm_ref := "geo.Street"; nm_entry := false; nm_tracked := false; nm_doc := no_doc;
     nm_fields := [nfd (nd 1 StringKind CardOptional false 0 None) "Name" "Street_Name"]; nm_oneofs := [] |}.
Definition address2 : nmessage :=
  {| nm_ident := "Address"; nm_ref := "geo.Address"; nm_entry := false; nm_tracked := false; nm_doc := no_doc;
     nm_fields := [nfd (nd 3 MessageKind CardOptional true 0 None) "Street" "Address_Street";
                   nfd (nd 2 Int64Kind CardOptional true 0 None) "Paint" "Address_Paint"; nfd (nd 1 DoubleKind CardRepeated false 0 None) "Lat" "Address_Lat"]; nm_oneofs := [] |}.
Definition person2 : nmessage :=
  {| nm_ident := "Person"; nm_ref := "Person"; nm_entry := false; nm_tracked := false; nm_doc := no_doc;
     nm_fields := [nfd (nd 9 Int32Kind CardOptional false 0 None) "Number" "Person_Number";
                   nfd (nd 1 BytesKind CardOptional false 0 None) "Name" "Person_Name";
                   nfd (nd 4 MessageKind CardRepeated false 3 None) "Places" "Person_Places";
                   nfd (nd 6 Uint64Kind CardOptional false 0 None) "Color" "Person_Color";
                   nfd (nd 7 MessageKind CardOptional true 2 None) "Friend" "Person_Friend";
                   nfd (nd 8 MessageKind CardOptional true 1 None) "Home" "Person_Home"]; nm_oneofs := [] |}.
Definition world2 : list nmessage := [street; address2; person2; entry StringKind BytesKind 0].
Definition world2_scope (s : string) : entity :=
  if String.eqb s "geo.Street" then EStruct 0 else if String.eqb s "geo.Address" then EStruct 1 else if String.eqb s "Person" then EStruct 2 else EElse.
Definition person2_file : nfile :=
  {| nx_path := "person.proto"; nx_deprecated := false; nx_package := "people"; nx_public := []; nx_enums := []; nx_messages := [person2; entry StringKind BytesKind 0] |}.
Definition address2_file : nfile :=
  {| nx_path := "geo.proto"; nx_deprecated := false; nx_package := "geo"; nx_public := []; nx_enums := []; nx_messages := [street; address2] |}.
Lemma world1_good : good_scope world1 world_scope.
Proof.
  constructor.
  - intros [|[|[|i]]] m E N; cbn in E; try (injection E as <-; try discriminate N; split; reflexivity). destruct i; discriminate E.
  - intros m x I J K. cbn in I. destruct I as [<-|[<-|[<-|[]]]]; cbn in J; repeat (destruct J as [<-|J]; [first [discriminate K|split; reflexivity]|]); destruct J.
  - intros m n I J. cbn in I. destruct I as [<-|[<-|[<-|[]]]]; cbn in J; repeat (destruct J as [<-|J]; [split; reflexivity|]); destruct J.
Qed.
Lemma world1_files : good_files world1 [person1_file; address_file].
Proof. intros f [<-|[<-|[]]]; (split; [|vm_compute; reflexivity]); intros m I; cbn in I; cbn; tauto. Qed.
Lemma world1_program : compiles world1 world_scope (texts world1 [person1_file; address_file]) (generate (descs world1)).
Proof.
  apply program_exists; [exact world1_good|vm_compute; reflexivity|exact world1_files| |].
  - intros m I E. cbn in I. destruct I as [<-|[<-|[<-|[]]]]; [exists person1_file|discriminate E|exists address_file]; cbn; tauto.
  - intros f [<-|[<-|[]]]; cbv; repeat (constructor; [cbn; intuition discriminate|]); constructor.
Qed.
Lemma world2_good : good_scope world2 world2_scope.
Proof.
  constructor.
  - intros [|[|[|[|i]]]] m E N; cbn in E; try (injection E as <-; try discriminate N; split; reflexivity). destruct i; discriminate E.
  - intros m x I J K. cbn in I. destruct I as [<-|[<-|[<-|[<-|[]]]]]; cbn in J; repeat (destruct J as [<-|J]; [first [discriminate K|split; reflexivity]|]); destruct J.
  - intros m n I J. cbn in I. destruct I as [<-|[<-|[<-|[<-|[]]]]]; cbn in J; repeat (destruct J as [<-|J]; [split; reflexivity|]); destruct J.
Qed.
Lemma world2_files : good_files world2 [person2_file; address2_file].
Proof. intros f [<-|[<-|[]]]; (split; [|vm_compute; reflexivity]); intros m I; cbn in I; cbn; tauto. Qed.
Lemma world2_program : compiles world2 world2_scope (texts world2 [person2_file; address2_file]) (generate (descs world2)).
Proof.
  apply program_exists; [exact world2_good|vm_compute; reflexivity|exact world2_files| |].
  - intros m I E. cbn in I. destruct I as [<-|[<-|[<-|[<-|[]]]]]; [exists address2_file|exists address2_file|exists person2_file|discriminate E]; cbn; tauto.
  - intros f [<-|[<-|[]]]; cbv; repeat (constructor; [cbn; intuition discriminate|]); constructor.
Qed.
(** Messages of the same name. *)
Definition namesake (X X' : list nmessage) (m m' : nat) : bool :=
  match nth_error X m, nth_error X' m' with Some a, Some b => String.eqb (nm_ident a) (nm_ident b) | _, _ => false end.
(** [evolves] as a test. *)
Definition evolvesb (same : nat -> nat -> bool) (F F' : descriptors) : bool :=
  forallb (fun m => forallb (fun m' => negb (same m m') ||
    match nth_error F m, nth_error F' m' with
    | Some d, Some d' => forallb (fun a => forallb (fun b => negb (d_number a =? d_number b) || field_may_become same F F' a b) (ordinary d')) (ordinary d)
    | _, _ => true
    end) (seq 0 (List.length F'))) (seq 0 (List.length F)).
Lemma evolvesb_correct same F F' : evolvesb same F F' = true -> evolves same F F'.
Proof.
  unfold evolvesb. rewrite forallb_forall. intros H m m' d d' Hm E E' a b Ia Ib En.
  assert (I : In m (seq 0 (List.length F))) by (apply in_seq; split; [lia|]; apply nth_error_Some; congruence).
  assert (I' : In m' (seq 0 (List.length F'))) by (apply in_seq; split; [lia|]; apply nth_error_Some; congruence).
  specialize (H m I). rewrite forallb_forall in H. specialize (H m' I'). rewrite Hm, E, E' in H. cbn [negb orb] in H.
  rewrite forallb_forall in H. specialize (H a Ia). rewrite forallb_forall in H. specialize (H b Ib). rewrite En, N.eqb_refl in H. exact H.
Qed.
Definition friend (name : N) (color : Z) (friends : list val) : list val :=
  [VStr [name]; VOpt true (VI32 (-2)); VMap (Some [(VStr [104], VStr [name])]); VSlice true [VI32 7; VI32 color] []; VSlice true friends [];
   VPtr (Some (VStruct [VOpt true (VF64 5); VI32 color; VOther 0]))].
Definition sender : list val := friend 65 1 [VPtr (Some (VStruct (friend 66 (-1) []))); VPtr (Some (VStruct (friend 67 3 [])))].
Definition holder : list val :=
  [VI32 8; VBytes None; VMap (Some [(VStr [119], VBytes (Some [9]))]); VU64 2; VPtr None;
   VPtr (Some (VStruct [VPtr (Some (VStruct [VStr [83]; VOther 0])); VOpt false (VI64 0); VSlice true [VF64 6] []]))].
Definition merged : list val :=
  [VI32 8; VBytes (Some [65]); VMap (Some [(VStr [119], VBytes (Some [9])); (VStr [104], VBytes (Some [65]))]); VU64 1;
   VPtr (Some (VStruct [VI32 0; VBytes (Some [67]); VMap (Some [(VStr [104], VBytes (Some [67]))]); VU64 3; VPtr None;
     VPtr (Some (VStruct [VPtr None; VOpt true (VI64 3); VSlice true [VF64 5; VF64 5] []]))]));
   VPtr (Some (VStruct [VPtr (Some (VStruct [VStr [83]; VOther 0])); VOpt true (VI64 1); VSlice true [VF64 6; VF64 5] []]))].

(** A file with one message with one field. *)
Definition point (k : pkind) : nmessage :=
  {| nm_ident := "Point"; nm_ref := "Point"; nm_entry := false; nm_tracked := false; nm_doc := no_doc;
     nm_fields := [nfd (nd 1 k CardOptional false 0 None) "X" "Point_X"]; nm_oneofs := [] |}.
Definition point_file (k : pkind) : nfile :=
  {| nx_path := "point.proto"; nx_deprecated := false; nx_package := "geo"; nx_public := []; nx_enums := []; nx_messages := [point k] |}.
Definition point_scope (s : string) : entity := if String.eqb s "Point" then EStruct 0 else EElse.
Lemma point_program k : In k [Int64Kind; BoolKind; Sint64Kind; Sint32Kind] ->
  good_scope [point k] point_scope /\ covered (descs [point k]) = true /\ good_files [point k] [point_file k] /\
  compiles [point k] point_scope (texts [point k] [point_file k]) (generate (descs [point k])).
Proof.
  intros Hk.
  assert (SC : good_scope [point k] point_scope).
  { constructor.
    - intros [|i] m E N; cbn in E; [injection E as <-; split; reflexivity|destruct i; discriminate E].
    - intros m x [<-|[]] J K. cbn in J. destruct J as [<-|[]]. exfalso. repeat (destruct Hk as [<-|Hk]; [discriminate K|]). exact Hk.
    - intros m n [<-|[]] []. }
  assert (CV : covered (descs [point k]) = true) by (repeat (destruct Hk as [<-|Hk]; [vm_compute; reflexivity|]); destruct Hk).
  assert (GF : good_files [point k] [point_file k]).
  { intros f [<-|[]]; split; [intros m I; exact I|]. repeat (destruct Hk as [<-|Hk]; [vm_compute; reflexivity|]). destruct Hk. }
  split; [exact SC|]. split; [exact CV|]. split; [exact GF|]. apply program_exists; [exact SC| |exact GF| |].
  - unfold covered in CV. do 3 (apply andb_true_iff in CV; destruct CV as [CV _]). exact CV.
  - intros m [<-|[]] _. exists (point_file k). cbn. tauto.
  - intros f [<-|[]]. cbv. repeat (constructor; [cbn; intuition discriminate|]). constructor.
Qed.
Lemma evolve_refuted_proof : exists X scope files D X' scope' files' D' xs ys b x e,
  good_scope X scope /\ covered (descs X) = true /\ good_files X files /\ compiles X scope (texts X files) D /\
  good_scope X' scope' /\ covered (descs X') = true /\ good_files X' files' /\ compiles X' scope' (texts X' files') D' /\
  msg (schema_of (descs X)) 0 = [Field 1 (FImplicit Y_int64); Hidden TOther] /\ msg (schema_of (descs X')) 0 = [Field 1 (FImplicit Y_bool); Hidden TOther] /\
  wts D' (VStruct xs) (SNamed 0) = true /\ wts D (VStruct ys) (SNamed 0) = true /\
  fst (Marshal D (ptr 0 ys) g_empty) = Returns (Some b, None) /\ fst (Unmarshal D' b (ptr 0 xs) g_empty) = Returns (x, Some e).
Proof.
  destruct (point_program Int64Kind ltac:(cbn; tauto)) as (A1 & A2 & A3 & A4). destruct (point_program BoolKind ltac:(cbn; tauto)) as (B1 & B2 & B3 & B4).
  exists [point Int64Kind], point_scope, [point_file Int64Kind], (generate (descs [point Int64Kind])),
    [point BoolKind], point_scope, [point_file BoolKind], (generate (descs [point BoolKind])), [VBool false; VOther 0], [VI64 300; VOther 0],
    [8;172;2], (ptr 0 [VBool true; VOther 0]), (UnmarshalFieldError 0 2 ErrUnexpectedEOF).
  do 8 (split; [assumption|]). do 4 (split; [vm_compute; reflexivity|]). split; vm_compute; reflexivity.
Qed.
