(** A file for the examples of PropsGo.v. *)
From Coq Require Import String Ascii.
From Verif Require Import Base GoType ProtoGen SpecProto GenText GenDesc SpecStructTag SpecText SpecGo SpecDesc.
Local Open Scope string_scope.
Local Open Scope list_scope.

Definition note (s : string) : doc := {| leading := s; trailing := ""; deprecated := false |}.
Definition nd (n : N) (k : pkind) (c : cardinality) (p : bool) (msg : nat) (o : option nat) : pfield_desc :=
  {| d_number := n; d_kind := k; d_card := c; d_presence := p; d_weak := false; d_message := msg; d_oneof := o |}.
Definition nfd (d : pfield_desc) (name ident : string) : nfield :=
  {| nf_desc := d; nf_name := name; nf_ident := ident; nf_enum := "Color"; nf_first := "Color_RED"; nf_first_number := 0; nf_first_here := true; nf_doc := note " } type Fake struct {" |}.
Definition person : nmessage :=
  {| nm_ident := "Person"; nm_ref := "Person"; nm_entry := false; nm_tracked := false; nm_doc := note " A person.";
     nm_fields := [nfd (nd 1 StringKind CardOptional false 0 None) "Name" "Person_Name";
                   nfd (nd 2 Sint32Kind CardOptional true 0 (Some 1%nat)) "Age" "Person_Age";
                   nfd (nd 3 StringKind CardOptional true 0 (Some 0%nat)) "Email" "Person_Email";
                   nfd (nd 4 MessageKind CardRepeated false 1 None) "Places" "Person_Places";
                   nfd (nd 5 MessageKind CardOptional true 2 (Some 0%nat)) "Home" "Person_Home";
                   nfd (nd 6 EnumKind CardRepeated false 0 None) "Colors" "Person_Colors";
                   nfd (nd 7 MessageKind CardRepeated false 0 None) "Friends" "Person_Friends";
                   nfd (nd 8 BytesKind CardOptional false 0 None) "Key" "Person_Key"];
     nm_oneofs := [{| n_name := "Contact"; n_ident := "Person_Contact"; n_synthetic := false; n_desc := "contact"; n_comments := "" |};
                   {| n_name := "XAge"; n_ident := "Person_XAge"; n_synthetic := true; n_desc := "_age"; n_comments := "" |}] |}.
Definition places : nmessage :=
  {| nm_ident := "Person_PlacesEntry"; nm_ref := "Person_PlacesEntry"; nm_entry := true; nm_tracked := false; nm_doc := no_doc;
     nm_fields := [nfd (nd 1 StringKind CardOptional false 0 None) "Key" "Person_PlacesEntry_Key";
                   nfd (nd 2 MessageKind CardOptional true 2 None) "Value" "Person_PlacesEntry_Value"]; nm_oneofs := [] |}.
(** A message of another package. *)
Definition address : nmessage :=
  {| nm_ident := "Address"; nm_ref := "geo.Address"; nm_entry := false; nm_tracked := true; nm_doc := no_doc;
     nm_fields := [nfd (nd 1 DoubleKind CardOptional true 0 None) "Lat" "Address_Lat"; nfd (nd 2 EnumKind CardOptional false 0 None) "Paint" "Address_Paint"]; nm_oneofs := [] |}.
Definition world : list nmessage := [person; places; address].
Definition world_scope (s : string) : entity :=
  if String.eqb s "Person" then EStruct 0 else if String.eqb s "geo.Address" then EStruct 2 else if String.eqb s "Color" then EInt32 else EElse.
Definition person_file : nfile :=
  {| nx_path := "person.proto"; nx_deprecated := false; nx_package := "people"; nx_public := [];
     nx_enums := [{| e_ident := "Color"; e_doc := no_doc; e_vals := [{| v_ident := "Color_RED"; v_number := 0; v_doc := no_doc |}] |}]; nx_messages := [person; places] |}.
Definition address_file : nfile :=
  {| nx_path := "geo.proto"; nx_deprecated := false; nx_package := "geo"; nx_public := []; nx_enums := []; nx_messages := [address] |}.
Lemma world_good : good_scope world world_scope.
Proof.
  constructor.
  - intros [|[|[|i]]] m E N; cbn in E; try (injection E as <-; try discriminate N; split; reflexivity). destruct i; discriminate E.
  - intros m x I J K. cbn in I. destruct I as [<-|[<-|[<-|[]]]]; cbn in J; repeat (destruct J as [<-|J]; [first [discriminate K|split; reflexivity]|]); destruct J.
  - intros m n I J. cbn in I. destruct I as [<-|[<-|[<-|[]]]]; cbn in J; repeat (destruct J as [<-|J]; [split; reflexivity|]); destruct J.
Qed.
Definition seen (tag key val : string) (t : gotype) : gofield := {| gf_exported := true; gf_tag := Some tag; gf_key := key; gf_val := val; gf_type := t |}.
