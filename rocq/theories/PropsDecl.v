(** Property theorems: the declarations of a generated file, read and run as Go. *)
From Coq Require Import String Ascii.
From Verif Require Import Base GoType ProtoGen SpecProto GenText GenDesc SpecStructTag SpecText SpecGo SpecDesc SpecDecl SpecMethods DeclThms GoSample DeclSample.
Local Open Scope string_scope.
Local Open Scope list_scope.

(** C63. A generated file declares its package, the names it forwards, its enums
    with their values, and for every message its struct, getters, interfaces and
    wrappers, in this order and nothing else. *)
Theorem generated_declarations : forall X scope, good_scope X scope -> valid (descs X) = true ->
  forall f, incl (nx_messages f) X -> named_file f = true -> simple_file f = true ->
  option_map (flat_map things_of) (go_decls (GenerateText X f)) = Some (file_things X f).
Proof. exact declared_proof. Qed.
Print Assumptions generated_declarations.
Example generated_declarations_ex : good_scope world world_scope /\ valid (descs world) = true /\ incl (nx_messages person_file) world /\ named_file person_file = true /\ simple_file person_file = true /\
  option_map (flat_map things_of) (go_decls (GenerateText world person_file)) = Some
   [APackage "people"; AName "type" "Color" "int32"; AConst "Color_RED" "Color" 0; AStruct "Person";
    AMethod "Person" "GetContact" "isPerson_Contact"; AMethod "Person" "GetEmail" "string"; AMethod "Person" "GetHome" "*geo.Address";
    AnInterface "isPerson_Contact" ["isPerson_Contact"]; AStruct "Person_Email"; AStruct "Person_Home";
    AnEmptyMethod "Person_Email" "isPerson_Contact"; AnEmptyMethod "Person_Home" "isPerson_Contact"].
Proof. split; [exact world_good|]. split; [reflexivity|]. split; [intros m [<-|[<-|[]]]; cbn; auto|]. repeat split; vm_compute; reflexivity. Qed.

(** C64. Run on any receiver, nil or not, the getter of a oneof returns what the
    oneof's field holds, and the getter of a member returns the member's value if
    the oneof holds its wrapper, and else the type's default. *)
Theorem generated_getters : forall X scope consts, good_scope X scope -> valid (descs X) = true ->
  forall f, incl (nx_messages f) X -> named_file f = true -> simple_file f = true -> distinct f ->
  forall m x o, In m (nx_messages f) -> nm_entry m = false -> In x (nm_fields m) -> member m x = Some o -> d_weak (nf_desc x) = false -> good_first consts x ->
  exists decls, go_decls (GenerateText X f) = Some decls /\ forall p depth, wraps (held p (nth o (nm_oneofs m) no_oneof)) -> (2 <= depth)%nat ->
    call scope consts decls depth (nm_ident m) ("Get" ++ n_name (nth o (nm_oneofs m) no_oneof)) p = Returns (held p (nth o (nm_oneofs m) no_oneof)) /\
    call scope consts decls depth (nm_ident m) ("Get" ++ nf_name x) p = member_value (held p (nth o (nm_oneofs m) no_oneof)) x.
Proof. exact getters_proof. Qed.
Print Assumptions generated_getters.
Example generated_getters_ex : exists decls, go_decls (GenerateText world person_file) = Some decls /\
  map (fun '(g, p) => call world_scope (fun _ => None) decls 2 "Person" g p)
    [("GetEmail", holds_mail); ("GetHome", holds_mail); ("GetEmail", None); ("GetHome", None); ("GetContact", None); ("GetEmail", holds_nil); ("GetHome", holds_nil)] =
    [Returns (Plain mail); Returns (Plain (VPtr None)); Returns (Plain (VStr [])); Returns (Plain (VPtr None)); Returns NoValue; Panics; Returns (Plain (VPtr None))].
Proof. eexists. split; [vm_compute; reflexivity|]. vm_compute. reflexivity. Qed.
Example generated_getters_distinct_ex : distinct person_file /\ wraps (held holds_mail (nth 0 (nm_oneofs person) no_oneof)) /\
  exists x, In x (nm_fields person) /\ member person x = Some 0%nat /\ d_weak (nf_desc x) = false /\ good_first (fun _ => None) x.
Proof.
  split; [exact person_distinct|]. split; [exact Logic.I|]. exists (nth 2 (nm_fields person) (nfd (nd 1 StringKind CardOptional false 0 None) "" "")).
  split; [cbn; auto|]. split; [reflexivity|]. split; [reflexivity|]. intros K. discriminate K.
Qed.

(** C65. The types with the methods of a oneof's interface are the wrappers of
    its members and no others. *)
Theorem generated_interfaces : forall X scope, good_scope X scope -> valid (descs X) = true ->
  forall f, incl (nx_messages f) X -> named_file f = true -> simple_file f = true -> distinct f ->
  forall m o n, In m (nx_messages f) -> nm_entry m = false -> nth_error (nm_oneofs m) o = Some n -> n_synthetic n = false ->
  exists decls, go_decls (GenerateText X f) = Some decls /\
  forall t, implements decls t ("is" ++ n_ident n) <-> exists x, In x (nm_fields m) /\ member m x = Some o /\ t = nf_ident x.
Proof. exact implements_proof. Qed.
Print Assumptions generated_interfaces.
Example generated_interfaces_ex : exists decls, go_decls (GenerateText world person_file) = Some decls /\
  implements decls "Person_Email" "isPerson_Contact" /\ implements decls "Person_Home" "isPerson_Contact" /\ ~ implements decls "Person" "isPerson_Contact".
Proof.
  eexists. split; [vm_compute; reflexivity|]. repeat split.
  - exists ["isPerson_Contact"]. split; [cbn; auto 10|]. intros g [<-|[]]. left. cbn. auto 20.
  - exists ["isPerson_Contact"]. split; [cbn; auto 10|]. intros g [<-|[]]. left. cbn. auto 20.
  - intros (fs & D & H). cbn in D. repeat (destruct D as [D|D]; [try discriminate D|]); [|destruct D]. injection D as <-. destruct (H _ (or_introl eq_refl)) as [D|(me & D & E1 & E2)].
    + cbn in D. repeat (destruct D as [D|D]; [discriminate D|]). destruct D.
    + cbn in D. repeat (destruct D as [D|D]; [try discriminate D; injection D as <-; discriminate E2|]). destruct D.
Qed.
