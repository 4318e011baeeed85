(** Property theorems about runs of the plugin. *)
From Coq Require Import String.
From Verif Require Import Base GenFile SpecGenFile GenFileFacts RefutePlugin Run SpecRun RunFacts.
Local Open Scope list_scope.

(** C73. protoc gets one file for each file it asked for, in that order, and
    none for the files that these import, publicly or not, with the
    declarations of that file and of its public imports; and the plugin
    declares the feature of optional fields in proto3. *)
Theorem plugin_response : forall files, ordered (map r_file files) ->
  exists fs, run_plugin files = Some {| a_files := fs; a_features := 1 |} /\ Forall2 (made_from files) (filter r_generate files) fs.
Proof. exact plugin_response_proof. Qed.
Print Assumptions plugin_response.
Theorem plugin_names : forall files, ordered (map r_file files) -> forall fs n, run_plugin files = Some {| a_files := fs; a_features := n |} ->
  NoDup (map r_prefix files) -> NoDup (map fst fs).
Proof. exact plugin_names_proof. Qed.
Print Assumptions plugin_names.
Example plugin_ex : let f n g p imps ms := {| r_file := file_of p imps ms; r_prefix := n; r_generate := g |} in
  let files := [f "a" false "pa" [] [plain_msg "A"]; f "b" true "pb" [pub 0] [plain_msg "B"]; f "c" true "pc" [pub 1; pub 0] [plain_msg "C"]]%string in
  ordered (map r_file files) /\
  option_map (fun r => map (fun o => (fst o, map g_ident (snd o))) (a_files r)) (run_plugin files) =
    Some [("b.pb.go", ["A"; "B"]); ("c.pb.go", ["B"; "A"; "C"])]%string /\
  option_map (map (fun g => (o_name g, o_skip g))) (runAll files 0 files []) =
    Some [("b.pb.go", false); ("a.pb.go", true); ("c.pb.go", false); ("b.pb.go", true); ("a.pb.go", true); ("a.pb.go", true)]%string.
Proof. split; [apply ordered_dec; vm_compute; reflexivity|]. vm_compute. split; reflexivity. Qed.
