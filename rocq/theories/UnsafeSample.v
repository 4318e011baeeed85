(** Messages in memory used in examples and counterexamples. *)
From Coq Require Import String.
From Verif Require Import Base Wire GoType Leaf Codec Walker Resolve Api Typing Sample WalkFuel Unsafe SpecUnsafe UnsafeMem UnsafeRep UnsafeEqs.
Local Open Scope nat_scope.


(** message M { int32 x = 1; bytes b = 2; repeated M r = 3; map<string, string> m = 4; } *)
Definition flatD : decls :=
  [[ sfield "varint,1,opt" (TScalar KInt32); sfield "bytes,2,opt" TBytes; sfield "bytes,3,rep" (TSlice (TMsg 0));
     smap "bytes,4,rep" "bytes,1,opt" "bytes,2,opt" (TMap KString (TScalar KString)) ]].
Definition flat_entry : skey := SEntry KString (TScalar KString) 10 18.
(** The message at (0, 0), an unrelated object 8, and a pooled entry at (9, 0). *)
Definition flatH : heap :=
  [ OMem (le_cells 4 7 ++ zeros 4 ++ hdr (Some (1, 0)) 2 3 ++ hdr (Some (2, 0)) 1 2 ++ ptr_cells (Some (4, 0)));
    OMem [MB 65; MB 66; MB 0];
    OMem (ptr_cells (Some (3, 0)) ++ zeros 8);
    OMem (zeros 64);
    OMap [(5, 6)];
    OMem (str_hdr (Some (7, 0)) 1);
    OMem (str_hdr (Some (7, 0)) 2);
    OStr [97; 98]%N;
    OMem [MB 1; MB 2];
    OMem (zeros 32) ].
Definition flat_zero : val := VStruct [VI32 0; VBytes None; VSlice false [] []; VMap None].
Definition flat_msg : val :=
  VStruct [VI32 7; VBytes (Some [65; 66]%N); VSlice true [VPtr (Some flat_zero)] [VPtr None]; VMap (Some [(VStr [97]%N, VStr [97; 98]%N)])].
Definition no_other : nat -> nat -> nat * nat := fun _ _ => (0, 1).

Ltac sets := intros ? ? ? ?; unfold union, range, whole, none in *; cbn [fst snd shift tsize kind_size] in *; intuition lia.
Ltac sep := intros _; sets.
Ltac mem := vm_compute; reflexivity.
Lemma flat_rep : exists S, rep_struct flatD no_other true flatH (SNamed 0) (0, 0) flat_msg S /\
  pool flatD no_other flatH [(flat_entry, (9, 0))] (union (range (9, 0) 32) none) /\ disjoint S (union (range (9, 0) 32) none) /\
  disjoint S (range (8, 0) 2).
Proof.
  eexists. split; [|split; [|split]].
  - exists [VI32 7; VBytes (Some [65; 66]%N); VSlice true [VPtr (Some flat_zero)] [VPtr None]; VMap (Some [(VStr [97]%N, VStr [97; 98]%N)])].
    split; [reflexivity|].
    change (placed flatD no_other (SNamed 0) (0, 0)) with [(TScalar KInt32, (0, 0)); (TBytes, (0, 8)); (TSlice (TMsg 0), (0, 32)); (TMap KString (TScalar KString), (0, 56))].
    eapply box_cons; [eapply rep_num; [reflexivity|reflexivity|mem]| |..].
    + eapply box_cons; [eapply (rep_bytes _ _ _ _ _ (1, 0) [65; 66]%N [MB 0]); [reflexivity|mem|mem|constructor; [exists 0%N; split; [reflexivity|reflexivity]|constructor]]| |..].
      * eapply box_cons; [eapply (rep_slice _ _ _ _ _ _ (2, 0)); [mem|]| |..].
        -- change (elems (TMsg 0) (2, 0) (length [VPtr (Some flat_zero)] + length [VPtr None])) with [(TMsg 0, (2, 0)); (TMsg 0, (2, 8))].
           cbn [app]. eapply box_cons; [eapply (rep_msg _ _ _ _ _ _ (3, 0)); [cbn; lia|mem|]| |..].
           ++ change (placed flatD no_other (SNamed 0) (3, 0)) with [(TScalar KInt32, (3, 0)); (TBytes, (3, 8)); (TSlice (TMsg 0), (3, 32)); (TMap KString (TScalar KString), (3, 56))].
              eapply box_cons; [eapply rep_num; [reflexivity|reflexivity|mem]| |..].
              ** eapply box_cons; [eapply rep_bytes_nil; mem| |..].
                 { eapply box_cons; [eapply rep_slice_nil; mem| |..].
                   - eapply box_cons; [eapply rep_map_nil; mem|apply box_nil|sep|sep].
                   - sep.
                   - sep. }
                 { sep. }
                 { sep. }
              ** sep.
              ** sep.
           ++ eapply box_cons; [eapply rep_msg_nil; mem|apply box_nil|sep|sep].
           ++ sep.
           ++ sep.
        -- eapply box_cons; [eapply (rep_map _ _ _ _ _ _ _ 4 [(5, 6)]); [mem|reflexivity|reflexivity|..]| |..].
           ++ cbn [flat flat_map slots fst snd app]. eapply box_cons; [eapply (rep_str _ _ _ _ _ (Some (7, 0)) [97]%N); [reflexivity| |mem]| |..].
              ** apply (text_some flatH 7 0 [97; 98]%N 1); [reflexivity|cbn; lia].
              ** eapply box_cons; [eapply (rep_str _ _ _ _ _ (Some (7, 0)) [97; 98]%N); [reflexivity| |mem]|apply box_nil|sep|sep].
                 apply (text_some flatH 7 0 [97; 98]%N 2); [reflexivity|cbn; lia].
              ** sep.
              ** sep.
           ++ sep.
           ++ apply box_nil.
           ++ sep.
           ++ sep.
        -- sep.
        -- sep.
      * sep.
      * sep.
    + sep.
    + sep.
  - apply (pool_cons flatD no_other flatH flat_entry (9, 0) [] none); [mem|constructor|sets].
  - sets.
  - sets.
Qed.
