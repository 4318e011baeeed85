(** Receivers for the getters of the sample file, whose names are different. *)
From Coq Require Import String Ascii.
From Verif Require Import Base GoType ProtoGen GenText GenDesc SpecDesc SpecDecl SpecMethods GoSample.
Local Open Scope string_scope.

(** A person with an address of mail, asked for it and for their home; nobody; and
    a wrapper that is nil. *)
Definition mail : val := VStr [104; 105]%N.
Definition holds_mail : pointer := Some (fun n => if String.eqb n "Contact" then Points "Person_Email" (Some (fun _ => Plain mail)) else NoValue).
Definition holds_nil : pointer := Some (fun _ => Points "Person_Email" None).

Lemma person_distinct : distinct person_file.
Proof.
  constructor.
  - intros m m' [<-|[<-|[]]] [<-|[<-|[]]] E E' N; try discriminate E; try discriminate E'; reflexivity.
  - intros m x x' [<-|[<-|[]]] J J' N; cbn in J, J'; repeat (destruct J as [<-|J]; [repeat (destruct J' as [<-|J']; [first [reflexivity|discriminate N]|]); destruct J'|]); destruct J.
  - intros m m' o o' n n' [<-|[<-|[]]] [<-|[<-|[]]] E E' S S' N; destruct o as [|[|[|o]]]; try discriminate E; destruct o' as [|[|[|o']]]; try discriminate E'; cbn in E, E'; injection E as <-; injection E' as <-;
      try discriminate S; try discriminate S'; split; reflexivity.
  - intros m o o' n n' [<-|[<-|[]]] E E' S S' N; destruct o as [|[|[|o]]]; try discriminate E; destruct o' as [|[|[|o']]]; try discriminate E'; cbn in E, E'; injection E as <-; injection E' as <-;
      try discriminate S; try discriminate S'; reflexivity.
  - intros m x n [<-|[<-|[]]] J K S N; cbn in K; repeat (destruct K as [<-|K]; [try discriminate S; cbn in J; repeat (destruct J as [<-|J]; [discriminate N|]); destruct J|]); destruct K.
Qed.
