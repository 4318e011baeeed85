(** Property theorems about the memory Unmarshal reads, writes and keeps (C33).
    [mUnmarshal grow D M b k x s] (Alias.v) is Unmarshal of the buffer [b] into a
    pointer to the message [x] of type [k], both living in the memory [M]; [grow]
    is what append adds to the capacity of new arrays. *)
From Verif Require Import Base Wire GoType Leaf Codec Tag Walker Api Alias SpecAlias AliasThms.
Local Open Scope Z_scope.

(** Unmarshal on memory returns what Unmarshal on values returns, if no byte
    slice of the message shares memory with the buffer or another field. *)
Theorem unmarshal_on_memory : forall grow D M b k x s,
  allocated M b -> owned M x -> ~ In (ar b) (bytes_ids (items_of x)) ->
  Unmarshal D (content M b) (IPtr k (Some (denote M x))) s =
    (amap (seen k) (fst (mUnmarshal grow D M b k x s)), snd (mUnmarshal grow D M b k x s)).
Proof. exact memory_proof. Qed.
Print Assumptions unmarshal_on_memory.
Example unmarshal_on_memory_ex :
  allocated blob_mem (whole 0 blob_in) /\ owned blob_mem blob_msg /\ apart (whole 0 blob_in) blob_msg /\
  fst (Unmarshal blobD blob_in (IPtr (SNamed 0) (Some (denote blob_mem blob_msg))) g_empty) =
    Returns (IPtr (SNamed 0) (Some (VStruct [VBytes (Some [7; 8]%N); VStr [65%N]; VSlice true [VBytes (Some [9]%N)] []])), None).
Proof.
  split; [split; cbn; [lia|split; cbn; lia]|]. split; [exact owned_blob|].
  split; [split; cbn; [intros [H|[H|[]]]; discriminate|tauto]|]. vm_compute. reflexivity.
Qed.

(** Then, also when it returns an error, Unmarshal has not written the buffer nor
    any other memory than that of the byte slices the message had (including
    those between length and capacity of repeated fields), and changing the
    buffer afterwards does not change the message. The message owns its memory
    again, none of which is that of any buffer it was apart from: so calls with
    several buffers can follow each other. *)
Theorem no_alias_partial : forall grow D M b k x s x' M' e s',
  allocated M b -> owned M x -> apart b x ->
  mUnmarshal grow D M b k x s = (Returns (x', M', e), s') ->
  array M' (ar b) = array M (ar b) /\
  (forall a, (a < length M)%nat -> ~ In a (bytes_ids (items_of x)) -> array M' a = array M a) /\
  (forall M'', same_except (ar b) M' M'' -> denote M'' x' = denote M' x') /\
  owned M' x' /\
  (forall b', (ar b' < length M)%nat -> apart b' x -> apart b' x').
Proof. exact no_alias_proof. Qed.
Print Assumptions no_alias_partial.
(** Field 1 is overwritten in place, and the stale slot of field 3 is reused. *)
Example no_alias_ex : exists x' s',
  mUnmarshal (fun n => n) blobD blob_mem (whole 0 blob_in) (SNamed 0) blob_msg g_empty =
    (Returns (x', [blob_in; [7; 8; 3]; [9]; [65]]%N, None), s').
Proof. do 2 eexists. vm_compute. reflexivity. Qed.

(** A new message satisfies the conditions, whatever the buffer. *)
Theorem fresh_message_owned : forall D M b k,
  denote M (mzero_struct D k) = zero_struct D k /\ owned M (mzero_struct D k) /\ apart b (mzero_struct D k).
Proof. exact fresh_proof. Qed.
Print Assumptions fresh_message_owned.
Example fresh_message_ex : mzero_struct blobD (SNamed 0) = MStruct [MBytes None; MStr empty_slice; MSlice false [] []].
Proof. reflexivity. Qed.

(** If a field of the message is a slice of the buffer, Unmarshal overwrites its
    own input. *)
Theorem no_alias_refuted : exists D M b k x x' M' s',
  allocated M b /\ owned M x /\
  mUnmarshal (fun n => n) D M b k x g_empty = (Returns (x', M', None), s') /\ content M' b <> content M b.
Proof. exact input_written_proof. Qed.
Print Assumptions no_alias_refuted.

(** If two fields are slices of one array, decoding one changes the other. *)
Theorem shared_fields_refuted : exists D M b k x x' M' s' y1 y2 y1' y2',
  allocated M b /\ apart b x /\ Forall (item_ok M) (items_of x) /\
  denote M x = VStruct [y1; y2] /\
  mUnmarshal (fun n => n) D M b k x g_empty = (Returns (x', M', None), s') /\
  denote M' x' = VStruct [y1'; y2'] /\
  fst (Unmarshal D (content M b) (IPtr k (Some (VStruct [y1; y2]))) g_empty) =
    Returns (IPtr k (Some (VStruct [y1'; y2])), None) /\ y2' <> y2.
Proof. exact shared_proof. Qed.
Print Assumptions shared_fields_refuted.

(** A slice that is no longer part of the message, because the repeated field it
    was an element of was truncated, is overwritten. *)
Theorem kept_slice_refuted : exists D M b k x kept x' M' s',
  allocated M b /\ owned M x /\ apart b x /\
  denote M x = VStruct [VBytes None; VStr []; VSlice true [] [VBytes (Some (content M kept))]] /\
  mUnmarshal (fun n => n) D M b k x g_empty = (Returns (x', M', None), s') /\
  content M' kept <> content M kept.
Proof. exact stale_proof. Qed.
Print Assumptions kept_slice_refuted.
