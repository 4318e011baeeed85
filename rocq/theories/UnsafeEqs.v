(** Unfolding equations for the functions of Unsafe.v. *)
From Verif Require Import Base Wire GoType Leaf Codec Walker Api Unsafe.

Section Eqs.
Context {R I : Type}.
Variable look : R -> cbody R I.
Variable iget : I -> sinfo R.
Variable D : decls.
Variable other : nat -> nat -> nat * nat.
Variable grow : nat -> nat.
Variable pick : ust -> skey -> option nat.
Notation usz := (usz look iget D other).
Notation usizes := (usizes look iget D other).
Notation uenc := (uenc look iget D other).
Notation uencs := (uencs look iget D other).
Notation udec := (udec grow pick look iget D other).
Notation udecs := (udecs grow pick look iget D other).
Notation field_addr := (field_addr D other).
Notation get_entry := (get_entry pick D other).
Notation u_decode := (u_decode grow).
Notation ssize := (ssize D other).
Notation foffset := (foffset D other).

Lemma usz_S fuel c H a f : usz (S fuel) c H a f =

    match look c with
    | BNil => Panics NilFunc
    | BStatic s => api_res (u_size s H a f)
    | BPtr _ c' =>                                       (* walker.go:342-350 *)
      aopt (ld_ptr H a) (fun p => match p with None => Returns 0%Z | Some a => usz fuel c' H a f end)
    | BSlice t c' =>                                     (* slice.go:31-43 *)
      aopt (ld_hdr H a) (fun h => let '(p, len, _) := h in
        sum_api (map (fun i => aopt (index p i (alignedSize t)) (fun a => usz fuel c' H a f)) (seq 0 len)))
    | BStruct k i =>                                     (* walker.go:88-96 *)
      aopt (ld_ptr H a) (fun p => match p with
        | None => Returns 0%Z
        | Some a =>
          abind (usizes fuel k i H a) (fun n => Returns (n + (sizeOfVarint (u64 n) + tagsize f))%Z)
        end)
    | BMap tag kf vf _ _ =>                              (* map.go:30-56 *)
      aopt (ld_ptr H a) (fun p => aopt (entries H p) (fun l =>
        let mapTagSize := sizeOfVarint tag in
        abind (sum_api (map (fun kv =>
          abind (usz fuel (f_codec kf) H (fst kv, O) (f_meta kf)) (fun keySize =>
          abind (usz fuel (f_codec vf) H (snd kv, O) (f_meta vf)) (fun valSize =>
          Returns (mapTagSize + sizeOfVarint (u64 (keySize + valSize)) + keySize + valSize)%Z))) l))
        (fun n => Returns (if (n =? 0)%Z then mapTagSize + 1 else n)%Z)))
    end.
Proof. reflexivity. Qed.
Lemma usizes_S fuel k i H a : usizes (S fuel) k i H a =
 sum_api (map (fun f => usz fuel (f_codec f) H (field_addr k a f) (f_meta f)) (i_fields (iget i))).
Proof. reflexivity. Qed.
Lemma uenc_S fuel c H b a f : uenc (S fuel) c H b a f =

    match look c with
    | BNil => Panics NilFunc
    | BStatic s => api_res (u_encode s H b a f)
    | BPtr _ c' =>                                       (* walker.go:352-360 *)
      aopt (ld_ptr H a) (fun p => match p with None => Returns b | Some a => uenc fuel c' H b a f end)
    | BSlice t c' =>                                     (* slice.go:45-56 *)
      aopt (ld_hdr H a) (fun h => let '(p, len, _) := h in
        chain_api b (map (fun i b => aopt (index p i (alignedSize t)) (fun a => uenc fuel c' H b a f)) (seq 0 len)))
    | BStruct k i =>                                     (* walker.go:97-106 *)
      aopt (ld_ptr H a) (fun p => match p with
        | None => Returns b
        | Some a =>
          abind (usizes fuel k i H a) (fun n =>
          uencs fuel k i H (appendVarint (appendVarint b (wiretag f)) (u64 n)) a)
        end)
    | BMap tag kf vf _ _ =>                              (* map.go:58-94 *)
      aopt (ld_ptr H a) (fun p => aopt (entries H p) (fun l =>
        let mapTag := appendVarint [] tag in
        abind (chain_api b (map (fun kv b =>
          abind (usz fuel (f_codec kf) H (fst kv, O) (f_meta kf)) (fun keySize =>
          abind (usz fuel (f_codec kf) H (snd kv, O) (f_meta vf)) (fun valSize =>    (* map.go:80 *)
          abind (uenc fuel (f_codec kf) H (appendVarint (b ++ mapTag) (u64 (keySize + valSize))) (fst kv, O) (f_meta kf)) (fun b =>
          uenc fuel (f_codec vf) H b (snd kv, O) (f_meta vf))))) l))
        (fun b' => Returns (if (zlen b' =? zlen b)%Z then b' ++ (mapTag ++ [0%N]) else b'))))
    end.
Proof. reflexivity. Qed.
Lemma uencs_S fuel k i H b a : uencs (S fuel) k i H b a =
 chain_api b (map (fun f b => uenc fuel (f_codec f) H b (field_addr k a f) (f_meta f)) (i_fields (iget i))).
Proof. reflexivity. Qed.
Lemma udec_S fuel c s b a : udec (S fuel) c s b a =

    match look c with
    | BNil => DCrash NilFunc
    | BStatic x => lift s (u_decode x (hp s) b a)
    | BPtr t c' =>                                       (* walker.go:362-371 *)
      dbind (ld_ptr (hp s) a) (fun p => match p with
        | Some a' => udec fuel c' s b a'
        | None =>
          let '(x, H) := alloc (hp s) (OMem (zeros (tsize t))) in
          dbind (store H a (ptr_cells (Some (x, O)))) (fun H => udec fuel c' (with_hp s H) b (x, O))
        end)
    | BSlice t c' =>                                     (* slice.go:58-75 *)
      dbind (ld_hdr (hp s) a) (fun h => let '(p, i, cap) := h in
        let grown :=
          if (i =? cap)%nat then
            match growSlice t (hp s) p i cap with
            | Some (d, cap', H) => option_map (fun H => (Some d, H)) (store H a (hdr (Some d) i cap'))
            | None => None
            end
          else Some (p, hp s) in
        dbind grown (fun g => let '(p, H) := g in
        dbind (index p i (alignedSize t)) (fun e =>
        match udec fuel c' (with_hp s H) b e with
        | DRet s n None =>
          dbind (store (hp s) (shift a 8) (len_cells (i + 1))) (fun H => DRet (with_hp s H) n None)
        | r => r
        end)))
    | BStruct k i =>                                     (* walker.go:107-118 *)
      dbind (ld_ptr (hp s) a) (fun p =>
        let v :=
          match p with
          | Some a' => Some (a', hp s)
          | None =>
            let '(x, H) := alloc (hp s) (OMem (zeros (ssize k))) in
            option_map (fun H => ((x, O), H)) (store H a (ptr_cells (Some (x, O))))
          end in
        dbind v (fun v => let '(a', H) := v in
        let s := with_hp s H in
        let '(_, n, e) := decodeVarint b in
        match e with
        | Some e => DRet s n (Some e)
        | None =>
          match from_ b n with
          | None => DCrash Bounds
          | Some b' =>
            match udecs fuel k i s b' 0 a' with
            | DRet s l e => DRet s (n + l) e
            | r => r
            end
          end
        end))
    | BMap _ _ _ k i =>                                  (* map.go:117-143 *)
      dbind (ld_ptr (hp s) a) (fun p =>
        let m :=
          match p with
          | Some _ => Some (hp s)
          | None => let '(x, H) := alloc (hp s) (OMap []) in store H a (ptr_cells (Some (x, O)))
          end in
        dbind m (fun H =>
        let s := with_hp s H in
        if (zlen b =? 0)%Z then DRet s 0 None
        else
          let '(en, s) := get_entry s k in
          let '(_, nl, e) := decodeVarint b in
          match e with
          | Some e => DRet s 0 (Some e)
          | None =>
            match from_ b nl with
            | None => DCrash Bounds
            | Some b' =>
              match udecs fuel k i s b' 0 en with
              | DRet s n e =>
                let H :=
                  match e, k with
                  | Some _, _ => Some (hp s)
                  | None, SEntry key val _ _ =>
                    match ld_ptr (hp s) a with
                    | Some (Some (m, O)) =>
                      match mapassign key val (hp s) m en with
                      | Some (v, H) => move H (v, O) (shift en (foffset k 1)) (tsize val)
                      | None => None
                      end
                    | _ => None
                    end
                  | None, _ => None
                  end in
                dbind H (fun H =>
                dbind (store H en (zeros (ssize k))) (fun H =>
                DRet {| hp := H; pl := (k, en) :: pl s |} (n + nl) e))
              | r => r
              end
            end
          end))
    end.
Proof. reflexivity. Qed.
Lemma udecs_S fuel k i s b offset a : udecs (S fuel) k i s b offset a =

    if (offset <? zlen b)%Z then
      match from_ b offset with
      | None => DCrash Bounds
      | Some tl =>
        let '(fn, wt, n, e) := decodeTag tl in
        let offset := (offset + n)%Z in
        match e with
        | Some e => DRet s offset (Some e)
        | None =>
          match lookup_field (iget i) fn with
          | None =>
            match skip_unknown b offset wt with
            | CR c => DCrash c
            | OK (offset, Some e) => DRet s offset (Some (fieldError fn wt e))
            | OK (offset, None) => udecs fuel k i s b offset a
            end
          | Some f =>
            if negb (wt =? wireType f)%N then
              DRet s offset (Some (fieldError fn wt (ErrExpectedWireType (wireType f))))
            else
              match field_data b offset wt with
              | FCrash => DCrash Bounds
              | FErr offset e => DRet s offset (Some (fieldError fn wt e))
              | FData data =>
                match udec fuel (f_codec f) s data (field_addr k a f) with
                | DRet s n e =>
                  let offset := (offset + n)%Z in
                  match e with
                  | Some e => DRet s offset (Some (fieldError fn wt e))
                  | None => udecs fuel k i s b offset a
                  end
                | r => r
                end
              end
          end
        end
      end
    else DRet s offset None.
Proof. reflexivity. Qed.
End Eqs.
