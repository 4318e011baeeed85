(** Goroutines calling Size, Marshal and Unmarshal at the same time: facts
    about the programs of Conc.v. *)
From Coq Require Import ZifyBool ZifyNat ZifyN String.
From Verif Require Import Base Wire GoType Leaf Codec Tag Walker Api Conc SpecConc Resolve Typing SpecWire WireFacts DecodeFacts
  GenFacts TypingFacts CodecSim WalkInv WalkSpec WalkFuel WalkSeq.
Local Close Scope string_scope.

(** ** Executed alone, the programs are the functions of Codec.v and Api.v. *)
Lemma run_bind {A B} (p : prog A) (k : A -> prog B) : forall s,
  run (pbind p k) s = match run p s with
                      | (Done a, s') => run (k a) s'
                      | (Panicked, s') => (Panicked, s')
                      | (OutOfFuel, s') => (OutOfFuel, s')
                      end.
Proof.
  induction p as [a| | |o c IH]; intros s; cbn [pbind run]; try reflexivity.
  destruct (exec o s) as [r s']. apply IH.
Qed.

Lemma p_dec_S D fuel c b v : p_dec D (S fuel) c b v = (
    let* body := readCell c in
    match body with
    | BNil => Ret (DCrash NilFunc)
    | BStatic s => Ret (l_decode (static s) b v)
    | BPtr t c' =>
      match v with
      | VPtr o =>
        let x := match o with Some x => x | None => zero t end in
        let* r := p_dec D fuel c' b x in
        Ret (dmap (fun x => VPtr (Some x)) r)
      | _ => Ret (DCrash Confused)
      end
    | BSlice t c' =>
      match v with
      | VSlice nn items spare =>
        let grown := match spare with [] => true | _ => false end in
        let spare := match spare with [] => grow_spare t (length items) | _ => spare end in
        match spare with
        | [] => Ret (DCrash Bounds)
        | slot :: spare =>
          let* r := p_dec D fuel c' b slot in
          Ret match r with
          | DRet x n None => DRet (VSlice (nn || grown) (items ++ [x]) spare) n None
          | DRet x n (Some e) => DRet (VSlice (nn || grown) items (x :: spare)) n (Some e)
          | r => r
          end
        end
      | _ => Ret (DCrash Confused)
      end
    | BStruct k i =>
      match v with
      | VPtr o =>
        let x := match o with Some x => x | None => zero_struct D k end in
        let '(_, n, e) := decodeVarint b in
        match e with
        | Some e => Ret (DRet (VPtr (Some x)) n (Some e))
        | None =>
          match from_ b n with
          | None => Ret (DCrash Bounds)
          | Some b' =>
            let* r := p_decs D fuel i b' 0 x in
            Ret match r with
            | DRet x l e => DRet (VPtr (Some x)) (n + l) e
            | r => r
            end
          end
        end
      | _ => Ret (DCrash Confused)
      end
    | BMap _ _ _ k i =>
      match v with
      | VMap m =>
        let m := match m with Some l => l | None => [] end in
        if zlen b =? 0 then Ret (DRet (VMap (Some m)) 0 None)
        else
          let s := zero_struct D k in
          let '(_, nl, e) := decodeVarint b in
          match e with
          | Some e => Ret (DRet (VMap (Some m)) 0 (Some e))
          | None =>
            match from_ b nl with
            | None => Ret (DCrash Bounds)
            | Some b' =>
              let* r := p_decs D fuel i b' 0 s in
              Ret match r with
              | DRet (VStruct [key; x]) n None => DRet (VMap (Some (map_assign m key x))) (n + nl) None
              | DRet _ n None => DCrash Confused
              | DRet _ n (Some e) => DRet (VMap (Some m)) (n + nl) (Some e)
              | r => r
              end
            end
          end
      | _ => Ret (DCrash Confused)
      end
    end)%Z.
Proof. reflexivity. Qed.
Lemma p_decs_S D fuel i b offset x : p_decs D (S fuel) i b offset x = (
    if offset <? zlen b then
      match from_ b offset with
      | None => Ret (DCrash Bounds)
      | Some tl =>
        let '(fn, wt, n, e) := decodeTag tl in
        let offset := offset + n in
        match e with
        | Some e => Ret (DRet x offset (Some e))
        | None =>
          let* info := readInfo i in
          match lookup_field info fn with
          | None =>
            match skip_unknown b offset wt with
            | CR c => Ret (DCrash c)
            | OK (offset, Some e) => Ret (DRet x offset (Some (fieldError fn wt e)))
            | OK (offset, None) => p_decs D fuel i b offset x
            end
          | Some f =>
            if negb (wt =? wireType f)%N then
              Ret (DRet x offset (Some (fieldError fn wt (ErrExpectedWireType (wireType f)))))
            else
              match field_data b offset wt with
              | FCrash => Ret (DCrash Bounds)
              | FErr offset e => Ret (DRet x offset (Some (fieldError fn wt e)))
              | FData data =>
                match get_field x (f_idx f) with
                | None => Ret (DCrash Confused)
                | Some y =>
                  let* r := p_dec D fuel (f_codec f) data y in
                  match r with
                  | DRet y n e =>
                    let x := set_field x (f_idx f) y in
                    let offset := offset + n in
                    match e with
                    | Some e => Ret (DRet x offset (Some (fieldError fn wt e)))
                    | None => p_decs D fuel i b offset x
                    end
                  | r => Ret r
                  end
                end
              end
          end
        end
      end
    else Ret (DRet x offset None))%Z.
Proof. reflexivity. Qed.

Section Alone.
Variable s : gstate.
Notation "p =>> a" := (run p s = (Done a, s)) (at level 70).

Lemma run_readCell {B} c (k : hbody -> prog B) : run (pbind (readCell c) k) s = run (k (hlook s c)) s.
Proof. reflexivity. Qed.
Lemma run_readInfo {B} i (k : hinfo -> prog B) : run (pbind (readInfo i) k) s = run (k (higet s i)) s.
Proof. reflexivity. Qed.
Lemma run_rbindp {A B} (p : prog (res A)) (k : A -> prog (res B)) r g :
  p =>> r -> (forall a, k a =>> g a) -> rbindp p k =>> rbind r g.
Proof. intros H Hk. unfold rbindp. rewrite run_bind, H. destruct r; [apply Hk|reflexivity]. Qed.

Lemma run_p_sum l lr : Forall2 (fun p r => p =>> r) l lr -> p_sum l =>> sum_res lr.
Proof.
  induction 1 as [|p r l lr H _ IH]; [reflexivity|]. cbn [p_sum sum_res].
  apply run_rbindp; [assumption|]. intros a. apply run_rbindp; [assumption|]. reflexivity.
Qed.
Lemma run_p_chain l lr : Forall2 (fun p r => forall b, p b =>> r b) l lr -> forall b, p_chain b l =>> chain_res b lr.
Proof.
  induction 1 as [|p r l lr H _ IH]; intros b; [reflexivity|]. cbn [p_chain chain_res].
  apply run_rbindp; [apply H|]. intros a. apply IH.
Qed.
Lemma run_p_fields_size sub1 sub2 fs :
  (forall j, match sub1 j, sub2 j with
             | Some g1, Some g2 => forall c f, g1 c f =>> g2 c f
             | None, None => True | _, _ => False end) ->
  p_fields_size sub1 fs =>> fields_size sub2 fs.
Proof.
  intros H. induction fs as [|f fs IH]; [reflexivity|]. cbn [p_fields_size fields_size].
  apply run_rbindp.
  - specialize (H (f_idx f)). destruct (sub1 (f_idx f)), (sub2 (f_idx f)); try contradiction; [apply H|reflexivity].
  - intros a. apply run_rbindp; [assumption|]. reflexivity.
Qed.
Lemma run_p_fields_encode sub1 sub2 fs :
  (forall j, match sub1 j, sub2 j with
             | Some g1, Some g2 => forall b c f, g1 b c f =>> g2 b c f
             | None, None => True | _, _ => False end) ->
  forall b, p_fields_encode sub1 b fs =>> fields_encode sub2 b fs.
Proof.
  intros H. induction fs as [|f fs IH]; intros b; [reflexivity|]. cbn [p_fields_encode fields_encode].
  apply run_rbindp; [|intros a; apply IH].
  specialize (H (f_idx f)). destruct (sub1 (f_idx f)), (sub2 (f_idx f)); try contradiction; [apply H|reflexivity].
Qed.

Lemma Forall2_map2 {A B C} (P : B -> C -> Prop) (f : A -> B) (g : A -> C) l :
  Forall (fun x => P (f x) (g x)) l -> Forall2 P (map f l) (map g l).
Proof. induction 1; cbn [map]; constructor; auto. Qed.

Lemma run_p_sz : forall v c f, p_sz v c f =>> sz (hlook s) (higet s) v c f.
Proof.
  induction v as [v IH] using val_ind2; intros c f.
  destruct v; cbn [p_sz sz]; rewrite run_readCell; destruct (hlook s c) as [|x|t d|t d|k i|tag kf vf e i]; try reflexivity.
  - apply run_p_sum. apply Forall2_map2. eapply Forall_impl; [|apply IH]. cbn beta. auto.
  - apply run_rbindp; [|reflexivity]. apply run_p_sum. destruct m as [l|]; [|constructor].
    apply Forall2_map2. eapply Forall_impl; [|exact IH]. intros [k x] [Hk Hx]. cbn [fst snd] in *.
    apply run_rbindp; [apply Hk|]. intros a. apply run_rbindp; [apply Hx|]. reflexivity.
  - destruct o as [x|]; [|reflexivity]. apply IH.
  - destruct o as [x|]; [|reflexivity]. rewrite run_readInfo. apply run_rbindp; [|reflexivity].
    apply run_p_fields_size. intros j. destruct x; try (destruct j; exact Logic.I). rewrite !nth_error_map.
    destruct (nth_error fs j) as [y|] eqn:E; [|exact Logic.I]. cbn [option_map].
    destruct IH as [_ IH]. rewrite Forall_forall in IH. apply nth_error_In in E. intros. apply IH; assumption.
Qed.
Lemma run_p_struct_size i x : p_struct_size i x =>> struct_size (hlook s) (higet s) i x.
Proof.
  unfold p_struct_size, struct_size. rewrite run_readInfo. apply run_p_fields_size. intros j.
  destruct (get_field x j); [|exact Logic.I]. cbn. intros. apply run_p_sz.
Qed.

Lemma run_p_enc : forall v b c f, p_enc v b c f =>> enc (hlook s) (higet s) v b c f.
Proof.
  induction v as [v IH] using val_ind2; intros b c f.
  destruct v; cbn [p_enc enc]; rewrite run_readCell; destruct (hlook s c) as [|x|t d|t d|k i|tag kf vf e i]; try reflexivity.
  - apply run_p_chain. apply Forall2_map2. eapply Forall_impl; [|apply IH]. cbn beta. auto.
  - apply run_rbindp; [|reflexivity]. apply run_p_chain. destruct m as [l|]; [|constructor].
    apply Forall2_map2. eapply Forall_impl; [|exact IH]. intros [k x] [Hk Hx] b'. cbn [fst snd] in *.
    apply run_rbindp; [apply run_p_sz|]. intros n. apply run_rbindp; [apply run_p_sz|]. intros m.
    apply run_rbindp; [apply Hk|]. intros b2. apply Hx.
  - destruct o as [x|]; [|reflexivity]. apply IH.
  - destruct o as [x|]; [|reflexivity]. apply run_rbindp; [apply run_p_struct_size|]. intros n. rewrite run_readInfo.
    apply run_p_fields_encode. intros j. destruct x; try (destruct j; exact Logic.I). rewrite !nth_error_map.
    destruct (nth_error fs j) as [y|] eqn:E; [|exact Logic.I]. cbn [option_map].
    destruct IH as [_ IH]. rewrite Forall_forall in IH. apply nth_error_In in E. intros. apply IH; assumption.
Qed.
Lemma run_p_struct_encode i b x : p_struct_encode i b x =>> struct_encode (hlook s) (higet s) i b x.
Proof.
  unfold p_struct_encode, struct_encode. rewrite run_readInfo. apply run_p_fields_encode. intros j.
  destruct (get_field x j); [|exact Logic.I]. cbn. intros. apply run_p_enc.
Qed.

Lemma run_map {A B} (p : prog A) a (g : A -> B) : p =>> a -> pbind p (fun r => Ret (g r)) =>> g a.
Proof. intros H. rewrite run_bind, H. reflexivity. Qed.

Lemma run_p_dec D : forall f,
  (forall c b v, p_dec D f c b v =>> dec (hlook s) (higet s) D f c b v) /\
  (forall i b off x, p_decs D f i b off x =>> decs (hlook s) (higet s) D f i b off x).
Proof.
  induction f as [|f [IHd IHs]]; [split; reflexivity|]. split.
  - intros c b v. rewrite p_dec_S, dec_S, run_readCell. destruct (hlook s c) as [|x|t d|t d|k i|tag kf vf e i]; try reflexivity.
    + destruct v; try reflexivity. apply (run_map _ _ (dmap _)). apply IHd.
    + destruct v; try reflexivity. cbv zeta. destruct (match spare with [] => grow_spare t (length items) | _ => spare end); [reflexivity|].
      rewrite run_bind, IHd. destruct (dec _ _ _ _ _ _ _) as [? ? [?|]| |]; reflexivity.
    + destruct v; try reflexivity. destruct (decodeVarint b) as [[y n] [e|]]; [reflexivity|].
      destruct (from_ b n); [|reflexivity]. cbv zeta. rewrite run_bind, IHs. destruct (decs _ _ _ _ _ _ _ _) as [? ? ?| |]; reflexivity.
    + destruct v; try reflexivity. destruct (zlen b =? 0)%Z; [reflexivity|].
      destruct (decodeVarint b) as [[y n] [e'|]]; [reflexivity|].
      destruct (from_ b n); [|reflexivity]. cbv zeta. rewrite run_bind, IHs. destruct (decs _ _ _ _ _ _ _ _) as [? ? ?| |]; reflexivity.
  - intros i b off x. rewrite p_decs_S, decs_S. destruct (off <? zlen b)%Z; [|reflexivity].
    destruct (from_ b off) as [tl|]; [|reflexivity]. destruct (decodeTag tl) as [[[fn w] n] [e|]]; [reflexivity|].
    cbv zeta. rewrite run_readInfo. destruct (lookup_field (higet s i) fn) as [fd|].
    + destruct (negb _); [reflexivity|]. destruct (field_data b (off + n) w); try reflexivity.
      destruct (get_field x (f_idx fd)); [|reflexivity]. rewrite run_bind, IHd.
      destruct (dec _ _ _ _ _ _ _) as [y m [e|]|c|]; try reflexivity. apply IHs.
    + destruct (skip_unknown b (off + n) w) as [[o [e|]]|c]; try reflexivity. apply IHs.
Qed.
End Alone.

Definition outcome_api {A} (r : outcome (api A)) : api A :=
  match r with Done a => a | Panicked => Panics Unsupported | OutOfFuel => Diverges end.

Section AloneApi.
Variable D : decls.
Lemma with_info_run {A} k s (f : iref -> gstate -> api A) (g : iref -> prog (api A)) :
  (forall i s, run (g i) s = (Done (f i s), s)) ->
  with_info D k s f = (outcome_api (fst (run (pbind (p_info D k) g) s)), snd (run (pbind (p_info D k) g) s)).
Proof.
  intros H. unfold with_info, p_info. rewrite run_bind.
  destruct (run (cachedStructInfoOf D (walk_fuel D) k) s) as [[i| |] s']; try reflexivity. rewrite H. reflexivity.
Qed.
Lemma run_p_info_size s i p : run (p_info_size i p) s = (Done (info_size s i p), s).
Proof. destruct p; [apply run_p_struct_size|reflexivity]. Qed.
Lemma run_p_info_encode s i b p : run (p_info_encode i b p) s = (Done (info_encode s i b p), s).
Proof. destruct p; [apply run_p_struct_encode|reflexivity]. Qed.

Lemma run_p_Size v s : Size D v s = (outcome_api (fst (run (p_Size D v) s)), snd (run (p_Size D v) s)).
Proof.
  destruct v as [| | |k p]; try reflexivity. apply with_info_run. intros i s'. apply (run_map _ _ _ api_res). apply run_p_info_size.
Qed.
Lemma run_p_Marshal v s : Marshal D v s = (outcome_api (fst (run (p_Marshal D v) s)), snd (run (p_Marshal D v) s)).
Proof.
  destruct v as [| | |k p]; try reflexivity. apply with_info_run. intros i s'. apply (run_map _ _ _ api_res).
  apply run_rbindp; [apply run_p_info_size|]. intros n. apply run_rbindp; [apply run_p_info_encode|]. reflexivity.
Qed.
Lemma run_p_Unmarshal b v s : Unmarshal D b v s = (outcome_api (fst (run (p_Unmarshal D b v) s)), snd (run (p_Unmarshal D b v) s)).
Proof.
  unfold Unmarshal, p_Unmarshal. destruct (zlen b =? 0)%Z; [reflexivity|].
  destruct v as [| | |k [x|]]; try reflexivity. apply with_info_run. intros i s'.
  rewrite run_bind, (proj2 (run_p_dec s' D _)). reflexivity.
Qed.

(** A call executed alone by a goroutine that survives it. *)
Lemma run_p_call c s a s' : run (p_call D c) s = (Done a, s') -> seq_call D c s = (a, s').
Proof.
  destruct c; cbn [p_call seq_call]; rewrite run_bind.
  - rewrite run_p_Size. destruct (run (p_Size D v) s) as [[r| |] s1]; cbn; congruence.
  - rewrite run_p_Marshal. destruct (run (p_Marshal D v) s) as [[r| |] s1]; cbn; congruence.
  - rewrite run_p_Unmarshal. destruct (run (p_Unmarshal D b v) s) as [[r| |] s1]; cbn; congruence.
Qed.
End AloneApi.

(** ** [p] only calls codecs. *)
Definition is_run (o : op) : bool := match o with ReadCell _ | ReadInfo _ => true | _ => false end.
Definition is_read (o : op) : bool :=
  match o with InfoLoad _ | CodecLoad _ | SliceLoad _ | ReadCell _ | ReadInfo _ => true | _ => false end.
Fixpoint reads {A} (p : prog A) : Prop :=
  match p with Do o k => is_run o = true /\ forall r, reads (k r) | Ret _ => True | Panic | NoFuel => False end.
Lemma is_read_exec o s : is_read o = true -> snd (exec o s) = s.
Proof. destruct o; try discriminate; reflexivity. Qed.
Lemma is_run_read o : is_run o = true -> is_read o = true.
Proof. destruct o; try discriminate; reflexivity. Qed.
Lemma is_run_exec o s : is_run o = true -> snd (exec o s) = s.
Proof. intros H. apply is_read_exec, is_run_read, H. Qed.
Lemma reads_bind {A B} (p : prog A) (k : A -> prog B) : reads p -> (forall a, reads (k a)) -> reads (pbind p k).
Proof. intros Hp Hk. induction p as [a| | |o c IH]; cbn in *; auto; try contradiction. destruct Hp. split; auto. Qed.
Lemma reads_rbindp {A B} (p : prog (res A)) (k : A -> prog (res B)) : reads p -> (forall a, reads (k a)) -> reads (rbindp p k).
Proof. intros Hp Hk. apply reads_bind; [assumption|]. intros [a|c]; [apply Hk|exact Logic.I]. Qed.
Lemma reads_readCell {A} c (k : hbody -> prog A) : (forall b, reads (k b)) -> reads (pbind (readCell c) k).
Proof. intros H. split; [reflexivity|exact H]. Qed.
Lemma reads_readInfo {A} c (k : hinfo -> prog A) : (forall b, reads (k b)) -> reads (pbind (readInfo c) k).
Proof. intros H. split; [reflexivity|exact H]. Qed.
Lemma reads_sum l : Forall reads l -> reads (p_sum l).
Proof. induction 1; [exact Logic.I|]. cbn [p_sum]. apply reads_rbindp; [assumption|]. intros a. apply reads_rbindp; [assumption|]. intros; exact Logic.I. Qed.
Lemma reads_chain l : Forall (fun p => forall b, reads (p b)) l -> forall b, reads (p_chain b l).
Proof. induction 1; intros b; [exact Logic.I|]. cbn [p_chain]. apply reads_rbindp; auto. Qed.
Lemma reads_fields_size sub fs : (forall j, match sub j with Some g => forall c f, reads (g c f) | None => True end) ->
  reads (p_fields_size sub fs).
Proof.
  intros H. induction fs as [|f fs IH]; [exact Logic.I|]. cbn [p_fields_size]. apply reads_rbindp.
  - specialize (H (f_idx f)). destruct (sub (f_idx f)); [apply H|exact Logic.I].
  - intros a. apply reads_rbindp; [assumption|]. intros; exact Logic.I.
Qed.
Lemma reads_fields_encode sub fs : (forall j, match sub j with Some g => forall b c f, reads (g b c f) | None => True end) ->
  forall b, reads (p_fields_encode sub b fs).
Proof.
  intros H. induction fs as [|f fs IH]; intros b; [exact Logic.I|]. cbn [p_fields_encode]. apply reads_rbindp; [|auto].
  specialize (H (f_idx f)). destruct (sub (f_idx f)); [apply H|exact Logic.I].
Qed.
Lemma Forall_map' {A B} (P : B -> Prop) (f : A -> B) l : Forall (fun x => P (f x)) l -> Forall P (map f l).
Proof. induction 1; cbn; auto. Qed.
Lemma reads_sz : forall v c f, reads (p_sz v c f).
Proof.
  induction v as [v IH] using val_ind2; intros c f.
  destruct v; cbn [p_sz]; apply reads_readCell; intros [|x|t d|t d|k i|tag kf vf e i]; try exact Logic.I.
  - apply reads_sum, Forall_map'. eapply Forall_impl; [|apply IH]. cbn beta. auto.
  - apply reads_rbindp; [|intros; exact Logic.I]. apply reads_sum. destruct m as [l|]; [|constructor].
    apply Forall_map'. eapply Forall_impl; [|exact IH]. intros [k x] [Hk Hx]. cbn [fst snd] in *.
    apply reads_rbindp; [apply Hk|]. intros a. apply reads_rbindp; [apply Hx|]. intros; exact Logic.I.
  - destruct o as [x|]; [|exact Logic.I]. apply IH.
  - destruct o as [x|]; [|exact Logic.I]. apply reads_readInfo. intros info. apply reads_rbindp; [|intros; exact Logic.I].
    apply reads_fields_size. intros j. destruct x; try (destruct j; exact Logic.I). rewrite nth_error_map.
    destruct (nth_error fs j) as [y|] eqn:E; [|exact Logic.I]. cbn [option_map].
    destruct IH as [_ IH]. rewrite Forall_forall in IH. apply nth_error_In in E. intros. apply IH; assumption.
Qed.
Lemma reads_struct_size i x : reads (p_struct_size i x).
Proof.
  apply reads_readInfo. intros info. apply reads_fields_size. intros j. destruct (get_field x j); [|exact Logic.I]. cbn. intros. apply reads_sz.
Qed.
Lemma reads_enc : forall v b c f, reads (p_enc v b c f).
Proof.
  induction v as [v IH] using val_ind2; intros b c f.
  destruct v; cbn [p_enc]; apply reads_readCell; intros [|x|t d|t d|k i|tag kf vf e i]; try exact Logic.I.
  - apply reads_chain, Forall_map'. eapply Forall_impl; [|apply IH]. cbn beta. auto.
  - apply reads_rbindp; [|intros; exact Logic.I]. apply reads_chain. destruct m as [l|]; [|constructor].
    apply Forall_map'. eapply Forall_impl; [|exact IH]. intros [k x] [Hk Hx] b'. cbn [fst snd] in *.
    apply reads_rbindp; [apply reads_sz|]. intros n. apply reads_rbindp; [apply reads_sz|]. intros m.
    apply reads_rbindp; [apply Hk|]. intros b2. apply Hx.
  - destruct o as [x|]; [|exact Logic.I]. apply IH.
  - destruct o as [x|]; [|exact Logic.I]. apply reads_rbindp; [apply reads_struct_size|]. intros n.
    apply reads_readInfo. intros info.
    apply reads_fields_encode. intros j. destruct x; try (destruct j; exact Logic.I). rewrite nth_error_map.
    destruct (nth_error fs j) as [y|] eqn:E; [|exact Logic.I]. cbn [option_map].
    destruct IH as [_ IH]. rewrite Forall_forall in IH. apply nth_error_In in E. intros. apply IH; assumption.
Qed.
Lemma reads_struct_encode i b x : reads (p_struct_encode i b x).
Proof.
  apply reads_readInfo. intros info. apply reads_fields_encode. intros j. destruct (get_field x j); [|exact Logic.I]. cbn. intros. apply reads_enc.
Qed.
Lemma reads_dec D : forall f, (forall c b v, reads (p_dec D f c b v)) /\ (forall i b off x, reads (p_decs D f i b off x)).
Proof.
  induction f as [|f [IHd IHs]]; [split; intros; exact Logic.I|]. split.
  - intros c b v. rewrite p_dec_S. apply reads_readCell. intros [|x|t d|t d|k i|tag kf vf e i]; try exact Logic.I.
    + destruct v; try exact Logic.I. apply reads_bind; [apply IHd|]. intros; exact Logic.I.
    + destruct v; try exact Logic.I. cbv zeta. destruct (match spare with [] => grow_spare t (length items) | _ => spare end); [exact Logic.I|].
      apply reads_bind; [apply IHd|]. intros; exact Logic.I.
    + destruct v; try exact Logic.I. destruct (decodeVarint b) as [[y n] [e|]]; [exact Logic.I|].
      destruct (from_ b n); [|exact Logic.I]. apply reads_bind; [apply IHs|]. intros; exact Logic.I.
    + destruct v; try exact Logic.I. destruct (zlen b =? 0)%Z; [exact Logic.I|].
      destruct (decodeVarint b) as [[y n] [e'|]]; [exact Logic.I|].
      destruct (from_ b n); [|exact Logic.I]. apply reads_bind; [apply IHs|]. intros; exact Logic.I.
  - intros i b off x. rewrite p_decs_S. destruct (off <? zlen b)%Z; [|exact Logic.I].
    destruct (from_ b off) as [tl|]; [|exact Logic.I]. destruct (decodeTag tl) as [[[fn w] n] [e|]]; [exact Logic.I|].
    apply reads_readInfo. intros info. destruct (lookup_field info fn) as [fd|].
    + destruct (negb _); [exact Logic.I|]. destruct (field_data b (off + n) w); try exact Logic.I.
      destruct (get_field x (f_idx fd)); [|exact Logic.I]. apply reads_bind; [apply IHd|].
      intros [y m [e|]|c|]; try exact Logic.I. apply IHs.
    + destruct (skip_unknown b (off + n) w) as [[o [e|]]|c]; try exact Logic.I. apply IHs.
Qed.

(** ** Whatever the others do, a program that works with good codecs returns what
    the pure resolution gives. *)
Section Conc.
Variable D : decls.
Hypothesis HD : supported D = true.
(** The struct types in structInfoCache from the beginning, and how deep the types
    nest for which answers are claimed. *)
Variable ac : mode.
Notation Inv := (Inv D ac).
Notation rely := (rely D ac).
Notation gstep := (gstep D ac).

(** As [wp], and the recursion bound is not reached. *)
Fixpoint wpn {A} (p : prog A) (Q : A -> own -> gh -> gstate -> Prop) (o : own) (G : gh) (s : gstate) : Prop :=
  match p with
  | Ret a => Q a o G s
  | Panic => False
  | NoFuel => False
  | Do op k => forall G1 s1, rely o G s G1 s1 ->
      exists o2 G2, gstep o G1 s1 o2 G2 (snd (exec op s1)) /\ own_ok o2 (snd (exec op s1)) /\
                    wpn (k (fst (exec op s1))) Q o2 G2 (snd (exec op s1))
  end.
Lemma wp_wpn {A} (p : prog A) Q : forall o G s, nof p (fun _ => True) -> wp D ac p Q o G s -> wpn p Q o G s.
Proof.
  induction p as [a| | |op k IH]; intros o G s N W; cbn in *; try contradiction; auto.
  intros G1 s1 R. destruct (W _ _ R) as (o2 & G2 & S & O & W2). exists o2, G2. auto.
Qed.
Lemma wpn_conseq {A} (p : prog A) (Q1 Q2 : A -> own -> gh -> gstate -> Prop) : forall o G s,
  (forall a o' G' s', Q1 a o' G' s' -> Q2 a o' G' s') -> wpn p Q1 o G s -> wpn p Q2 o G s.
Proof.
  induction p as [a| | |op k IH]; intros o G s H; cbn [wpn]; auto.
  intros W G1 s1 R. destruct (W G1 s1 R) as (o2 & G2 & S & O & W2).
  exists o2, G2. split; [assumption|]. split; [assumption|]. apply IH; assumption.
Qed.
Lemma wpn_bind {A B} (p : prog A) (k : A -> prog B) Q : forall o G s,
  wpn p (fun a o' G' s' => wpn (k a) Q o' G' s') o G s -> wpn (pbind p k) Q o G s.
Proof.
  induction p as [a| | |op c IH]; intros o G s; cbn [wpn pbind]; auto.
  intros W G1 s1 R. destruct (W G1 s1 R) as (o2 & G2 & S & O & W2).
  exists o2, G2. split; [assumption|]. split; [assumption|]. apply IH; assumption.
Qed.

Definition post {A} (o : own) (G : gh) (s : gstate) (P : A -> gh -> gstate -> Prop) : A -> own -> gh -> gstate -> Prop :=
  fun a o' G' s' => P a G' s' /\ o' = o /\ own_ok o s' /\ rely o G s G' s'.

(** From now on, [p] returns something in [P]. *)
Definition comps {A} (o : own) (G : gh) (s : gstate) (p : prog A) (P : A -> Prop) : Prop :=
  forall G' s', rely o G s G' s' -> own_ok o s' -> wpn p (post o G' s' (fun a _ _ => P a)) o G' s'.
Lemma comps_later {A} o G s G' s' (p : prog A) P : rely o G s G' s' -> comps o G s p P -> comps o G' s' p P.
Proof. intros R H G2 s2 R2 O2. apply H; [eapply rely_trans; eassumption|assumption]. Qed.
Lemma comps_ret {A} o G s (a : A) (P : A -> Prop) : P a -> comps o G s (Ret a) P.
Proof. intros H G' s' R O. split; [exact H|]. split; [reflexivity|]. split; [assumption|]. apply rely_refl. apply R. Qed.
Lemma comps_mono {A} o G s (p : prog A) (P P' : A -> Prop) : (forall a, P a -> P' a) -> comps o G s p P -> comps o G s p P'.
Proof.
  intros H Hp G' s' R O. eapply wpn_conseq; [|apply Hp; eassumption]. intros a o' G2 s2 (A1 & A2). split; auto.
Qed.
Lemma comps_bind {A B} o G s (p : prog A) (k : A -> prog B) P P' :
  comps o G s p P -> (forall a, P a -> comps o G s (k a) P') -> comps o G s (pbind p k) P'.
Proof.
  intros Hp Hk G' s' R O. apply wpn_bind. eapply wpn_conseq; [|apply Hp; assumption].
  intros x o' G2 s2 (Px & -> & O2 & R2). eapply wpn_conseq; [|apply (Hk x Px); [eapply rely_trans; eassumption|assumption]].
  intros y o' G3 s3 (Py & -> & O3 & R3). split; [exact Py|]. split; [reflexivity|]. split; [assumption|].
  eapply rely_trans; eassumption.
Qed.
Lemma comps_reads {A} o G s (p : prog A) : reads p -> comps o G s p (fun _ => True).
Proof.
  intros Hp G' s' R O. assert (H : forall G1 s1, rely o G' s' G1 s1 -> own_ok o s1 -> wpn p (post o G' s' (fun _ _ _ => True)) o G1 s1).
  2:{ apply H; [apply rely_refl; apply R|assumption]. }
  clear G s R. induction p as [a| | |op k IH]; cbn [reads wpn] in *; try contradiction.
  - intros G1 s1 R1 O1. split; [exact Logic.I|]. split; [reflexivity|]. split; assumption.
  - intros G1 s1 R1 O1 G2 s2 R2. destruct Hp as [Ho Hk]. exists o, G2. rewrite (is_run_exec op s2 Ho).
    pose proof (own_ok_rely _ _ _ _ _ _ _ (r_inv _ _ _ _ _ _ _ R1) R2 O1) as O2.
    split; [apply gstep_refl; apply R2|]. split; [assumption|]. apply IH; [apply Hk|eapply rely_trans; eassumption|assumption].
Qed.

(** From now on, [p] returns [r]. *)
Definition comp {A} (o : own) (G : gh) (s : gstate) (p : prog A) (r : A) : Prop := comps o G s p (fun a => a = r).

Lemma comp_later {A} o G s G' s' (p : prog A) r : rely o G s G' s' -> comp o G s p r -> comp o G' s' p r.
Proof. intros R H G2 s2 R2 O2. apply H; [eapply rely_trans; eassumption|assumption]. Qed.
Lemma comp_ret {A} o G s (a : A) : comp o G s (Ret a) a.
Proof. intros G' s' R O. split; [reflexivity|]. split; [reflexivity|]. split; [assumption|]. apply rely_refl. apply R. Qed.
Lemma comp_bind {A B} o G s (p : prog A) (k : A -> prog B) a b :
  comp o G s p a -> comp o G s (k a) b -> comp o G s (pbind p k) b.
Proof.
  intros Hp Hk G' s' R O. apply wpn_bind. eapply wpn_conseq; [|apply Hp; assumption].
  intros x o' G2 s2 (-> & -> & O2 & R2). eapply wpn_conseq; [|apply Hk; [eapply rely_trans; eassumption|assumption]].
  intros y o' G3 s3 (-> & -> & O3 & R3). split; [reflexivity|]. split; [reflexivity|]. split; [assumption|].
  eapply rely_trans; eassumption.
Qed.
Lemma comp_rbindp {A B} o G s (p : prog (res A)) (k : A -> prog (res B)) r g :
  comp o G s p r -> (forall a, comp o G s (k a) (g a)) -> comp o G s (rbindp p k) (rbind r g).
Proof. intros Hp Hk. eapply comp_bind; [exact Hp|]. destruct r; [apply Hk|apply comp_ret]. Qed.

Notation gref G s := (fun c p => refp G c p /\ good D G s c).
Notation grefi G s := (fun i k => refi G i k /\ goodi D G s i).

Lemma gref_later o G s G' s' c p : rely o G s G' s' -> gref G s c p -> gref G' s' c p.
Proof.
  intros R [A B]. split; [eapply refp_ext; [apply (r_keeps _ _ _ _ _ _ _ R)|exact A]|].
  eapply good_keeps; [apply R|exact B].
Qed.
Lemma grefi_later o G s G' s' c p : rely o G s G' s' -> grefi G s c p -> grefi G' s' c p.
Proof.
  intros R [A B]. split; [eapply refi_ext; [apply (r_keeps _ _ _ _ _ _ _ R)|exact A]|].
  eapply goodi_keeps; [apply R|exact B].
Qed.

Lemma good_look G s c p : gref G s c p -> body_rel (gref G s) (grefi G s) (hlook s c) (plook p).
Proof.
  intros [A B]. apply good_elim in B. destruct c as [x|n]; cbn [refp hlook cell_ok] in *.
  - subst p. constructor.
  - destruct B as (b & q & E1 & E2 & Hb). rewrite E1. assert (q = p) by congruence. subst q. exact Hb.
Qed.
Lemma good_iget G s i k : grefi G s i k -> info_rel (gref G s) (higet s i) (piget D k).
Proof.
  intros [A B]. apply goodi_elim in B. destruct B as (x & q & E1 & E2 & F1 & F2). unfold higet. rewrite E1.
  assert (q = k) by (unfold refi in *; congruence). subst q. split; [exact F1|].
  assert (Eq : i_index (piget D k) = i_fields (piget D k)).
  { unfold piget, pinfo. destruct (pfields 0 (struct_fields D k)); reflexivity. }
  rewrite Eq. exact F2.
Qed.

Lemma comp_readCell {A} o G s c p (k : hbody -> prog A) r : gref G s c p ->
  (forall G1 s1 b, rely o G s G1 s1 -> body_rel (gref G1 s1) (grefi G1 s1) b (plook p) -> comp o G1 s1 (k b) r) ->
  comp o G s (pbind (readCell c) k) r.
Proof.
  intros Hc H G' s' R O. cbn [readCell do_ pbind wpn]. intros G1 s1 R1. exists o, G1. cbn [exec fst snd].
  pose proof (r_inv _ _ _ _ _ _ _ R1) as I1. pose proof (own_ok_rely _ _ _ _ _ _ _ (r_inv _ _ _ _ _ _ _ R) R1 O) as O1.
  split; [apply gstep_refl; assumption|]. split; [assumption|].
  pose proof (rely_trans _ _ _ _ _ _ _ _ _ R R1) as R2. pose proof (gref_later _ _ _ _ _ _ _ R2 Hc) as Hc1.
  eapply wpn_conseq; [|apply (H G1 s1 (hlook s1 c) R2 (good_look _ _ _ _ Hc1) G1 s1); [apply rely_refl; assumption|assumption]].
  intros a o' G3 s3 (-> & -> & O3 & R3). split; [reflexivity|]. split; [reflexivity|]. split; [assumption|]. eapply rely_trans; eassumption.
Qed.
Lemma comp_readInfo {A} o G s i q (k : hinfo -> prog A) r : grefi G s i q ->
  (forall G1 s1 b, rely o G s G1 s1 -> info_rel (gref G1 s1) b (piget D q) -> comp o G1 s1 (k b) r) ->
  comp o G s (pbind (readInfo i) k) r.
Proof.
  intros Hc H G' s' R O. cbn [readInfo do_ pbind wpn]. intros G1 s1 R1. exists o, G1. cbn [exec fst snd].
  pose proof (r_inv _ _ _ _ _ _ _ R1) as I1. pose proof (own_ok_rely _ _ _ _ _ _ _ (r_inv _ _ _ _ _ _ _ R) R1 O) as O1.
  split; [apply gstep_refl; assumption|]. split; [assumption|].
  pose proof (rely_trans _ _ _ _ _ _ _ _ _ R R1) as R2. pose proof (grefi_later _ _ _ _ _ _ _ R2 Hc) as Hc1.
  eapply wpn_conseq; [|apply (H G1 s1 (higet s1 i) R2 (good_iget _ _ _ _ Hc1) G1 s1); [apply rely_refl; assumption|assumption]].
  intros a o' G3 s3 (-> & -> & O3 & R3). split; [reflexivity|]. split; [reflexivity|]. split; [assumption|]. eapply rely_trans; eassumption.
Qed.

Section At.
Variable o : own.

Lemma comp_sum G s l lr : Forall2 (comp o G s) l lr -> comp o G s (p_sum l) (sum_res lr).
Proof.
  induction 1 as [|p r l lr H _ IH]; [apply comp_ret|]. cbn [p_sum sum_res].
  apply comp_rbindp; [assumption|]. intros a. apply comp_rbindp; [assumption|]. intros b. apply comp_ret.
Qed.
Lemma comp_chain G s l lr : Forall2 (fun p r => forall b, comp o G s (p b) (r b)) l lr ->
  forall b, comp o G s (p_chain b l) (chain_res b lr).
Proof.
  induction 1 as [|p r l lr H _ IH]; intros b; [apply comp_ret|]. cbn [p_chain chain_res].
  apply comp_rbindp; [apply H|]. intros a. apply IH.
Qed.
Lemma comp_fields_size G s sub1 sub2 fs1 fs2 : Forall2 (field_rel (gref G s)) fs1 fs2 ->
  (forall j, match sub1 j, sub2 j with
             | Some g1, Some g2 => forall c p f, gref G s c p -> comp o G s (g1 c f) (g2 p f)
             | None, None => True | _, _ => False end) ->
  comp o G s (p_fields_size sub1 fs1) (fields_size sub2 fs2).
Proof.
  intros HF H. induction HF as [|f1 f2 fs1 fs2 (Hi & Hm & Hc) _ IH]; [apply comp_ret|]. cbn [p_fields_size fields_size].
  apply comp_rbindp.
  - rewrite Hi, Hm. specialize (H (f_idx f2)). destruct (sub1 (f_idx f2)), (sub2 (f_idx f2)); try contradiction; [apply H; assumption|apply comp_ret].
  - intros a. apply comp_rbindp; [assumption|]. intros b. apply comp_ret.
Qed.
Lemma comp_fields_encode G s sub1 sub2 fs1 fs2 : Forall2 (field_rel (gref G s)) fs1 fs2 ->
  (forall j, match sub1 j, sub2 j with
             | Some g1, Some g2 => forall b c p f, gref G s c p -> comp o G s (g1 b c f) (g2 b p f)
             | None, None => True | _, _ => False end) ->
  forall b, comp o G s (p_fields_encode sub1 b fs1) (fields_encode sub2 b fs2).
Proof.
  intros HF H. induction HF as [|f1 f2 fs1 fs2 (Hi & Hm & Hc) _ IH]; intros b; [apply comp_ret|]. cbn [p_fields_encode fields_encode].
  apply comp_rbindp; [|intros a; apply IH].
  rewrite Hi, Hm. specialize (H (f_idx f2)). destruct (sub1 (f_idx f2)), (sub2 (f_idx f2)); try contradiction; [apply H; assumption|apply comp_ret].
Qed.

Lemma comp_sz : forall v c p f G s, gref G s c p -> comp o G s (p_sz v c f) (sz plook (piget D) v p f).
Proof.
  induction v as [v IH] using val_ind2; intros c p f G s Hc.
  destruct v; cbn [p_sz sz]; (eapply comp_readCell; [exact Hc|]); intros G1 s1 bd R Hb;
    destruct Hb as [s'|t d1 d2 Hd|t d1 d2 Hd|k i1 i2 Hi|tag kf1 vf1 kf2 vf2 e i1 i2 Hk Hv Hi]; try apply comp_ret.
  - apply comp_sum. apply Forall2_map2. eapply Forall_impl; [|apply IH]. cbn beta. intros a Ha. apply Ha; assumption.
  - apply comp_rbindp; [|intros; apply comp_ret]. apply comp_sum. destruct m as [l|]; [|constructor].
    apply Forall2_map2. eapply Forall_impl; [|exact IH]. intros [k x] [Hk1 Hk2]. cbn [fst snd] in *.
    destruct Hk as (_ & Hkm & Hkc), Hv as (_ & Hvm & Hvc). rewrite Hkm, Hvm.
    apply comp_rbindp; [apply Hk1; assumption|]. intros a. apply comp_rbindp; [apply Hk2; assumption|]. intros; apply comp_ret.
  - destruct o0 as [x|]; [|apply comp_ret]. apply IH; assumption.
  - destruct o0 as [x|]; [|apply comp_ret]. eapply comp_readInfo; [exact Hi|]. intros G2 s2 info R2 [F _].
    apply comp_rbindp; [|intros; apply comp_ret]. apply comp_fields_size; [exact F|]. intros j.
    destruct x; try (destruct j; exact Logic.I). rewrite !nth_error_map.
    destruct (nth_error fs j) as [y|] eqn:E; [|exact Logic.I]. cbn [option_map].
    destruct IH as [_ IH]. rewrite Forall_forall in IH. apply nth_error_In in E. intros. apply IH; assumption.
Qed.
Lemma comp_struct_size i k x G s : grefi G s i k -> comp o G s (p_struct_size i x) (struct_size plook (piget D) k x).
Proof.
  intros Hi. unfold p_struct_size, struct_size. eapply comp_readInfo; [exact Hi|]. intros G2 s2 info R2 [F _].
  apply comp_fields_size; [exact F|]. intros j. destruct (get_field x j); [|exact Logic.I]. cbn. intros. apply comp_sz; assumption.
Qed.

Lemma comp_enc : forall v b c p f G s, gref G s c p -> comp o G s (p_enc v b c f) (enc plook (piget D) v b p f).
Proof.
  induction v as [v IH] using val_ind2; intros b c p f G s Hc.
  destruct v; cbn [p_enc enc]; (eapply comp_readCell; [exact Hc|]); intros G1 s1 bd R Hb;
    destruct Hb as [s'|t d1 d2 Hd|t d1 d2 Hd|k i1 i2 Hi|tag kf1 vf1 kf2 vf2 e i1 i2 Hk Hv Hi]; try apply comp_ret.
  - apply comp_chain. apply Forall2_map2. eapply Forall_impl; [|apply IH]. cbn beta. intros a Ha b'. apply Ha; assumption.
  - apply comp_rbindp; [|intros; apply comp_ret]. apply comp_chain. destruct m as [l|]; [|constructor].
    apply Forall2_map2. eapply Forall_impl; [|exact IH]. intros [k x] [Hk1 Hk2] b'. cbn [fst snd] in *.
    destruct Hk as (_ & Hkm & Hkc), Hv as (_ & Hvm & Hvc). rewrite Hkm, Hvm.
    apply comp_rbindp; [apply comp_sz; assumption|]. intros n. apply comp_rbindp; [apply comp_sz; assumption|]. intros m.
    apply comp_rbindp; [apply Hk1; assumption|]. intros b2. apply Hk2; assumption.
  - destruct o0 as [x|]; [|apply comp_ret]. apply IH; assumption.
  - destruct o0 as [x|]; [|apply comp_ret]. apply comp_rbindp; [apply comp_struct_size; assumption|]. intros n.
    eapply comp_readInfo; [exact Hi|]. intros G2 s2 info R2 [F _].
    apply comp_fields_encode; [exact F|]. intros j.
    destruct x; try (destruct j; exact Logic.I). rewrite !nth_error_map.
    destruct (nth_error fs j) as [y|] eqn:E; [|exact Logic.I]. cbn [option_map].
    destruct IH as [_ IH]. rewrite Forall_forall in IH. apply nth_error_In in E. intros. apply IH; assumption.
Qed.
Lemma comp_struct_encode i k b x G s : grefi G s i k -> comp o G s (p_struct_encode i b x) (struct_encode plook (piget D) k b x).
Proof.
  intros Hi. unfold p_struct_encode, struct_encode. eapply comp_readInfo; [exact Hi|]. intros G2 s2 info R2 [F _].
  apply comp_fields_encode; [exact F|]. intros j. destruct (get_field x j); [|exact Logic.I]. cbn. intros. apply comp_enc; assumption.
Qed.

Lemma comp_map {A B} G s (p : prog A) a (g : A -> B) b : comp o G s p a -> g a = b ->
  comp o G s (pbind p (fun r => Ret (g r))) b.
Proof. intros H <-. eapply comp_bind; [exact H|apply comp_ret]. Qed.

Lemma comp_dec : forall f,
  (forall c p b v G s, gref G s c p -> comp o G s (p_dec D f c b v) (dec plook (piget D) D f p b v)) /\
  (forall i k b off x G s, grefi G s i k -> comp o G s (p_decs D f i b off x) (decs plook (piget D) D f k b off x)).
Proof.
  induction f as [|f [IHd IHs]]; [split; intros; apply comp_ret|]. split.
  - intros c p b v G s Hc. rewrite p_dec_S, dec_S. eapply comp_readCell; [exact Hc|]. intros G1 s1 bd R Hb.
    destruct Hb as [s'|t d1 d2 Hd|t d1 d2 Hd|k i1 i2 Hi|tag kf1 vf1 kf2 vf2 e i1 i2 Hk Hv Hi]; try apply comp_ret.
    + destruct v; try apply comp_ret. cbv zeta. eapply comp_map; [apply IHd; eassumption|]. reflexivity.
    + destruct v; try apply comp_ret. cbv zeta. destruct (match spare with [] => grow_spare t (length items) | _ => spare end); [apply comp_ret|].
      eapply comp_map; [apply IHd; eassumption|]. cbn beta. destruct (dec _ _ _ _ _ _ _) as [? ? [?|]| |]; reflexivity.
    + destruct v; try apply comp_ret. destruct (decodeVarint b) as [[y n] [e|]]; [apply comp_ret|].
      destruct (from_ b n); [|apply comp_ret]. cbv zeta. eapply comp_map; [apply IHs; eassumption|]. cbn beta.
      destruct (decs _ _ _ _ _ _ _ _) as [? ? ?| |]; reflexivity.
    + destruct v; try apply comp_ret. destruct (zlen b =? 0)%Z; [apply comp_ret|].
      destruct (decodeVarint b) as [[y n] [e'|]]; [apply comp_ret|].
      destruct (from_ b n); [|apply comp_ret]. cbv zeta. eapply comp_map; [apply IHs; eassumption|]. cbn beta.
      destruct (decs _ _ _ _ _ _ _ _) as [? ? ?| |]; reflexivity.
  - intros i k b off x G s Hi. rewrite p_decs_S, decs_S. destruct (off <? zlen b)%Z; [|apply comp_ret].
    destruct (from_ b off) as [tl|]; [|apply comp_ret]. destruct (decodeTag tl) as [[[fn w] n] [e|]]; [apply comp_ret|].
    cbv zeta. eapply comp_readInfo; [exact Hi|]. intros G1 s1 info R HF.
    pose proof (grefi_later _ _ _ _ _ _ _ R Hi) as Hi1.
    pose proof (find_rel _ _ _ fn (Forall2_rev _ _ _ (proj2 HF))) as HL.
    change (find _ (rev (i_index info))) with (lookup_field info fn) in HL.
    change (find _ (rev (i_index (piget D k)))) with (lookup_field (piget D k) fn) in HL.
    destruct (lookup_field info fn) as [fd|], (lookup_field (piget D k) fn) as [fd2|]; try contradiction.
    + destruct HL as (Hx & Hm & Hc). unfold wireType. rewrite Hm, Hx.
      destruct (negb _); [apply comp_ret|]. destruct (field_data b (off + n) w); try apply comp_ret.
      destruct (get_field x (f_idx fd2)); [|apply comp_ret]. eapply comp_bind; [apply IHd; eassumption|].
      destruct (dec _ _ _ _ _ _ _) as [y m [e|]|c|]; try apply comp_ret. apply IHs; assumption.
    + destruct (skip_unknown b (off + n) w) as [[o' [e|]]|c]; try apply comp_ret. apply IHs; assumption.
Qed.
End At.

(** ** Whole calls *)
Notation ready := (ready_key D (fun k => wk ac k = true)).
Notation okh := (okh D ac).
Notation okk := (okk D ac).
Lemma upto_okh t : finite_upto D (fun k => wk ac k = true) t -> exists n, okh n t = true.
Proof.
  induction 1 as [| | | |t _ [n IH]|t _ [n IH]|k t _ [n IH]|sid Hu|sid _ IH]; try (exists 1; reflexivity).
  - exists (S n). exact IH.
  - exists (S n). exact IH.
  - exists (S (S n)). exact IH.
  - exists 2. cbn [WalkInv.okh wk]. rewrite Hu. reflexivity.
  - assert (H : exists n, forallb (okh n) (field_types D sid) = true).
    { unfold field_types. destruct (nth_error D sid) as [fs|]; [|exists 0; reflexivity].
      specialize (IH fs). assert (IH' : forall f, In f fs -> exists n, okh n (gf_type f) = true) by (intros; apply IH; auto).
      clear IH. induction fs as [|f fs IHf]; [exists 0; reflexivity|].
      destruct IHf as [n Hn]; [intros; apply IH'; right; assumption|]. destruct (IH' f (or_introl eq_refl)) as [m Hm].
      exists (Nat.max n m). cbn [map forallb]. rewrite (okh_le D _ m) by (try assumption; lia). cbn [andb].
      rewrite forallb_forall in *. intros x Hx. apply (okh_le D _ n); [lia|auto]. }
    destruct H as [n H]. exists (S (S n)). cbn [WalkInv.okh]. rewrite H. apply orb_true_r.
Qed.
Lemma ready_okk k : user_key D k = true -> ready k -> exists n, okk n k = true.
Proof.
  intros Hk [H|H]; [exists 1; cbn [WalkInv.okk]; rewrite H; reflexivity|].
  destruct k as [sid| |q]; cbn [user_key] in *; [|discriminate|exists 1; apply orb_true_r].
  apply upto_okh in H. destruct H as [[|[|n]] H]; try discriminate. exists (S n). exact H.
Qed.

(** The type of the argument is declared; and nests not too deep. *)
Definition call_ok (c : call) : Prop := forall k, arg_type c = Some k -> user_key D k = true.
Definition sure (c : call) : bool := match arg_type c with Some k => okk (lv ac) k | None => true end.

Lemma comps_info {A} o G s k (g : iref -> prog A) P : user_key D k = true ->
  (forall i G1 s1, rely o G s G1 s1 -> refi G1 i k -> (okk (lv ac) k = true -> goodi D G1 s1 i) -> comps o G1 s1 (g i) P) ->
  comps o G s (pbind (p_info D k) g) P.
Proof.
  intros Hk H G' s' R O. apply wpn_bind.
  eapply wpn_conseq; [|apply wp_wpn; [apply cached_nof; destruct k; try discriminate; reflexivity|]].
  2:{ eapply cached_spec with (n := lv ac); [assumption|apply R|assumption|apply kpre_user; assumption|]. split; auto. }
  intros i o' G1 s1 (-> & O1 & R1 & Hr & Hg). 
  eapply wpn_conseq; [|eapply (H i G1 s1); [eapply rely_trans; eassumption|assumption|assumption|apply rely_refl; apply R1|assumption]].
  intros a o' G3 s3 (Pa & -> & O3 & R3). split; [exact Pa|]. split; [reflexivity|]. split; [assumption|]. eapply rely_trans; eassumption.
Qed.
Lemma comp_info {A} o G s k (g : iref -> prog A) r : user_key D k = true -> okk (lv ac) k = true ->
  (forall i G1 s1, rely o G s G1 s1 -> grefi G1 s1 i k -> comp o G1 s1 (g i) r) ->
  comp o G s (pbind (p_info D k) g) r.
Proof. intros Hk Hf H. apply comps_info; [assumption|]. intros i G1 s1 R Hr Hg. apply H; auto. Qed.

(** The result of a call in terms of the pure resolution. *)
Definition pure_call (c : call) : answer :=
  match c with
  | CSize v => ASize match v with
      | IPtr k p => api_res match p with None => OK 0%Z | Some x => struct_size plook (piget D) k x end
      | _ => fst (Size D v g_empty) end
  | CMarshal v => AMarshal match v with
      | IPtr k p => api_res (
          n <- match p with None => OK 0%Z | Some x => struct_size plook (piget D) k x end ;;
          b <- match p with None => OK [] | Some x => struct_encode plook (piget D) k [] x end ;;
          OK (Some b, None))
      | _ => fst (Marshal D v g_empty) end
  | CUnmarshal b v => AUnmarshal match v with
      | IPtr k (Some x) =>
        if (zlen b =? 0)%Z then Returns (v, None) else
        match decs plook (piget D) D (decode_fuel D b) k b 0 x with
        | DRet x n (Some e) => Returns (IPtr k (Some x), Some e)
        | DRet x n None => Returns (IPtr k (Some x), if (n <? zlen b)%Z then Some ErrShortRead else None)
        | DCrash c => Panics c
        | DFuel => Diverges
        end
      | _ => fst (Unmarshal D b v g_empty) end
  end.

Lemma seq_call_pure c s : SInv D s -> call_ok c -> fst (seq_call D c s) = pure_call c.
Proof.
  unfold call_ok. intros H Hk. destruct c as [v|v|b v]; cbn [seq_call pure_call arg_type] in *.
  - destruct v as [| | |k p]; try reflexivity.
    destruct (size_pure D HD s k p H (Hk _ eq_refl)) as (s' & _ & ->). reflexivity.
  - destruct v as [| | |k p]; try reflexivity.
    destruct (marshal_pure D HD s k p H (Hk _ eq_refl)) as (s' & _ & ->). cbn [fst]. destruct p; reflexivity.
  - unfold Unmarshal. destruct (zlen b =? 0)%Z; [destruct v as [| | |k [x|]]; reflexivity|].
    destruct v as [| | |k [x|]]; try reflexivity.
    destruct (info_pure D HD k s H (Hk _ eq_refl)) as (i & s' & E & H' & _ & _ & C & _). unfold with_info. rewrite E, C. reflexivity.
Qed.

Lemma comp_call o G s c : call_ok c -> sure c = true -> comp o G s (p_call D c) (pure_call c).
Proof.
  unfold call_ok, sure. destruct c as [v|v|b v]; cbn [p_call pure_call arg_type]; intros Hk' Hf.
  - eapply comp_map; [|reflexivity]. destruct v as [| | |k p]; try apply comp_ret. pose proof (Hk' k eq_refl) as Hk.
    apply comp_info; [assumption|assumption|]. intros i G1 s1 R Hi. eapply comp_map; [|reflexivity].
    destruct p; [apply comp_struct_size; assumption|apply comp_ret].
  - eapply comp_map; [|reflexivity]. destruct v as [| | |k p]; try apply comp_ret. pose proof (Hk' k eq_refl) as Hk.
    apply comp_info; [assumption|assumption|]. intros i G1 s1 R Hi. eapply comp_map; [|reflexivity].
    apply comp_rbindp; [destruct p; [apply comp_struct_size; assumption|apply comp_ret]|]. intros n.
    apply comp_rbindp; [destruct p; [apply comp_struct_encode; assumption|apply comp_ret]|]. intros b. apply comp_ret.
  - eapply comp_map; [|reflexivity]. unfold p_Unmarshal, Unmarshal.
    destruct (zlen b =? 0)%Z; [destruct v as [| | |k [x|]]; apply comp_ret|].
    destruct v as [| | |k [x|]]; try apply comp_ret. pose proof (Hk' k eq_refl) as Hk.
    apply comp_info; [assumption|assumption|]. intros i G1 s1 R Hi. eapply comp_map; [apply (comp_dec o (decode_fuel D b)); eassumption|].
    reflexivity.
Qed.
Lemma comps_call o G s c : call_ok c -> comps o G s (p_call D c) (fun a => sure c = true -> a = pure_call c).
Proof.
  intros Hc. destruct (sure c) eqn:Es.
  { eapply comps_mono; [|apply comp_call; assumption]. cbn beta. auto. }
  apply comps_mono with (P := fun _ => True); [discriminate|].
  unfold call_ok, sure in *. destruct c as [v|v|b v]; cbn [p_call arg_type] in *;
    (apply comps_bind with (P := fun _ => True); [|intros; apply comps_ret; exact Logic.I]).
  - destruct v as [| | |k p]; try discriminate. apply comps_info; [auto|]. intros i G1 s1 R Hr _.
    apply comps_reads. apply reads_bind; [destruct p; [apply reads_struct_size|exact Logic.I]|]. intros; exact Logic.I.
  - destruct v as [| | |k p]; try discriminate. apply comps_info; [auto|]. intros i G1 s1 R Hr _.
    apply comps_reads. apply reads_bind; [|intros; exact Logic.I].
    apply reads_rbindp; [destruct p; [apply reads_struct_size|exact Logic.I]|]. intros n.
    apply reads_rbindp; [destruct p; [apply reads_struct_encode|exact Logic.I]|]. intros; exact Logic.I.
  - unfold p_Unmarshal. destruct (zlen b =? 0)%Z; [destruct v as [| | |k [x|]]; apply comps_ret; exact Logic.I|].
    destruct v as [| | |k [x|]]; try discriminate; try (apply comps_ret; exact Logic.I).
    apply comps_info; [auto|]. intros i G1 s1 R Hr _. apply comps_reads.
    apply reads_bind; [apply (reads_dec D)|]. intros; exact Logic.I.
Qed.
Definition answers (cs : list call) (ans : list answer) : Prop := Forall2 (fun c a => sure c = true -> a = pure_call c) cs ans.
Lemma comps_calls o G s cs : Forall call_ok cs -> comps o G s (p_calls D cs) (answers cs).
Proof.
  induction 1 as [|c cs Hc _ IH]; [apply comps_ret; constructor|]. cbn [p_calls].
  eapply comps_bind; [apply comps_call; assumption|]. intros a Ha.
  eapply comps_bind; [exact IH|]. intros l Hl. apply comps_ret. constructor; assumption.
Qed.

(** ** Several goroutines *)
Definition disj (a b : own) : Prop :=
  (forall n, In n (oc a) -> In n (oc b) -> False) /\ (forall n, In n (oi a) -> In n (oi b) -> False).
Lemma disj_sym a b : disj a b -> disj b a.
Proof. intros [A B]. split; eauto. Qed.

Lemma FOP_middle {A} (R : A -> A -> Prop) (HR : forall a b, R a b -> R b a) x l2 : forall l1,
  ForallOrdPairs R (l1 ++ x :: l2) <-> ForallOrdPairs R (l1 ++ l2) /\ Forall (R x) (l1 ++ l2).
Proof.
  induction l1 as [|y l1 IH]; cbn [app].
  - split; [intros H; inversion H; subst; auto|intros [H1 H2]; constructor; assumption].
  - split.
    + intros H. inversion H as [|? ? H1 H2]; subst. apply IH in H2. destruct H2 as [H2 H3].
      apply Forall_app in H1. destruct H1 as [H1 H4]. inversion H4; subst. split.
      * constructor; [apply Forall_app; auto|assumption].
      * constructor; auto.
    + intros [H1 H2]. inversion H1; subst. inversion H2; subst. constructor; [|apply IH; auto].
      rewrite Forall_app in *. intuition.
Qed.

Definition returns (cs : list call) : list answer -> own -> gh -> gstate -> Prop := fun a o _ _ => answers cs a /\ o = none.

Lemma wpn_later r (p : prog (list answer)) o G s G' s' : rely o G s G' s' -> wpn p (returns r) o G s -> wpn p (returns r) o G' s'.
Proof.
  intros R. destruct p; cbn [wpn]; auto. intros H G1 s1 R1. apply H. eapply rely_trans; eassumption.
Qed.

(** What is incomplete belongs to someone who is building it. *)
Definition covered (os : list own) (G : gh) (s : gstate) : Prop :=
  (forall n b, nth_error (g_cells s) n = Some b -> b <> BNil \/ exists o, In o os /\ In n (oc o)) /\
  (forall i x k, nth_error (g_infos s) i = Some x -> refi G i k -> idone D G x k \/ exists o, In o os /\ In i (oi o)).
Lemma covered_step o1 o2 o o' G s G' s' : Inv G s -> gstep o G s o' G' s' -> covered (o1 ++ o :: o2) G s -> covered (o1 ++ o' :: o2) G' s'.
Proof.
  intros HI S [A B]. pose proof (gs_keeps _ _ _ _ _ _ _ _ S) as K.
  assert (Hin : forall z, In z (o1 ++ o :: o2) -> z = o \/ In z (o1 ++ o' :: o2)).
  { intros z Hz. apply in_app_or in Hz. destruct Hz as [Hz|[Hz|Hz]]; [right; apply in_or_app; left; exact Hz|left; congruence|
      right; apply in_or_app; right; right; exact Hz]. }
  assert (Hme : In o' (o1 ++ o' :: o2)) by (apply in_or_app; right; left; reflexivity).
  split.
  - intros n b H. destruct (gs_fill _ _ _ _ _ _ _ _ S _ _ H) as [F|[F|[F1 F2]]]; eauto.
    apply A in F2. destruct F2 as [F2|(z & Z1 & Z2)]; [left; assumption|].
    destruct (Hin z Z1) as [->|Z3]; [contradiction|eauto].
  - intros i x k H R. destruct (gs_done _ _ _ _ _ _ _ _ S _ _ _ H R) as [F|[F|[F1 F2]]]; eauto.
    assert (exists k0, refi G i k0) as (k0 & R0).
    { assert (L : i < length (g_infos s)) by (apply nth_error_Some; congruence).
      rewrite <- (inv_li _ _ _ _ HI) in L. apply nth_error_Some in L. unfold refi. destruct (nth_error (gi G) i); [eauto|contradiction]. }
    assert (k0 = k). { pose proof (refi_ext _ _ _ _ (k_ext _ _ _ _ _ K) R0) as R1. unfold refi in *. congruence. } subst k0.
    destruct (B _ _ _ F2 R0) as [F3|(z & Z1 & Z2)]; [left; eapply idone_ext; [apply K|exact F3]|].
    destruct (Hin z Z1) as [->|Z3]; [contradiction|eauto].
Qed.

Definition cinv (rs : list (list call)) (c : config) : Prop :=
  let '(ts, s) := c in
  exists G os, Inv G s /\ covered os G s /\ ForallOrdPairs disj os /\ Forall (fun o => own_ok o s) os /\
    Forall2 (fun t (x : own * list call) => wpn t (returns (snd x)) (fst x) G s) ts (combine os rs) /\ length os = length rs.

Lemma others_rely o G s o2 G2 s2 o' : Inv G s -> gstep o G s o2 G2 s2 -> disj o o' -> own_ok o' s -> rely o' G s G2 s2.
Proof.
  intros I S [D1 D2] [A B]. split.
  - apply S.
  - apply S.
  - intros n Hn. apply (gs_cells _ _ _ _ _ _ _ _ S); [apply A; assumption|]. intros Hn'. exact (D1 n Hn' Hn).
  - intros n Hn. apply (gs_infos _ _ _ _ _ _ _ _ S); [apply B; assumption|]. intros Hn'. exact (D2 n Hn' Hn).
Qed.
Lemma others_disj o G s o2 G2 s2 o' : gstep o G s o2 G2 s2 -> disj o o' -> own_ok o' s -> disj o2 o'.
Proof.
  intros S [D1 D2] [A B]. split; intros n H1 H2.
  - destruct (gs_oc _ _ _ _ _ _ _ _ S n H1) as [H|H]; [eauto|]. apply A in H2. lia.
  - destruct (gs_oi _ _ _ _ _ _ _ _ S n H1) as [H|H]; [eauto|]. apply B in H2. lia.
Qed.

Lemma combine_app {A B} (l1 l2 : list A) (m : list B) x y pre post :
  length (l1 ++ x :: l2) = length m -> combine (l1 ++ x :: l2) m = pre ++ y :: post -> length pre = length l1 ->
  fst y = x /\ exists m1 m2, m = m1 ++ snd y :: m2 /\ length m1 = length l1 /\ combine l1 m1 = pre /\ combine l2 m2 = post.
Proof.
  revert m pre. induction l1 as [|a l1 IH]; intros m pre L E Lp.
  - destruct pre; [|discriminate]. destruct m as [|b m]; [discriminate|]. cbn in E. inversion E; subst. split; [reflexivity|].
    exists [], m. auto.
  - destruct pre as [|z pre]; [discriminate|]. destruct m as [|b m]; [discriminate|]. cbn in E. inversion E; subst.
    destruct (IH m pre) as (K1 & m1 & m2 & K2 & K3 & K4 & K5); [cbn in L; lia|assumption|cbn in Lp; lia|].
    split; [assumption|]. exists (b :: m1), m2. subst. cbn. auto.
Qed.

Lemma cinv_step rs c c' : cstep c c' -> cinv rs c -> cinv rs c'.
Proof.
  intros []. intros (G & os & I & Cv & Dj & Ok & F & L).
  apply Forall2_app_inv_l in F. destruct F as (p1 & p2' & F1 & F2 & E). inversion F2 as [|? y ? p2 W F3]; subst.
  assert (Lp : length p1 = length pre) by (clear - F1; induction F1; cbn [length]; congruence).
  assert (exists o1 ox o2, os = o1 ++ ox :: o2 /\ length o1 = length p1) as (o1 & ox & o2 & -> & Lo).
  { assert (Lc : length os = length (p1 ++ y :: p2)) by (rewrite <- E, combine_length; lia).
    rewrite app_length in Lc. cbn [length] in Lc. exists (firstn (length p1) os).
    destruct (skipn (length p1) os) as [|ox o2] eqn:Es.
    - apply (f_equal (@length _)) in Es. rewrite skipn_length in Es. cbn in Es. lia.
    - exists ox, o2. rewrite <- Es, firstn_skipn, firstn_length. split; [reflexivity|lia]. }
  destruct (combine_app _ _ _ _ _ _ _ L E (eq_sym Lo)) as (Ey & m1 & m2 & -> & Lm & C1 & C2).
  destruct y as [oy ry]. cbn [fst snd] in *. subst oy.
  cbn [wpn] in W. destruct (W G s (rely_refl _ _ _ _ _ I)) as (o' & G' & S & O' & W').
  apply FOP_middle in Dj; [|apply disj_sym]. destruct Dj as [Dj1 Dj2].
  assert (Ok' : own_ok ox s /\ Forall (fun o => own_ok o s) (o1 ++ o2)).
  { rewrite Forall_app in *. destruct Ok as [A B]. inversion B; auto. }
  destruct Ok' as [Okx Oko].
  assert (Re : Forall (fun o2 => rely o2 G s G' (snd (exec o s))) (o1 ++ o2)).
  { rewrite Forall_forall in *. intros z Hz. eapply others_rely; eauto. }
  exists G', (o1 ++ o' :: o2). split; [apply S|]. split; [eapply covered_step; eassumption|]. split; [|split; [|split]].
  - apply FOP_middle; [apply disj_sym|]. split; [assumption|]. rewrite Forall_forall in *. intros z Hz.
    eapply others_disj; eauto.
  - assert (Forall (fun o0 => own_ok o0 (snd (exec o s))) (o1 ++ o2)).
    { rewrite Forall_forall in *. intros z Hz. eapply own_ok_rely; [exact I|apply Re; assumption|auto]. }
    rewrite Forall_app in *. intuition.
  - assert (Ec : combine (o1 ++ o' :: o2) (m1 ++ ry :: m2) = combine o1 m1 ++ (o', ry) :: combine o2 m2).
    { clear - Lm. revert m1 Lm. induction o1 as [|a o1 IH]; intros [|b m1] Lm; try discriminate; [reflexivity|].
      cbn. rewrite IH; [reflexivity|]. cbn in Lm. lia. }
    rewrite Ec. apply Forall2_app; [|constructor; [exact W'|]].
    + rewrite C1. apply Forall_app in Re. destruct Re as [Re _]. subst p1. clear - F1 Re Lm.
      revert m1 Lm F1. revert pre. induction o1 as [|a o1 IH]; intros pre [|b m1] Lm F1; try discriminate; cbn [combine] in *.
      * inversion F1; constructor.
      * inversion F1; subst. inversion Re; subst. constructor; [eapply wpn_later; [|eassumption]; assumption|].
        apply IH; try assumption. cbn in Lm. lia.
    + rewrite C2. apply Forall_app in Re. destruct Re as [_ Re].
      assert (Hin : forall x, In x p2 -> In (fst x) o2).
      { intros [u v] Hx. rewrite <- C2 in Hx. apply in_combine_l in Hx. exact Hx. }
      rewrite Forall_forall in Re. clear - F3 Re Hin. induction F3 as [|t x ts xs H F IH]; constructor.
      * eapply wpn_later; [|exact H]. apply Re, Hin. left; reflexivity.
      * apply IH. intros z Hz. apply Hin. right. assumption.
  - rewrite !app_length in *. cbn [length] in *. lia.
Qed.
Lemma cinv_steps rs c c' : csteps c c' -> cinv rs c -> cinv rs c'.
Proof. induction 1; eauto using cinv_step. Qed.

(** Between calls made one after the other, everything is complete. *)
Lemma SInv_Inv s : SInv D s -> (forall k, wk ac k = true -> assoc skey_eq_dec k (g_infoCache s) <> None) ->
  exists G, Inv G s /\ complete D none G s.
Proof.
  intros (G & HI & HC) HW. exists G. split; [|exact HC].
  assert (Cl : closed D G s (fun c => exists p, refp G c p) (fun i => exists k, refi G i k)).
  { split.
    - intros [x|n] (p & Hp); [exact Logic.I|]. pose proof (look_rel D G s HI HC _ _ Hp) as B. cbn [refp hlook] in *.
      destruct (nth_error (g_cells s) n) as [b|] eqn:E; [|inversion B]. exists b, p. split; [exact E|]. split; [exact Hp|].
      eapply body_rel_mono; [| |exact B]; cbn beta; intros; split; eauto.
    - intros i (k & Hk). pose proof (iget_rel D G s HI HC _ _ Hk) as [F1 F2]. unfold higet in *.
      assert (L : i < length (gi G)) by (apply nth_error_Some; unfold refi in Hk; congruence).
      rewrite (inv_li _ _ _ _ HI) in L. apply nth_error_Some in L.
      destruct (nth_error (g_infos s) i) as [x|] eqn:E; [|contradiction]. exists x, k. split; [exact E|]. split; [exact Hk|].
      assert (Eq : i_index (piget D k) = i_fields (piget D k)).
      { unfold piget, pinfo. destruct (pfields 0 (struct_fields D k)); reflexivity. }
      rewrite Eq in F2.
      split; (eapply Forall2_mono; [|eassumption]); cbn beta; intros a b; apply field_rel_mono; intros; split; eauto. }
  destruct HI as [a b c d e f g h]. split; [exact a|exact b|exact c|exact d| | | |exact HW].
  - intros k i H. destruct (e k i H) as [H1 _]. split; [exact H1|]. intros _. eexists _, _. split; [exact Cl|]. exists k. exact H1.
  - intros t x H. destruct (f t x H) as (k & H1 & H2 & _). exists k. split; [exact H1|]. split; [exact H2|].
    intros _. eexists _, _. split; [exact Cl|]. eexists. exact H2.
  - intros x y H. destruct (g x y H) as (e0 & p & H1 & H2 & H3 & _). exists e0, p. split; [exact H1|]. split; [exact H2|].
    split; [exact H3|]. intros _. eexists _, _. split; [exact Cl|]. eexists. exact H2.
Qed.

Section From.
Variable s0 : gstate.
Hypothesis Hs0 : SInv D s0.
Hypothesis HW : forall k, wk ac k = true -> assoc skey_eq_dec k (g_infoCache s0) <> None.

Lemma cinv_start css : Forall (Forall call_ok) css -> cinv css (map (p_calls D) css, s0).
Proof.
  intros H. destruct (SInv_Inv s0 Hs0 HW) as (G0 & I0 & C0). exists G0, (map (fun _ => none) css).
  split; [exact I0|]. split; [|split; [|split; [|split]]].
  - destruct C0 as [C1 C2]. split.
    + intros n b Hn. destruct (C1 _ _ Hn) as [F|[]]. auto.
    + intros i x k Hi R. destruct (C2 _ _ _ Hi R) as [F|[]]. auto.
  - induction css; cbn [map]; constructor; [|apply IHcss; inversion H; assumption].
    apply Forall_forall. intros z Hz. apply in_map_iff in Hz. destruct Hz as (? & <- & _). split; intros n [].
  - apply Forall_forall. intros z Hz. apply in_map_iff in Hz. destruct Hz as (? & <- & _). split; intros n [].
  - induction H as [|cs css Hc H IH]; cbn [map combine]; constructor; [|exact IH]. cbn [fst snd].
    eapply wpn_conseq; [|apply (comps_calls none G0 s0 cs Hc)].
    + intros a o G s (Ha & -> & _). split; [exact Ha|reflexivity].
    + apply rely_refl. exact I0.
    + split; intros n [].
  - rewrite !map_length. reflexivity.
Qed.

Lemma concurrent css ts s : Forall (Forall call_ok) css -> csteps (map (p_calls D) css, s0) (ts, s) ->
  Forall2 (fun cs t => (exists o k, t = Do o k) \/
    exists ans, t = Ret ans /\ Forall2 (fun c a => sure c = true -> a = fst (seq_call D c s0)) cs ans) css ts.
Proof.
  intros H S. pose proof (cinv_steps _ _ _ S (cinv_start _ H)) as C. clear S.
  destruct C as (G & os & _ & _ & _ & _ & F & L). revert os ts F L.
  induction H as [|cs css Hc H IH]; intros os ts F L; destruct os as [|o os]; try discriminate; cbn [map combine] in F; inversion F as [|t ? ts' ? Wt F']; subst; constructor.
  - cbn [fst snd] in Wt. destruct t as [a| | |op k]; cbn [wpn] in Wt; try contradiction; [right|left; eauto].
    destruct Wt as [Wt _]. exists a. split; [reflexivity|]. unfold answers in Wt. clear - HD Hs0 Wt Hc.
    induction Wt as [|c a cs ans Ha Wt IH]; constructor; inversion Hc; subst; auto.
    intros Hs. rewrite seq_call_pure; auto.
  - eapply IH; [exact F'|]. cbn in L. lia.
Qed.

Lemma concurrent_end css ans s : Forall (Forall call_ok) css -> csteps (map (p_calls D) css, s0) (map Ret ans, s) -> SInv D s.
Proof.
  intros H S. pose proof (cinv_steps _ _ _ S (cinv_start _ H)) as C. clear S.
  destruct C as (G & os & I & [C1 C2] & _ & _ & F & L). exists G.
  assert (Hos : forall o, In o os -> o = none).
  { clear - F L. revert css ans F L. induction os as [|o os IH]; intros [|cs css] ans F L z Hz; try discriminate; [destruct Hz|].
    cbn [combine] in F. destruct ans as [|a ans]; inversion F as [|? ? ? ? W F']; subst. destruct Hz as [<-|Hz].
    - cbn in W. destruct W as [_ W]. exact W.
    - eapply IH; [exact F'| |exact Hz]. cbn in L. lia. }
  split.
  - destruct I as [a b c d e f g h]. split; [exact a|exact b|exact c|exact d| | | |discriminate].
    + intros k i Hi. destruct (e k i Hi) as [H1 _]. split; [exact H1|discriminate].
    + intros t x Hi. destruct (f t x Hi) as (k & H1 & H2 & _). exists k. split; [exact H1|]. split; [exact H2|discriminate].
    + intros x y Hi. destruct (g x y Hi) as (e0 & p & H1 & H2 & H3 & _). exists e0, p. split; [exact H1|]. split; [exact H2|].
      split; [exact H3|discriminate].
  - split.
    + intros n b Hn. destruct (C1 _ _ Hn) as [A|(o & O1 & O2)]; [left; exact A|]. rewrite (Hos _ O1) in O2. destruct O2.
    + intros i x k Hi R. destruct (C2 _ _ _ Hi R) as [A|(o & O1 & O2)]; [left; exact A|]. rewrite (Hos _ O1) in O2. destruct O2.
Qed.
End From.
End Conc.

(** ** Every execution ends *)
Definition sub_prog {A} (q p : prog A) : Prop := match p with Do o k => exists r, q = k r | _ => False end.
Inductive tstep {A} : list (prog A) -> list (prog A) -> Prop :=
| ts_do pre p q post : sub_prog q p -> tstep (pre ++ q :: post) (pre ++ p :: post).
Lemma tstep_acc {A} (ts : list (prog A)) : Acc tstep ts.
Proof.
  induction ts as [|p ts IH].
  { constructor. intros y H. inversion H as [pre p q post S E1 E2]. destruct pre; discriminate. }
  revert ts IH. induction p as [a| | |o k IHp]; intros ts IH.
  1-3: (induction IH as [ts _ IH2]; constructor; intros y H; inversion H as [pre p q post S E1 E2]; subst;
        destruct pre as [|x pre]; cbn in *; inversion E2; subst; [contradiction|apply IH2; constructor; assumption]).
  induction IH as [ts Hts IH2]. constructor. intros y H. inversion H as [pre p q post S E1 E2]; subst.
  destruct pre as [|x pre]; cbn in *.
  - injection E2 as E2 E3. subst post. subst p. destruct S as [r ->]. apply IHp. constructor. exact Hts.
  - injection E2 as E2 E3. subst. apply IH2. constructor. assumption.
Qed.
Lemma cstep_acc c : Acc (fun c' c => cstep c c') c.
Proof.
  destruct c as [ts s]. revert s. induction (tstep_acc ts) as [ts _ IH]. intros s. constructor. intros [ts' s'] H.
  inversion H; subst. apply IH. constructor. cbn. eauto.
Qed.

(** ** Types used before *)

(** [p] leaves the state [s] alone and returns [r]. *)
Fixpoint calm {A} (p : prog A) (s : gstate) (r : A) : Prop :=
  match p with
  | Ret a => a = r
  | Do o k => snd (exec o s) = s /\ calm (k (fst (exec o s))) s r
  | _ => False
  end.
Lemma reads_calm {A} (p : prog A) s r : reads p -> run p s = (Done r, s) -> calm p s r.
Proof.
  induction p as [a| | |o k IH]; cbn; try discriminate; [intros _ H; congruence|].
  intros [Ho Hk] H. pose proof (is_run_exec o s Ho) as E. split; [assumption|]. destruct (exec o s) as [x s']. cbn [fst snd] in *.
  subst s'. apply IH; auto.
Qed.
Lemma calm_bind {A B} (p : prog A) (k : A -> prog B) s a b : calm p s a -> calm (k a) s b -> calm (pbind p k) s b.
Proof. intros Hp Hk. induction p as [x| | |o c IH]; cbn in *; try contradiction; [subst; assumption|]. destruct Hp. auto. Qed.
Lemma calm_run {A} (p : prog A) s r : calm p s r -> run p s = (Done r, s).
Proof.
  induction p as [x| | |o c IH]; cbn; try contradiction; [congruence|]. intros [E H]. destruct (exec o s) as [x s']. cbn [fst snd] in *.
  subst s'. auto.
Qed.

Section Warm.
Variable D : decls.
Variable s : gstate.
(** The type of the argument is in structInfoCache. *)
Definition warm_call (c : call) : Prop :=
  match arg_type c with Some k => assoc skey_eq_dec k (g_infoCache s) <> None | None => True end.

Lemma calm_info {A} k (g : iref -> prog A) r : assoc skey_eq_dec k (g_infoCache s) <> None ->
  (forall i, reads (g i)) -> run (pbind (p_info D k) g) s = (Done r, s) -> calm (pbind (p_info D k) g) s r.
Proof.
  intros H Hg. unfold p_info, cachedStructInfoOf, infoLoad, do_. cbn [pbind calm exec fst snd run].
  destruct (assoc skey_eq_dec k (g_infoCache s)) as [i|]; [|contradiction]. cbn [pbind].
  intros E. split; [reflexivity|]. apply reads_calm; auto.
Qed.
Lemma warm_run {A} k (g : iref -> prog A) : assoc skey_eq_dec k (g_infoCache s) <> None ->
  (forall i s, exists a, run (g i) s = (Done a, s)) -> exists r, run (pbind (p_info D k) g) s = (Done r, s).
Proof.
  intros H Hg. unfold p_info, cachedStructInfoOf, infoLoad, do_. cbn [pbind calm exec fst snd run].
  destruct (assoc skey_eq_dec k (g_infoCache s)) as [i|]; [|contradiction]. cbn [pbind]. apply Hg.
Qed.

Lemma calm_call c : warm_call c -> calm (p_call D c) s (fst (seq_call D c s)).
Proof.
  intros H. assert (Hc : exists r, calm (p_call D c) s r).
  { unfold warm_call in H. destruct c as [v|v|b v]; cbn [p_call arg_type] in *.
    - destruct v as [| | |k p]; try (eexists; cbn; reflexivity).
      destruct (warm_run k (fun i => let* r := p_info_size i p in Ret (api_res r)) H) as [r Hr].
      { intros i s'. eexists. eapply run_map with (g := api_res). apply run_p_info_size. }
      eexists. eapply calm_bind; [|reflexivity]. apply calm_info; [assumption| |exact Hr].
      intros i. apply reads_bind; [destruct p; [apply reads_struct_size|exact Logic.I]|]. intros; exact Logic.I.
    - destruct v as [| | |k p]; try (eexists; cbn; reflexivity).
      cbn [p_Marshal]. match goal with |- context[pbind (p_info D k) ?g] => destruct (warm_run k g H) as [r Hr] end.
      { intros i s'. eexists. eapply run_map with (g := api_res).
        apply run_rbindp with (g := fun _ => rbind (info_encode s' i [] p) (fun b => OK (Some b, None))); [apply run_p_info_size|].
        intros n. apply run_rbindp; [apply run_p_info_encode|]. reflexivity. }
      eexists. eapply calm_bind; [|reflexivity]. apply calm_info; [assumption| |exact Hr].
      intros i. apply reads_bind; [|intros; exact Logic.I].
      apply reads_rbindp; [destruct p; [apply reads_struct_size|exact Logic.I]|]. intros n.
      apply reads_rbindp; [destruct p; [apply reads_struct_encode|exact Logic.I]|]. intros; exact Logic.I.
    - unfold p_Unmarshal. destruct (zlen b =? 0)%Z; [eexists; cbn; reflexivity|].
      destruct v as [| | |k [x|]]; try (eexists; cbn; reflexivity).
      match goal with |- context[pbind (p_info D k) ?g] => destruct (warm_run k g H) as [r Hr] end.
      { intros i s'. eexists. rewrite run_bind, (proj2 (run_p_dec s' D _)). reflexivity. }
      eexists. eapply calm_bind; [|reflexivity]. apply calm_info; [assumption| |exact Hr].
      intros i. apply reads_bind; [apply (reads_dec D)|]. intros; exact Logic.I. }
  destruct Hc as [r Hr]. pose proof (run_p_call D c s r s (calm_run _ _ _ Hr)) as E. rewrite E. exact Hr.
Qed.
Lemma calm_calls cs : Forall warm_call cs -> calm (p_calls D cs) s (map (fun c => fst (seq_call D c s)) cs).
Proof.
  induction 1 as [|c cs Hc _ IH]; [reflexivity|]. cbn [p_calls map]. eapply calm_bind; [apply calm_call; assumption|].
  eapply calm_bind; [exact IH|reflexivity].
Qed.

Lemma warm_steps rs c c' : csteps c c' ->
  snd c = s /\ Forall2 (fun t r => calm t s r) (fst c) rs -> snd c' = s /\ Forall2 (fun t r => calm t s r) (fst c') rs.
Proof.
  induction 1 as [|c1 c2 c3 S _ IH]; [auto|]. intros [E F]. apply IH. clear IH. destruct S. cbn [fst snd] in *. subst s0.
  apply Forall2_app_inv_l in F. destruct F as (r1 & r2 & F1 & F2 & ->). inversion F2 as [|? y ? r3 HC F3]; subst.
  destruct HC as [E C]. rewrite E. split; [reflexivity|]. apply Forall2_app; [assumption|]. constructor; assumption.
Qed.
Lemma concurrent_warm css ts s' : Forall (Forall warm_call) css -> csteps (map (p_calls D) css, s) (ts, s') ->
  s' = s /\ Forall2 (fun cs t => (exists o k, t = Do o k) \/ t = Ret (map (fun c => fst (seq_call D c s)) cs)) css ts.
Proof.
  intros H S. destruct (warm_steps (map (map (fun c => fst (seq_call D c s))) css) _ _ S) as [E F].
  - split; [reflexivity|]. cbn [fst]. clear S. induction H; cbn [map]; constructor; [apply calm_calls; assumption|assumption].
  - cbn [fst snd] in *. split; [assumption|]. clear S E. revert ts F.
    induction H as [|cs css Hc H IH]; intros ts F; cbn [map] in F; inversion F as [|t r ts' rs C F']; subst; constructor; [|auto].
    destruct t as [a| | |o k]; cbn in C; try contradiction; [right; congruence|left; eauto].
Qed.
End Warm.

(** A type is in structInfoCache after a call that did not panic. *)
Lemma used_warm D k s i s' : run (cachedStructInfoOf D (walk_fuel D) k) s = (Done i, s') -> assoc skey_eq_dec k (g_infoCache s') <> None.
Proof.
  unfold cachedStructInfoOf, infoLoad, infoLoadOrStore, do_. cbn [pbind run exec].
  destruct (assoc skey_eq_dec k (g_infoCache s)) as [j|] eqn:E; cbn [run].
  - intros H. inversion H; subst. congruence.
  - rewrite run_bind. destruct (run (w_structInfo _ _ _ _) s) as [[[j w]| |] s1]; try discriminate. cbn [run exec].
    destruct (assoc skey_eq_dec k (g_infoCache s1)) as [j'|] eqn:E1; cbn [run]; intros H; inversion H; subst; [congruence|].
    cbn [g_with_infoCache g_infoCache assoc]. destruct (skey_eq_dec k k); congruence.
Qed.
Lemma size_warm D k p s n s' : Size D (IPtr k p) s = (Returns n, s') -> assoc skey_eq_dec k (g_infoCache s') <> None.
Proof.
  cbn [Size]. unfold with_info. destruct (run _ s) as [[i| |] s1] eqn:E; try discriminate. intros H.
  assert (s1 = s') by congruence. subst. eapply used_warm; exact E.
Qed.

Lemma in_assoc {K V} (dec : forall a b : K, {a = b} + {a <> b}) k (l : list (K * V)) v : In (k, v) l -> assoc dec k l <> None.
Proof.
  induction l as [|[k' v'] l IH]; [intros []|]. intros [E|H]; cbn.
  - inversion E; subst. destruct (dec k k); congruence.
  - destruct (dec k k'); [discriminate|auto].
Qed.
Lemma upto_mono D (P Q : skey -> Prop) t : (forall k, P k -> Q k) -> finite_upto D P t -> finite_upto D Q t.
Proof. intros H. induction 1; (apply fu_msg; solve [eauto]) || (constructor; solve [eauto]). Qed.
Lemma ready_mono D (P Q : skey -> Prop) k : (forall k, P k -> Q k) -> ready_key D P k -> ready_key D Q k.
Proof. intros H [K|K]; [left; auto|right]. destruct k; auto; eapply upto_mono; eassumption. Qed.
Lemma F2_all {A B} (P : nat -> A -> B -> Prop) l l' : (forall n, Forall2 (P n) l l') -> Forall2 (fun a b => forall n, P n a b) l l'.
Proof.
  revert l'. induction l as [|a l IH]; intros l' H.
  - pose proof (H 0) as H0. inversion H0. constructor.
  - destruct l' as [|b l']; [specialize (H 0); inversion H|].
    constructor; [intros n; specialize (H n); inversion H; assumption|]. apply IH. intros n. specialize (H n). inversion H. assumption.
Qed.
Lemma quiet_SInv D s : supported D = true -> quiet D s -> SInv D s.
Proof.
  intros HD. induction 1 as [s Hs|s css ans s' _ IH Hc S]; [apply reachable_SInv; assumption|].
  apply (concurrent_end D HD alone s IH) with (css := css) (ans := ans); [discriminate| |exact S].
  eapply Forall_impl; [|exact Hc]. intros cs Hcs. eapply Forall_impl; [|exact Hcs]. intros c K k Ek. cbn beta in K. rewrite Ek in K. exact K.
Qed.
Lemma concurrent_proof : forall D, supported D = true -> forall s0, quiet D s0 -> forall css ts s,
  Forall (Forall (fun c => match arg_type c with Some k => user_key D k = true | None => True end)) css ->
  csteps (map (p_calls D) css, s0) (ts, s) ->
  Forall2 (fun cs t => (exists o k, t = Do o k) \/ exists ans, t = Ret ans /\
    Forall2 (fun c a =>
      match arg_type c with Some k => ready_key D (fun k => exists i, In (k, i) (g_infoCache s0)) k | None => True end ->
      a = fst (seq_call D c s0)) cs ans) css ts.
Proof.
  intros D HD s0 Hs0 css ts s H S.
  set (W := fun k => match assoc skey_eq_dec k (g_infoCache s0) with Some _ => true | None => false end).
  assert (HW : forall k, (exists i, In (k, i) (g_infoCache s0)) -> W k = true).
  { intros k [i Hi]. apply (in_assoc skey_eq_dec) in Hi. unfold W. destruct (assoc skey_eq_dec k (g_infoCache s0)); congruence. }
  assert (Hok : Forall (Forall (call_ok D)) css).
  { eapply Forall_impl; [|exact H]. intros cs Hcs. eapply Forall_impl; [|exact Hcs]. intros c K k Ek. cbn beta in K. rewrite Ek in K. exact K. }
  assert (Hall : Forall2 (fun cs t => forall N, (exists o k, t = Do o k) \/
    exists ans, t = Ret ans /\ Forall2 (fun c a => sure D (N, W) c = true -> a = fst (seq_call D c s0)) cs ans) css ts).
  { apply F2_all. intros N. apply (concurrent D HD (N, W) s0 (quiet_SInv D s0 HD Hs0)) with (s := s); [|exact Hok|exact S].
    intros k Hk. unfold wk in Hk. cbn [snd] in Hk. unfold W in Hk. destruct (assoc skey_eq_dec k (g_infoCache s0)); congruence. }
  clear S. induction Hall as [|cs t css ts Ht Hall IH]; constructor; inversion H; inversion Hok; subst; [|apply IH; assumption].
  destruct t as [ans| | |o k]; [right| | |left; eauto]; [|destruct (Ht 0) as [(? & ? & X)|(? & X & _)]; discriminate..].
  exists ans. split; [reflexivity|].
  assert (Hans : Forall2 (fun c a => forall N, sure D (N, W) c = true -> a = fst (seq_call D c s0)) cs ans).
  { apply F2_all. intros N. destruct (Ht N) as [(? & ? & X)|(ans' & X & Y)]; [discriminate|]. inversion X; subst. exact Y. }
  clear - Hans HW H6. induction Hans as [|c a cs ans Ha Hans IH]; constructor; inversion H6; subst; [|apply IH; assumption].
  intros Hr. destruct (arg_type c) as [k|] eqn:Ek; [|apply (Ha 0); unfold sure; rewrite Ek; reflexivity].
  destruct (ready_okk D (0, W) k) as [n Hn]; [auto|eapply ready_mono; [exact HW|exact Hr]|].
  apply (Ha n). unfold sure. rewrite Ek. exact Hn.
Qed.
Lemma recovers_proof : forall D, supported D = true -> forall s, quiet D s -> forall c,
  match arg_type c with Some k => user_key D k = true | None => True end ->
  fst (seq_call D c s) = fst (seq_call D c g_empty).
Proof.
  intros D HD s Hs c Hc. assert (Hok : call_ok D c) by (intros k Ek; rewrite Ek in Hc; exact Hc).
  rewrite (seq_call_pure D HD c s (quiet_SInv D s HD Hs) Hok). symmetry.
  apply (seq_call_pure D HD c g_empty (SInv_empty D) Hok).
Qed.
Lemma concurrent_warm_proof : forall D s css ts s',
  Forall (Forall (fun c => match c with
    | CSize (IPtr k _) | CMarshal (IPtr k _) | CUnmarshal _ (IPtr k _) => exists i, In (k, i) (g_infoCache s)
    | _ => True end)) css ->
  csteps (map (p_calls D) css, s) (ts, s') ->
  s' = s /\ Forall2 (fun cs t => (exists o k, t = Do o k) \/ t = Ret (map (fun c => fst (seq_call D c s)) cs)) css ts.
Proof.
  intros D s css ts s' H S. apply (concurrent_warm D s css ts s'); [|exact S].
  eapply Forall_impl; [|exact H]. intros cs Hcs. eapply Forall_impl; [|exact Hcs]. intros c Hc. unfold warm_call.
  destruct c as [[]|[]|? []]; cbn in *; auto; destruct Hc as [i Hi]; eapply in_assoc; exact Hi.
Qed.
Lemma used_before_proof : forall D k p s n s', Size D (IPtr k p) s = (Returns n, s') -> exists i, In (k, i) (g_infoCache s').
Proof.
  intros. apply size_warm in H. destruct (assoc skey_eq_dec k (g_infoCache s')) as [i|] eqn:E; [|contradiction].
  exists i. eapply assoc_in. exact E.
Qed.
Lemma alone_proof : forall D c s,
  match run (p_call D c) s with
  | (Done a, s') => seq_call D c s = (a, s')
  | (Panicked, s') => snd (seq_call D c s) = s'
  | (OutOfFuel, s') => snd (seq_call D c s) = s'
  end.
Proof.
  intros D c s. destruct (run (p_call D c) s) as [[a| |] s'] eqn:E; [apply run_p_call; exact E| |];
    (destruct c; cbn [p_call seq_call] in *; rewrite run_bind in E;
     [rewrite run_p_Size; destruct (run (p_Size D v) s) as [[r| |] s1]
     |rewrite run_p_Marshal; destruct (run (p_Marshal D v) s) as [[r| |] s1]
     |rewrite run_p_Unmarshal; destruct (run (p_Unmarshal D b v) s) as [[r| |] s1]]; cbn in *; congruence).
Qed.
