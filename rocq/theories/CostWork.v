(** The number that the counter of Cost.v gives, as a function of its own. *)
From Verif Require Import Base Wire GoType Leaf Codec Tag Walker Api SpecCost Cost.
Local Open Scope Z_scope.

Section Cost.
Context {R I : Type}.
Variable look : R -> cbody R I.
Variable iget : I -> sinfo R.
Variable D : decls.

(** The cost of [dec fuel c b v] / [decs fuel i b offset x]. *)
Fixpoint work (fuel : nat) (c : R) (b : bytes) (v : val) {struct fuel} : Z :=
  match fuel with
  | O => 0
  | S fuel =>
    1 + match look c with
    | BNil => 0
    | BStatic s => copied s b
    | BPtr t c' =>
      match v with
      | VPtr None => mem (zero t) + work fuel c' b (zero t)
      | VPtr (Some x) => work fuel c' b x
      | _ => 0
      end
    | BSlice t c' =>
      match v with
      | VSlice _ items [] =>
        (zlen items + zlen (grow_spare t (length items))) * mem (zero t) +
        match grow_spare t (length items) with [] => 0 | slot :: _ => work fuel c' b slot end
      | VSlice _ items (slot :: _) => work fuel c' b slot
      | _ => 0
      end
    | BStruct k i =>
      match v with
      | VPtr o =>
        match o with Some _ => 0 | None => mem (zero_struct D k) end +
        let '(_, n, e) := decodeVarint b in
        match e, from_ b n with
        | None, Some b' => works fuel i b' 0 (match o with Some x => x | None => zero_struct D k end)
        | _, _ => 0
        end
      | _ => 0
      end
    | BMap _ _ _ k i =>
      match v with
      | VMap m =>
        match m with Some _ => 0 | None => 10 * mem (zero_struct D k) end +
        if zlen b =? 0 then 0
        else
          2 * mem (zero_struct D k) +
          let '(_, n, e) := decodeVarint b in
          match e, from_ b n with
          | None, Some b' => works fuel i b' 0 (zero_struct D k)
          | _, _ => 0
          end
      | _ => 0
      end
    end
  end
with works (fuel : nat) (i : I) (b : bytes) (offset : Z) (x : val) {struct fuel} : Z :=
  match fuel with
  | O => 0
  | S fuel =>
    1 +
    if offset <? zlen b then
      match from_ b offset with
      | None => 0
      | Some tl =>
        let '(fn, wt, n, e) := decodeTag tl in
        let offset := offset + n in
        match e with
        | Some e => 0
        | None =>
          match lookup_field (iget i) fn with
          | None =>
            match skip_unknown b offset wt with
            | OK (offset, None) => works fuel i b offset x
            | _ => 0
            end
          | Some f =>
            if negb (wt =? wireType f)%N then 0
            else
              match field_data b offset wt with
              | FData data =>
                match get_field x (f_idx f) with
                | None => 0
                | Some y =>
                  work fuel (f_codec f) data y +
                    match dec look iget D fuel (f_codec f) data y with
                    | DRet y n None => works fuel i b (offset + n) (set_field x (f_idx f) y)
                    | _ => 0
                    end
                end
              | _ => 0
              end
          end
        end
      end
    else 0
  end.
End Cost.

