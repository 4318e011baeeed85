(** For C85: what a message of any generated type holds after a call of
    Unmarshal that failed. [merge_any] of SpecIn.v says which inputs fail. *)
From Verif Require Import Base GoType SpecWire SpecTag SpecMsg SpecLib SpecOut SpecIn.

(** An sfixed32 or sfixed64 is read as a varint. If none ends within its bytes [c],
    the field gets the number these bytes have begun. *)
Definition begun (f : fty) (c : list N) (y : val) : val :=
  match f with
  | FImplicit Y_sfixed32 => VI32 (signed 32 (vvalue c))
  | FImplicit Y_sfixed64 => VI64 (signed 64 (vvalue c))
  | FOptional Y_sfixed32 => VOpt true (VI32 (signed 32 (vvalue c)))
  | FOptional Y_sfixed64 => VOpt true (VI64 (signed 64 (vvalue c)))
  | _ => y
  end.

Section Schema.
Variable sch : schema.
(** [remains] of SpecFailed.v, with the deviations of SpecIn.v. *)
Fixpoint remains_any (fuel : nat) (fs : list sfld) (xs : list val) (b : list N) : list val :=
  match fuel with
  | O => xs
  | S fuel =>
    match b with
    | [] => xs
    | _ =>
      match read_varint b with
      | VOk tag _ r =>
        match read_payload (tag mod 8) r with
        | None => xs
        | Some (p, r') =>
          match find_field 0 fs (tag / 8) with
          | None => remains_any fuel fs xs r'
          | Some (i, f) =>
            if negb (wire_fty f =? tag mod 8)%N then xs
            else match nth_error xs i with
                 | None => xs
                 | Some y =>
                   match pick f r p r' with
                   | None => replace xs i (begun f (firstn (length r - length r') r) y)
                   | Some (q, next) =>
                     match put sch (merge_any sch fuel) (as_read f) q y with
                     | MOk y => remains_any fuel fs (replace xs i y) next
                     | _ =>
                       match f, p with
                       | FMessage m, PLen c =>
                         let old := match y with VPtr (Some (VStruct xs)) => xs | _ => zeros (msg sch m) end in
                         replace xs i (VPtr (Some (VStruct (remains_any fuel (msg sch m) old c))))
                       | _, _ => xs
                       end
                     end
                   end
                 end
          end
        end
      | _ => xs
      end
    end
  end.
End Schema.
