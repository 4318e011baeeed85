(** For C82: what a message holds after a call of Unmarshal that failed. *)
From Verif Require Import Base GoType SpecWire SpecTag SpecMsg SpecLib.

Section Schema.
Variable sch : schema.
(** The records before the first fault have been read. If the fault is within the
    message of a field, that message is there and holds what was read of it;
    a list or map does not get the faulty element. *)
Fixpoint remains (fuel : nat) (fs : list sfld) (xs : list val) (b : list N) : list val :=
  match fuel with
  | O => xs
  | S fuel =>
    match b with
    | [] => xs
    | _ =>
      match read_varint b with
      | VOk tag _ r =>
        match read_payload (tag mod 8) r with
        | None => xs
        | Some (p, r') =>
          match find_field 0 fs (tag / 8) with
          | None => remains fuel fs xs r'
          | Some (i, f) =>
            if negb (wire_fty f =? tag mod 8)%N then xs
            else match nth_error xs i with
                 | None => xs
                 | Some y =>
                   match put sch (merge_lib sch fuel) f (seen f r p) y with
                   | MOk y => remains fuel fs (replace xs i y) (after f r r')
                   | _ =>
                     match f, p with
                     | FMessage m, PLen c =>
                       let old := match y with VPtr (Some (VStruct xs)) => xs | _ => zeros (msg sch m) end in
                       replace xs i (VPtr (Some (VStruct (remains fuel (msg sch m) old c))))
                     | _, _ => xs
                     end
                   end
                 end
          end
        end
      | _ => xs
      end
    end
  end.
End Schema.

(** An input that starts with a fault: no tag, no complete value of a known wire
    type, or a wire type the field does not have. *)
Definition faulty (fs : list sfld) (b : list N) : Prop :=
  b <> [] /\
  match read_varint b with
  | VOk tag _ r =>
    read_payload (tag mod 8) r = None \/
    exists f, In (Field (tag / 8) f) fs /\ wire_fty f <> (tag mod 8)%N
  | _ => True
  end.
