(** What Unmarshal does with the bytes of every message of the types the
    generator makes, deviations included: [merge_lib] of SpecLib.v, and
    - sfixed32 and sfixed64 are read as int32 and int64;
    - so are fixed32 and fixed64 in lists, as uint32 and uint64;
    - sint32 and sint64 in maps are read as int32 and int64.
    Under a fixed-width tag, the varint must be within the four or eight bytes,
    and reading goes on after the varint, not after the four or eight bytes. *)
From Verif Require Import Base GoType SpecWire SpecTag SpecMsg SpecLib SpecOut.

Definition in_entry (s : sty) : sty := match s with Y_sint32 | Y_sfixed32 => Y_int32 | Y_sint64 | Y_sfixed64 => Y_int64 | _ => s end.
(** The type as which a field, or the key or value of an entry ([FAlways]), is read. *)
Definition as_read (f : fty) : fty :=
  match f with
  | FImplicit s => FImplicit (own s)
  | FOptional s => FOptional (own s)
  | FRepeated (FAlways s) => FRepeated (FAlways (item s))
  | FAlways s => FAlways (in_entry s)
  | _ => f
  end.
(** The payload of a field declared as [s] that is read as [t], and where reading
    goes on. [r] starts with the payload [p], which is followed by [r']. *)
Definition take (s t : sty) (r : list N) (p : payload) (r' : list N) : option (payload * list N) :=
  if (wire_sty t =? wire_sty s)%N then Some (seen_as t r p, match t with Y_bool => tl r | _ => r' end)
  else match read_varint (firstn (length r - length r') r) with
       | VOk v k _ => Some (PVar v, skipn k r)
       | _ => None
       end.
Definition pick (f : fty) (r : list N) (p : payload) (r' : list N) : option (payload * list N) :=
  match scalar_of f, scalar_of (as_read f) with Some s, Some t => take s t r p r' | _, _ => Some (p, r') end.

Section Schema.
Variable sch : schema.
Fixpoint merge_any (fuel : nat) (fs : list sfld) (xs : list val) (b : list N) : mres (list val) :=
  match fuel with
  | O => MFuel
  | S fuel =>
    match b with
    | [] => MOk xs
    | _ =>
      match read_varint b with
      | VOk tag _ r =>
        match read_payload (tag mod 8) r with
        | None => MBad
        | Some (p, r') =>
          match find_field 0 fs (tag / 8) with
          | None => merge_any fuel fs xs r'
          | Some (i, f) =>
            if negb (wire_fty f =? tag mod 8)%N then MBad
            else match nth_error xs i, pick f r p r' with
                 | Some y, Some (q, next) =>
                   match put sch (merge_any fuel) (as_read f) q y with
                   | MOk y => merge_any fuel fs (replace xs i y) next
                   | MBad => MBad
                   | MFuel => MFuel
                   end
                 | _, _ => MBad
                 end
          end
        end
      | _ => MBad
      end
    end
  end.
End Schema.
