(** What Unmarshal does with the bytes of a message, its two deviations from
    [merge] of SpecMsg.v included: of the varint of a bool only the first byte
    is read, and reading goes on after that byte; a sint32 keeps the lower 32
    bits of the number, not of its zigzag code. *)
From Verif Require Import Base GoType SpecWire SpecTag SpecMsg.

Fixpoint scalar_of (f : fty) : option sty :=
  match f with
  | FImplicit s | FOptional s | FPointer s | FAlways s => Some s
  | FRepeated e => scalar_of e
  | FBytes | FMessage _ | FMap _ _ => None
  end.
(** The payload [p] at the start of [r], as it is taken. *)
Definition seen_as (s : sty) (r : list N) (p : payload) : payload :=
  match s, p with
  | Y_bool, _ => PVar (hd 0%N r)
  | Y_sint32, PVar n => PVar (zigzag (as_signed (Z.to_N (unzigzag n mod 2^32))))
  | _, _ => p
  end.
Definition seen (f : fty) (r : list N) (p : payload) : payload :=
  match scalar_of f with Some s => seen_as s r p | None => p end.
(** Where reading goes on; [r'] is what follows the payload. *)
Definition after (f : fty) (r r' : list N) : list N :=
  match scalar_of f with Some Y_bool => tl r | _ => r' end.

Section Schema.
Variable sch : schema.
Fixpoint merge_lib (fuel : nat) (fs : list sfld) (xs : list val) (b : list N) : mres (list val) :=
  match fuel with
  | O => MFuel
  | S fuel =>
    match b with
    | [] => MOk xs
    | _ =>
      match read_varint b with
      | VOk tag _ r =>
        match read_payload (tag mod 8) r with
        | None => MBad
        | Some (p, r') =>
          match find_field 0 fs (tag / 8) with
          | None => merge_lib fuel fs xs r'
          | Some (i, f) =>
            if negb (wire_fty f =? tag mod 8)%N then MBad
            else match nth_error xs i with
                 | None => MBad
                 | Some y =>
                   match put sch (merge_lib fuel) f (seen f r p) y with
                   | MOk y => merge_lib fuel fs (replace xs i y) (after f r r')
                   | MBad => MBad
                   | MFuel => MFuel
                   end
                 end
          end
        end
      | _ => MBad
      end
    end
  end.
(** The numbers of the records of [b] as they are taken. *)
Fixpoint mentioned_lib (fuel : nat) (fs : list sfld) (b : list N) : list N :=
  match fuel with
  | O => []
  | S fuel =>
    match b with
    | [] => []
    | _ =>
      match read_varint b with
      | VOk tag _ r =>
        (tag / 8)%N ::
        match read_payload (tag mod 8) r with
        | None => []
        | Some (_, r') =>
          match find_field 0 fs (tag / 8) with
          | None => mentioned_lib fuel fs r'
          | Some (_, f) => if negb (wire_fty f =? tag mod 8)%N then [] else mentioned_lib fuel fs (after f r r')
          end
        end
      | _ => []
      end
    end
  end.
End Schema.
