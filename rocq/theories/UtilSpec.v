(* How a person reads a duration such as "1d 2h 30m 5s ": every number is
   multiplied by the unit letter that follows it. *)
From Verif Require Import Common.
Local Open Scope N_scope.

Definition unit_of (letter : N) : option N :=
  if letter =? 100 (* d *) then Some 86400
  else if letter =? 104 (* h *) then Some 3600
  else if letter =? 109 (* m *) then Some 60
  else if letter =? 115 (* s *) then Some 1
  else None.

(* number read so far, total so far *)
Fixpoint read_duration (l : list N) (number total : N) : option N :=
  match l with
  | [] => Some total
  | c :: l =>
      if (48 <=? c) && (c <=? 57) then read_duration l (10 * number + (c - 48)) total
      else if c =? 32 then read_duration l 0 total
      else match unit_of c with
           | Some u => read_duration l 0 (total + number * u)
           | None => None
           end
  end.

(* Byte k of a word, least significant first. *)
Definition byte_of (k : N) (w : N) : N := w / 256 ^ k mod 256.
