(* What a progress bar says about n things done out of m. *)
From Verif Require Import Common.
Local Open Scope Z_scope.

(* the share n / m, in units of 1 / parts, rounded down to k *)
Definition share (parts n m k : Z) : Prop := k * m <= parts * n < (k + 1) * m.

(* k full blocks, then empty ones up to the length *)
Definition blocks (length_ : nat) (k : Z) (l : list bool) : Prop :=
  length l = length_ /\ forall i, (i < length_)%nat -> nth_error l i = Some (Z.of_nat i <? k).
