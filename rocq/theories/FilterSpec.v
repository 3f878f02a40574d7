(* What a reconstruction filter promises (filter.hpp and the headers of the filters). *)
From Coq Require Import Reals List.
From Verif Require Import FilterModel.
Import ListNotations.
Local Open Scope R_scope.

(* weights are in [0,1] (filter.hpp:32-40) *)
Definition unit_weights (f : filter) : Prop := forall x y, 0 <= f_weight f x y <= 1.
(* "the sample in the exact centre of the filter has a value of 1.0" *)
Definition one_at_centre (f : filter) : Prop := f_weight f 0 0 = 1.
(* "until the edge of the filter which posses a value of 0.0" *)
Definition zero_at_edge (f : filter) : Prop :=
  forall x y, Rabs x = f_range f \/ Rabs y = f_range f -> f_weight f x y = 0.
Definition zero_outside (f : filter) : Prop :=
  forall x y, f_range f <= Rabs x \/ f_range f <= Rabs y -> f_weight f x y = 0.
Definition even_weights (f : filter) : Prop :=
  forall x y x' y', Rabs x = Rabs x' -> Rabs y = Rabs y' -> f_weight f x y = f_weight f x' y'.
Definition falls_off (f : filter) : Prop :=
  forall x y x' y', Rabs x <= Rabs x' -> Rabs y <= Rabs y' -> f_weight f x' y' <= f_weight f x y.

(* the weights that a sample gives to the pixels around it: its offset from the pixel at its
   lower left is (x, y), 0 <= x, y <= 1; the pixels are those at distance below two *)
Fixpoint sum (l : list R) : R := match l with [] => 0 | a :: l => a + sum l end.
Definition around (x : R) : list R := [x + 1; x; x - 1; x - 2].
Definition distributed (f : filter) (x y : R) : R :=
  sum (map (fun oy => sum (map (fun ox => f_weight f ox oy) (around x))) (around y)).
