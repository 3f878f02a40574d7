(* Triangles as sets of points, and their area. *)
From Coq Require Import Reals List.
From Verif Require Import RVecModel.
Import ListNotations.
Local Open Scope R_scope.

Definition barycentric (a b c p : rv) (u v w : R) : Prop :=
  u + v + w = 1 /\ p = radd (rscale u a) (radd (rscale v b) (rscale w c)).
Definition in_triangle (a b c p : rv) : Prop :=
  exists u v w, 0 <= u /\ 0 <= v /\ 0 <= w /\ barycentric a b c p u v w.

(* Heron's formula: the area from the lengths of the sides alone, four times it *)
Definition heron (a b c : rv) : R :=
  let x := rdistance a b in let y := rdistance b c in let z := rdistance c a in
  (x + y + z) * (x + y - z) * (y + z - x) * (z + x - y).
Definition is_area (a b c : rv) (k : R) : Prop := 0 <= k /\ 16 * (k * k) = heron a b c.

Fixpoint total (l : list R) : R := match l with [] => 0 | x :: l => x + total l end.
