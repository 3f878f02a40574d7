(* What bounding boxes are for, in terms of points only. *)
From Verif Require Import Common GeomModel AabbModel.
Local Open Scope Q_scope.

(* a finite bound below / above a coordinate *)
Definition below (lo : xq) (q : Q) : Prop :=
  match lo with Fin p => p <= q | NInf => True | PInf | NaN => False end.
Definition above (hi : xq) (q : Q) : Prop :=
  match hi with Fin p => q <= p | PInf => True | NInf | NaN => False end.

(* the point belongs to the box *)
Definition contains (b : aabb) (p : vec) : Prop :=
  (below (xx (b_lo b)) (vx p) /\ above (xx (b_hi b)) (vx p)) /\
  (below (xy (b_lo b)) (vy p) /\ above (xy (b_hi b)) (vy p)) /\
  (below (xz (b_lo b)) (vz p) /\ above (xz (b_hi b)) (vz p)).

Definition no_nan (x : xq) : Prop := x <> NaN.
Definition valid_vec (v : xvec) : Prop := no_nan (xx v) /\ no_nan (xy v) /\ no_nan (xz v).
(* no NaN among the six numbers *)
Definition valid (b : aabb) : Prop := valid_vec (b_lo b) /\ valid_vec (b_hi b).

(* the point on the line of the ray at parameter t *)
Definition on_ray (r : ray) (t : Q) (p : vec) : Prop :=
  vx p == vx (r_o r) + t * vx (r_d r) /\ vy p == vy (r_o r) + t * vy (r_d r) /\
  vz p == vz (r_o r) + t * vz (r_d r).

(* a parameter is not excluded by the reported interval (a NaN excludes nothing) *)
Definition not_after (x : xq) (t : Q) : Prop := xlt (Fin t) x = false.
Definition not_before (x : xq) (t : Q) : Prop := xlt x (Fin t) = false.
