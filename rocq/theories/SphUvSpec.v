(* The map of the unit square onto the sphere that a texture is glued with: longitude from
   left to right, south pole at the bottom and north pole at the top. *)
From Coq Require Import Reals.
From Verif Require Import RVecModel.
Local Open Scope R_scope.

Definition globe (u v : R) : rv :=
  RV (sin (PI * v) * cos (2 * PI * u)) (sin (PI * v) * sin (2 * PI * u)) (- cos (PI * v)).

(* du and dv are the partial derivatives of a surface at (u, v) *)
Definition tangents (f : R -> R -> rv) (u v : R) (du dv : rv) : Prop :=
  derivable_pt_lim (fun u => rx (f u v)) u (rx du) /\ derivable_pt_lim (fun u => ry (f u v)) u (ry du) /\
  derivable_pt_lim (fun u => rz (f u v)) u (rz du) /\
  derivable_pt_lim (fun v => rx (f u v)) v (rx dv) /\ derivable_pt_lim (fun v => ry (f u v)) v (ry dv) /\
  derivable_pt_lim (fun v => rz (f u v)) v (rz dv).
