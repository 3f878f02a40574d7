(* Sampling a light by area. *)
From Coq Require Import Reals.
From Verif Require Import RVecModel MatModel LightModel.
Local Open Scope R_scope.

(* lengths are multiplied by s *)
Definition scales_by (s : R) (m : rmat) : Prop :=
  forall v w, rdot (m_vec m v) (m_vec m w) = s * s * rdot v w.

(* the parameter of a hit is inversely proportional to the length of the direction *)
Definition homogeneous (f : shape) : Prop :=
  forall o d k, 0 < k ->
  f (RRay o (rscale k d)) = match f (RRay o d) with Some (t, n) => Some (t / k, n) | None => None end.

(* the density, with respect to solid angle at pos, of a point q chosen uniformly on a surface
   of the given area; n is the normal at q, of length one *)
Definition solid_angle_density (area : R) (pos q n : rv) : R :=
  let v := rsub q pos in
  rdot v v * rlength v / (rabsdot n v * area).
