(* Rough surfaces as many small plane mirrors or interfaces, each with its own normal: which
   of them join two directions, and which density directions have that come from drawn
   half vectors. *)
From Coq Require Import Reals.
From Verif Require Import RVecModel RVecProps MicroModel PrimSpec.
Local Open Scope R_scope.

(* a plane interface with normal h, facing upwards, between two media, joins the directions
   wo (in the medium with index no) and wi (in the other, ni): they are on the two sides of
   it, each on the side where it is for the whole surface, and the law of refraction holds:
   nothing is left of no wo + ni wi across h *)
Definition joins (no ni : R) (h wo wi : rv) : Prop :=
  unit h /\ 0 < rz wo * rdot wo h /\ 0 < rz wi * rdot wi h /\
  exists k, radd (rscale no wo) (rscale ni wi) = rscale k h.

(* the indices on the side of wo and on the other side *)
Definition sides (eta_i eta_t : R) (wo : rv) (no ni : R) : Prop :=
  (0 < rz wo -> no = eta_i /\ ni = eta_t) /\ (rz wo < 0 -> no = eta_t /\ ni = eta_i).

Definition direction (w : option rv) : rv := match w with Some w => w | None => RV 0 0 0 end.

(* next to (u, v) the half vectors are unit vectors, and the density of the one at (u, v)
   undoes the stretching of areas *)
Definition drawn (d : dist) (wo : rv) (u v : R) : Prop :=
  (exists a b, a < u < b /\ forall z, a < z < b -> unit (d_wh d wo z v)) /\
  (exists a b, a < v < b /\ forall z, a < z < b -> unit (d_wh d wo u z)) /\
  exists k, 0 < k /\ area_element (d_wh d wo) u v k /\ d_pdf d wo (d_wh d wo u v) * k = 1.
