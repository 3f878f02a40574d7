(* What the laws of optics ask, stated on directions in shading space: the normal of
   the surface is the z axis and both directions leave the surface. *)
From Coq Require Import Reals.
From Verif Require Import RVecModel.
Local Open Scope R_scope.

(* squared sine of the angle with the normal of a unit direction *)
Definition sin2 (v : rv) : R := rx v * rx v + ry v * ry v.

(* the index on the side of a direction: eta_i above the surface, eta_t below *)
Definition index_on (eta_i eta_t : R) (v : rv) (n : R) : Prop :=
  (0 < rz v -> n = eta_i) /\ (rz v < 0 -> n = eta_t).

(* mirror images: same height, opposite tangential part *)
Definition mirror (wo wi : rv) : Prop :=
  rz wi = rz wo /\ rx wi = - rx wo /\ ry wi = - ry wo.

(* Snell's law with directions in one plane through the normal and on opposite sides *)
Definition snell (eta_i eta_t : R) (wo wi : rv) : Prop :=
  rz wo * rz wi < 0 /\
  (exists k, 0 <= k /\ rx wi = - (k * rx wo) /\ ry wi = - (k * ry wo)) /\
  forall no ni, index_on eta_i eta_t wo no -> index_on eta_i eta_t wi ni ->
    no * no * sin2 wo = ni * ni * sin2 wi.

(* beyond the critical angle: the sine Snell's law asks for is one or more *)
Definition beyond_critical (eta_i eta_t : R) (wo : rv) : Prop :=
  forall no ni, index_on eta_i eta_t wo no -> index_on eta_i eta_t (rneg wo) ni ->
    ni * ni <= no * no * sin2 wo.
