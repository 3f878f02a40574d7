(* Densities of sampled directions, stated without integrals.  A direction with cosine c
   to the normal is drawn from a random number r in (0,1); the probability that the cosine
   is c or more is the length of the part of (0,1) that gives such a cosine.  The
   density per solid angle times 2 pi is minus the derivative of that probability, since
   the solid angle of a belt of directions is 2 pi times its height. *)
From Coq Require Import Reals.
From Verif Require Import RVecModel.
Local Open Scope R_scope.

(* p is the length of the set of random numbers giving a cosine of c or more *)
Definition share (cosine : R -> R) (c p : R) : Prop :=
  0 <= p <= 1 /\
  ((forall r, 0 < r < 1 -> (c <= cosine r <-> r <= p)) \/
   (forall r, 0 < r < 1 -> (c <= cosine r <-> 1 - p <= r))).

Definition shares (cosine : R -> R) (G : R -> R) : Prop :=
  forall c, 0 < c < 1 -> share cosine c (G c).

(* density is, at cosine c, the density of the directions drawn with these cosines *)
Definition density_at (G density : R -> R) (c : R) : Prop :=
  derivable_pt_lim G c (- (2 * PI * density c)).

Definition right_density (cosine density : R -> R) : Prop :=
  exists G, shares cosine G /\ forall c, 0 < c < 1 -> density_at G density c.

(* the azimuth of a half vector: the one drawn, on either side of the surface *)
Definition azimuth (w : rv) (phi : R) : Prop :=
  exists k s, 0 <= k /\ (s = 1 \/ s = -1) /\ rx w = s * k * cos phi /\ ry w = s * k * sin phi /\ 0 <= s * rz w.
