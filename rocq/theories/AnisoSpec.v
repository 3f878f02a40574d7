(* The formulas of the literature the distributions are named after (Walter et al.,
   Microfacet Models for Refraction through Rough Surfaces; Heitz, Understanding the
   masking-shadowing function), in terms of the coordinates of unit vectors around the
   normal (0,0,1).  The slope of the surface along x and y stretched by the two
   roughnesses plays the part of the tangent. *)
From Coq Require Import Reals.
From Verif Require Import RVecModel.
Local Open Scope R_scope.

(* squared tangent of the angle with the normal *)
Definition tan2 (v : rv) : R := (rx v * rx v + ry v * ry v) / (rz v * rz v).

(* density of microfacet normals of the GGX distribution with two roughnesses *)
Definition ggx_normals (ax ay : R) (h : rv) : R :=
  let t := 1 + (rx h / (ax * rz h)) ^ 2 + (ry h / (ay * rz h)) ^ 2 in
  1 / (PI * ax * ay * rz h ^ 4 * t ^ 2).

(* the share of the microfacets seen from v (Smith), with one roughness, a2 squared *)
Definition smith_seen (a2 : R) (v : rv) : R := 2 / (1 + sqrt (1 + a2 * tan2 v)).

(* the auxiliary function of Smith for two roughnesses, and the share of the microfacets
   seen from both directions, taking the heights as correlated *)
Definition smith_lambda (ax ay : R) (v : rv) : R :=
  (-1 + sqrt (1 + (ax * rx v / rz v) ^ 2 + (ay * ry v / rz v) ^ 2)) / 2.
Definition smith_both (ax ay : R) (wo wi : rv) : R :=
  1 / (1 + smith_lambda ax ay wo + smith_lambda ax ay wi).
