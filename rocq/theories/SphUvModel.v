(* The texture coordinates and the derivatives of a hit on a sphere, compute_uvs of
   src/primitives/sphere.cpp, over the real numbers: exact arithmetic. *)
From Coq Require Import Reals Lra.
From Verif Require Import RVecModel.
Local Open Scope R_scope.

(* atan2f of the C library.  The sign of a zero is not modelled: it matters only for
   (-0, x) with x < 0, where the -pi it gives becomes pi in sphere.cpp:9. *)
Definition atan2 (y x : R) : R :=
  if Rlt_dec 0 x then atan (y / x)
  else if Rlt_dec x 0 then
    if Rlt_dec y 0 then atan (y / x) - PI else atan (y / x) + PI
  else if Rlt_dec 0 y then PI / 2
  else if Rlt_dec y 0 then - (PI / 2) else 0.

(* utility.hpp:172-181 *)
Definition uclamp (v lo hi : R) : R := if Rlt_dec v lo then lo else if Rgt_dec v hi then hi else v.

(* hit.hpp: uv, dpdu and dpdv of a HitPoint *)
Record uvs := mk_uvs { uv_u : R; uv_v : R; uv_dpdu : rv; uv_dpdv : rv }.

(* sphere.cpp:6-22 *)
Definition sphere_uvs (hit : rv) : uvs :=
  let phi := atan2 (ry hit) (rx hit) in
  let phi := if Rlt_dec phi 0 then phi + 2 * PI else phi in
  let theta := acos (uclamp (rz hit) (-1) 1) in
  let thetad := 0 - PI in
  let inv_thetad := 1 / thetad in
  let invzrad := 1 / sqrt (rx hit * rx hit + ry hit * ry hit) in
  let cosphi := rx hit * invzrad in
  let sinphi := ry hit * invzrad in
  mk_uvs (phi * (1 / (2 * PI))) ((theta - PI) * inv_thetad)
    (RV (- (2 * PI) * ry hit) (2 * PI * rx hit) 0)
    (rscale thetad (RV (rz hit * cosphi) (rz hit * sinphi) (- sin theta))).
