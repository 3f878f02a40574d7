(* The rest of src/materials/microfacet_distributions.cpp over the real numbers: the
   geometric terms of Blinn and Beckmann and the anisotropic distribution.  A division by
   zero of the code that yields an infinity is either tested for below, as the code does
   with isinf, or excluded by the hypotheses of the theorems (roughness zero). *)
From Coq Require Import Reals Lra.
From Verif Require Import RVecModel MicroModel.
Local Open Scope R_scope.

(* microfacet_distributions.cpp:42-45 and 99-102: the rational approximation and its end *)
Definition rational_G1 (c : R) : R :=
  if Rle_dec (16 / 10) c then 1
  else (3535 / 1000 * c + 2181 / 1000 * c * c) / (1 + 2276 / 1000 * c + 2577 / 1000 * c * c).

(* 28-46 Blinn::G1 *)
Definition blinn_G1 (n : R) (v : rv) : R :=
  let cos := Rabs (rz v) in
  if Req_EM_T cos 0 then 0
  else if Rle_dec 1 cos then 1
  else rational_G1 (sqrt (1 / 2 * n + 1) / (sqrt (1 - cos * cos) / cos)).
(* 23-26 *)
Definition blinn_G (n : R) (wo wi : rv) : R := blinn_G1 n wo * blinn_G1 n wi.

(* 91-103 Beckmann::G1 *)
Definition beckmann_G1 (a : R) (v : rv) : R :=
  let cos := Rabs (rz v) in
  if Req_EM_T cos 0 then 0
  else if Rle_dec 1 cos then 1
  else rational_G1 (cos / (sqrt (Rmax 0 (1 - cos * cos)) * a)).
(* 86-89 *)
Definition beckmann_G (a : R) (wo wi : rv) : R := beckmann_G1 a wo * beckmann_G1 a wi.

(* 171-193 GGXaniso::D *)
Definition aniso_D (ax ay : R) (h : rv) : R :=
  if Req_EM_T (rz h) 0 then 0
  else
    let inv_cos2 := 1 / (rz h * rz h) in
    let sin2 := Rmax 0 (1 - rz h * rz h) in
    if Req_EM_T sin2 0 then 1
    else
      let inv_sin2 := 1 / sin2 in
      let tan2 := sin2 * inv_cos2 in
      let inv_ax := 1 / ax in
      let inv_ay := 1 / ay in
      let cosphi2 := rx h * rx h * inv_sin2 in
      let sinphi2 := ry h * ry h * inv_sin2 in
      let sq_term := 1 + (cosphi2 * inv_ax * inv_ax + sinphi2 * inv_ay * inv_ay) * tan2 in
      1 / PI * inv_ax * inv_ay * inv_cos2 * inv_cos2 * (1 / (sq_term * sq_term)).

(* 195-210 lambdaGGXaniso; the tangent is infinite when the cosine is zero, the sine being
   one then *)
Definition aniso_lambda (v : rv) (ax ay : R) : R :=
  let cos := rz v in
  let sin := sqrt (Rmax 0 (1 - cos * cos)) in
  let sin2 := sin * sin in
  if Req_EM_T cos 0 then 0
  else
    let tan := Rabs (sin / cos) in
    if Req_EM_T tan 0 then 1
    else
      let cos2phi := rx v * rx v / sin2 in
      let sin2phi := ry v * ry v / sin2 in
      let alpha := sqrt (cos2phi * ax * ax + sin2phi * ay * ay) in
      (-1 + sqrt (1 + tan * tan * alpha * alpha)) * (1 / 2).

(* 212-216 *)
Definition aniso_G (ax ay : R) (wo wi : rv) : R :=
  1 / (1 + aniso_lambda wo ax ay + aniso_lambda wi ax ay).

(* 221-223: the azimuth *)
Definition aniso_phi (ax ay r1 : R) : R :=
  let phi := atan (ay / ax * tan (2 * PI * r1 + 1 / 2 * PI)) in
  if Rlt_dec (1 / 2) r1 then phi + PI else phi.

(* 218-235 GGXaniso::sample_wh *)
Definition aniso_wh (ax ay : R) (wo : rv) (r0 r1 : R) : rv :=
  let phi := aniso_phi ax ay r1 in
  let sinphi := sin phi in
  let cosphi := cos phi in
  let ax2 := ax * ax in
  let ay2 := ay * ay in
  let a2 := 1 / (cosphi * cosphi / ax2 + sinphi * sinphi / ay2) in
  let tantheta2 := a2 * r0 / (1 - r0) in
  let cost := 1 / sqrt (1 + tantheta2) in
  let sint := sqrt (Rmax 0 (1 - cost * cost)) in
  half_vector wo cost sint phi.

(* the anisotropic distribution as an object; its density is the inherited one (6-9) *)
Definition aniso (ax ay : R) : dist :=
  mk_dist (aniso_D ax ay) (aniso_G ax ay) (aniso_wh ax ay) (fun _ wh => dist_pdf (aniso_D ax ay) wh).
