(* src/materials/microfacet_distributions.cpp, microfacet.cpp and oren_nayar.cpp over the
   real numbers.  powf is Rpower, which agrees with it for a positive base.  GGXaniso and
   the geometric terms of Blinn and Beckmann are in AnisoModel. *)
From Coq Require Import Reals Lra.
From Verif Require Import RVecModel SpecularModel.
Local Open Scope R_scope.

(* utility.hpp:172 clamp *)
Definition clamp (v lo hi : R) : R :=
  if Rlt_dec v lo then lo else if Rlt_dec hi v then hi else v.

(* microfacet_distributions.hpp: a distribution of half vectors *)
Record dist := mk_dist {
  d_D : rv -> R;
  d_G : rv -> rv -> R;
  d_wh : rv -> R -> R -> rv;
  d_pdf : rv -> rv -> R }.

(* the common end of the three sample_wh (microfacet_distributions.cpp:53-56, 114-118,
   157-161): spherical coordinates, on the side of wo *)
Definition half_vector (wo : rv) (cost sint phi : R) : rv :=
  let wh := RV (sint * cos phi) (sint * sin phi) cost in
  if Rlt_dec (rz wo * rz wh) 0 then rneg wh else wh.

(* microfacet_distributions.cpp:16-21 *)
Definition blinn_D (n : R) (h : rv) : R := (n + 2) / (2 * PI) * Rpower (Rabs (rz h)) n.
(* 48-56 *)
Definition blinn_wh (n : R) (wo : rv) (r0 r1 : R) : rv :=
  let cost := Rpower r0 (1 / (n + 1)) in
  half_vector wo cost (sqrt (Rmax 0 (1 - cost * cost))) (r1 * (2 * PI)).
(* 58-68 *)
Definition blinn_pdf (n : R) (wo wh : rv) : R :=
  if Rlt_dec 0 (rdot wo wh) then (n + 2) * Rpower (Rabs (rz wh)) n / (2 * PI) else 0.

(* 75-84 *)
Definition beckmann_D (a : R) (h : rv) : R :=
  let cost2 := rz h * rz h in
  let sint2 := 1 - cost2 in
  if Req_EM_T cost2 0 then 0
  else
    let e := exp (- (sint2 / cost2) / (a * a)) in
    e / (PI * cost2 * cost2 * (a * a)) * e.
(* 105-118 *)
Definition beckmann_wh (a : R) (wo : rv) (r0 r1 : R) : rv :=
  let l := ln (1 - r0) in
  let cost := 1 / sqrt (1 - a * a * l) in
  half_vector wo cost (sqrt (1 - cost * cost)) (2 * PI * r1).

(* 126-135; a2 is the squared roughness (120-124) *)
Definition ggx_D (a2 : R) (h : rv) : R :=
  if Req_EM_T (rz h) 0 then 0
  else
    let cos2t := rz h * rz h in
    let sin2t := Rmax 0 (1 - cos2t) in
    let t := a2 + sin2t / cos2t in
    a2 / (t * t * cos2t * cos2t * PI).
(* 142-150 *)
Definition ggx_G1 (a2 : R) (v : rv) : R :=
  let cos2 := rz v * rz v in
  if Req_EM_T cos2 0 then 0
  else
    let sin2 := Rmax 0 (1 - cos2 * cos2) in
    2 / (1 + sqrt (1 + a2 * sin2 / cos2)).
(* 137-140 *)
Definition ggx_G (a2 : R) (wo wi : rv) : R := ggx_G1 a2 wo * ggx_G1 a2 wi.
(* 152-161 *)
Definition ggx_wh (a2 : R) (wo : rv) (r0 r1 : R) : rv :=
  let cos2t := (1 - r0) / (r0 * (a2 - 1) + 1) in
  half_vector wo (sqrt (Rmax 0 cos2t)) (sqrt (Rmax 0 (1 - cos2t))) (2 * PI * r1).

(* 6-9 MicrofacetDist::pdf, inherited by Beckmann and GGX *)
Definition dist_pdf (D : rv -> R) (wh : rv) : R := D wh * Rabs (rz wh).

(* the distributions as objects; Blinn and Beckmann with any geometric term *)
Definition blinn (n : R) (G : rv -> rv -> R) : dist := mk_dist (blinn_D n) G (blinn_wh n) (blinn_pdf n).
Definition beckmann (a : R) (G : rv -> rv -> R) : dist :=
  mk_dist (beckmann_D a) G (beckmann_wh a) (fun _ wh => dist_pdf (beckmann_D a) wh).
Definition ggx (a2 : R) : dist :=
  mk_dist (ggx_D a2) (ggx_G a2) (ggx_wh a2) (fun _ wh => dist_pdf (ggx_D a2) wh).

(* the test for the zero vector in microfacet.cpp:28, 102-103, 148, 179 *)
Definition is_zero (v : rv) : bool :=
  if Req_EM_T (rx v) 0 then
    if Req_EM_T (ry v) 0 then if Req_EM_T (rz v) 0 then true else false else false
  else false.

(* microfacet.cpp:20-34 MicrofacetR::value, one entry of the spectrum *)
Definition micro_value (d : dist) (fresnel : R -> R) (wo wi : rv) : R :=
  if Rlt_dec (rz wo * rz wi) 0 then 0
  else
    let costwo := Rabs (rz wo) in
    let costwi := Rabs (rz wi) in
    let wh := radd wo wi in
    if Req_EM_T costwo 0 then 0
    else if Req_EM_T costwi 0 then 0
    else if is_zero wh then 0
    else
      let wh := rnormalize wh in
      fresnel (rdot wi wh) * d_D d wh * d_G d wo wi / (4 * costwo * costwi).

(* microfacet.cpp:36-53 *)
Definition micro_sample (d : dist) (fresnel : R -> R) (wo : rv) (r0 r1 : R) : sampled :=
  let wh := rnormalize (d_wh d wo r0 r1) in
  let wi := rnormalize (rneg (rreflect wo wh)) in
  if Rlt_dec (rz wo * rz wi) 0 then mk_sampled 0 (Some wi) 0
  else mk_sampled (micro_value d fresnel wo wi) (Some wi) (d_pdf d wo wh / (4 * rdot wo wh)).

(* microfacet.cpp:55-66 *)
Definition micro_pdf (d : dist) (wo wi : rv) : R :=
  if Rlt_dec (rz wo * rz wi) 0 then 0
  else
    let wh := rnormalize (radd wo wi) in
    d_pdf d wo wh / (4 * rdot wo wh).

(* microfacet.cpp:123-160 MicrofacetT::sample_value: the direction and the density *)
Definition trans_sample (d : dist) (eta_i eta_t : R) (wo : rv) (r0 r1 : R) : option rv * R :=
  if Req_EM_T (rz wo) 0 then (None, 0)
  else
    let wh := rnormalize (d_wh d wo r0 r1) in
    let etao := if Rlt_dec 0 (rz wo) then eta_i else eta_t in
    let etai := if Rlt_dec 0 (rz wo) then eta_t else eta_i in
    match rrefract wo wh (etao / etai) with
    | None => (None, 0)
    | Some wi =>
        if is_zero wi then (None, 0)
        else
          let dotwoh := rdot wo wh in
          let den := etai * rdot wi wh + etao * dotwoh in
          let jacobian := etao * etao * Rabs dotwoh / (den * den) in
          (Some (rnormalize wi), d_pdf d wo wh * jacobian)
    end.

(* microfacet.cpp:162-187 *)
Definition trans_pdf (d : dist) (eta_i eta_t : R) (wo wi : rv) : R :=
  if Rlt_dec 0 (rz wo * rz wi) then 0
  else
    let etao := if Rlt_dec 0 (rz wo) then eta_i else eta_t in
    let etai := if Rlt_dec 0 (rz wo) then eta_t else eta_i in
    let wh := rsub (rscale etao (rneg wo)) (rscale etai wi) in
    if is_zero wh then 0
    else
      let wh := rnormalize wh in
      let dotwoh := rdot wo wh in
      let den := etai * rdot wi wh + etao * dotwoh in
      d_pdf d wo wh * (etao * etao * Rabs dotwoh / (den * den)).

(* oren_nayar.cpp:16-22 *)
Definition oren_A (sigma : R) : R := 1 - sigma * sigma / (2 * (sigma * sigma + 33 / 100)).
Definition oren_B (sigma : R) : R := 45 / 100 * (sigma * sigma) / (sigma * sigma + 9 / 100).

(* oren_nayar.cpp:24-61, one entry *)
Definition oren_value (sigma : R) (wo wi : rv) : R :=
  let A := oren_A sigma in
  let B := oren_B sigma in
  let ci := Rabs (rz wi) in
  let co := Rabs (rz wo) in
  let si := sqrt (Rmax 0 (1 - rz wi * rz wi)) in
  let so := sqrt (Rmax 0 (1 - rz wo * rz wo)) in
  if Rlt_dec 0 si then
    if Rlt_dec 0 so then
      let cosphiin := clamp (rx wi / si) (-1) 1 in
      let cosphiout := clamp (rx wo / so) (-1) 1 in
      let sinphiin := Rmax 0 (sqrt (1 - cosphiin * cosphiin)) in
      let sinphiout := Rmax 0 (sqrt (1 - cosphiout * cosphiout)) in
      let maxcos := Rmax 0 (cosphiin * cosphiout + sinphiin * sinphiout) in
      let sinalpha := if Rlt_dec co ci then so else si in
      let tanbeta := if Rlt_dec co ci then si / ci else so / co in
      / PI * (A + B * maxcos * sinalpha * tanbeta)
    else / PI * A
  else / PI * A.
