(* src/materials/fresnel_conditions.cpp, reflection.cpp and refraction.cpp over the
   real numbers.  A Spectrum is an array of floats treated alike: the conductor is
   modelled for one of its entries; a dielectric keeps one number per index and answers
   the same float for every entry. *)
From Coq Require Import Reals Lra.
From Verif Require Import RVecModel.
Local Open Scope R_scope.

(* fresnel_conditions.cpp:12-29 Conductor::eval, one entry *)
Definition conductor_eval (eta k cosin : R) : R :=
  let tmp := eta * eta + k * k in
  let cosinsq := cosin * cosin in
  let etacosin2 := eta * (cosin * 2) in
  let rperpsq := (tmp - etacosin2 + cosinsq) / (tmp + etacosin2 + cosinsq) in
  let tmp2 := tmp * cosinsq in
  let rparsq := (tmp2 - etacosin2 + 1) / (tmp2 + etacosin2 + 1) in
  (rperpsq + rparsq) / 2.

(* the squared sums shared by fresnel_conditions.cpp:71-79, reflection.cpp:94-102 and
   refraction.cpp:77-83 *)
Definition dielectric_terms (ei et cosi cost : R) : R :=
  let rperp := (ei * cosi - et * cost) / (ei * cosi + et * cost) in
  let rpar := (et * cosi - ei * cost) / (et * cosi + ei * cost) in
  (rpar * rpar + rperp * rperp) / 2.

(* fresnel_conditions.cpp:49-82 Dielectric::eval *)
Definition dielectric_eval (eta_i eta_t cosin : R) : R :=
  let ex := Rlt_dec cosin 0 in
  let ei := if ex then eta_t else eta_i in
  let et := if ex then eta_i else eta_t in
  let c := if ex then - cosin else cosin in
  let sinthetat := ei / et * sqrt (Rmax 0 (1 - c * c)) in
  if Rle_dec 1 sinthetat then 1
  else dielectric_terms ei et c (sqrt (Rmax 0 (1 - sinthetat * sinthetat))).

(* what sample_value of a layer produces: the value, the incident direction (None when
   it is not written) and the probability density *)
Record sampled := mk_sampled { sm_value : R; sm_wi : option rv; sm_pdf : R }.

(* reflection.cpp:46-65 ConductorReflection::sample_value, one entry;
   fresnel = ior^2 + absorption^2 (21-25) *)
Definition conductor_sample (ior absorption : R) (wo : rv) : sampled :=
  let fresnel := ior * ior + absorption * absorption in
  let cosinsq := rz wo * rz wo in
  let etacosin2 := ior * (rz wo * 2) in
  let rperpsq := (fresnel - etacosin2 + cosinsq) / (fresnel + etacosin2 + cosinsq) in
  let tmp := fresnel * cosinsq in
  let rparsq := (tmp - etacosin2 + 1) / (tmp + etacosin2 + 1) in
  mk_sampled ((rperpsq + rparsq) / 2 / Rabs (rz wo)) (Some (RV (- rx wo) (- ry wo) (rz wo))) 1.

(* reflection.cpp:67-106 DielectricReflection::sample_value *)
Definition dielectric_sample (eta_i eta_t : R) (wo : rv) : sampled :=
  let ex := Rle_dec (rz wo) 0 in
  let ei := if ex then eta_t else eta_i in
  let et := if ex then eta_i else eta_t in
  let c := if ex then Rabs (rz wo) else rz wo in
  let sinthetat := ei / et * sqrt (Rmax 0 (1 - c * c)) in
  let eval :=
    if Rlt_dec 1 sinthetat then 1
    else dielectric_terms ei et c (sqrt (Rmax 0 (1 - sinthetat * sinthetat))) / Rabs (rz wo) in
  mk_sampled eval (Some (RV (- rx wo) (- ry wo) (rz wo))) 1.

(* refraction.cpp:30-89 Refraction::sample_value *)
Definition refraction_sample (eta_i eta_t : R) (wo : rv) : sampled :=
  let out := Rlt_dec 0 (rz wo) in
  let ei := if out then eta_i else eta_t in
  let et := if out then eta_t else eta_i in
  let c := if out then rz wo else Rabs (rz wo) in
  let eta := ei / et in
  let sin2t := eta * eta * (1 - rz wo * rz wo) in
  if Rle_dec 1 sin2t then mk_sampled 0 None 0
  else
    let cost := sqrt (1 - sin2t) in
    let wz := if out then - cost else cost in
    mk_sampled ((1 - dielectric_terms ei et c cost) * (ei * ei / (et * et)) / Rabs wz)
               (Some (RV (eta * - rx wo) (eta * - ry wo) wz)) 1.
