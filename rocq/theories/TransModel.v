(* src/materials/microfacet.cpp:68-120 over the real numbers: the value of a rough
   transmission.  Its sampling is in MicroModel. *)
From Coq Require Import Reals Lra.
From Verif Require Import RVecModel SpecularModel MicroModel MatModel.
Local Open Scope R_scope.

(* microfacet.cpp:82-121 MicrofacetT::value, one entry; eta_i and eta_t are the means kept
   by the constructor (68-75), the Fresnel term is the one of Dielectric *)
Definition trans_value (d : dist) (eta_i eta_t : R) (wo wi : rv) : R :=
  if Rlt_dec 0 (rz wo * rz wi) then 0
  else
    let costwo := rz wo in
    let costwi := rz wi in
    if Req_EM_T costwo 0 then 0
    else if Req_EM_T costwi 0 then 0
    else
      let etao := if Rlt_dec 0 costwo then eta_i else eta_t in
      let etai := if Rlt_dec 0 costwo then eta_t else eta_i in
      let wh := rsub (rscale etao (rneg wo)) (rscale etai wi) in
      if is_zero wh then 0
      else
        let wh := rnormalize wh in
        let wh := if Rlt_dec (rz wh) 0 then rneg wh else wh in
        let dotwoh := rdot wo wh in
        let dotwih := rdot wi wh in
        let up := etao * etao * d_D d wh * d_G d wo wi * dotwoh * dotwih in
        if flt_equal up 0 then 0
        else
          let denom := etao * dotwoh + etai * dotwih in
          let denom := denom * denom in
          let denom := denom * (costwo * costwi) in
          (1 - dielectric_eval eta_i eta_t dotwih) * Rabs (up / denom).
