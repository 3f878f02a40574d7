(* Directions and values sampled by smooth glass and smooth metals in single precision, one
   entry of the spectrum, and the choice of a layer. Vectors are in shading space: the normal
   is the third axis. *)
From Coq Require Import ZArith.
From Flocq Require Import IEEE754.BinarySingleNaN.
From Verif Require Import Common FltModel FRayModel FTexModel FFresModel.

(* what sample_value leaves: the direction (None: wi is not written), the density, the value *)
Record f_bounce := mk_fbounce { fb_wi : option fvec; fb_pdf : f32; fb_value : f32 }.

(* refraction.cpp:30-89 Refraction::sample_value; [ei] and [et] in the order of the light,
   [outside] is wo->z>0 *)
Definition f_refract_from (outside : bool) (ei et : f32) (wo : fvec) : f_bounce :=
  let abscosincident := if outside then fz wo else fabs (fz wo) in
  let sinincident2 := fsub fone (fmul (fz wo) (fz wo)) in
  let eta := fdiv ei et in
  let sintransmitted2 := fmul (fmul eta eta) sinincident2 in
  if fle fone sintransmitted2 then mk_fbounce None fzero fzero
  else
    let costhetat := fsqrt (fsub fone sintransmitted2) in
    let wi := mk_fvec (fmul eta (fneg (fx wo))) (fmul eta (fneg (fy wo)))
                (if outside then fneg costhetat else costhetat) in
    let eval := fsub fone (f_fresnel_terms ei et abscosincident costhetat) in
    let eval := fmul eval (fdiv (fmul ei ei) (fmul et et)) in
    mk_fbounce (Some wi) fone (fdiv eval (fabs (fz wi))).

Definition f_refract (eta_i eta_t : f32) (wo : fvec) : f_bounce :=
  if fgt (fz wo) fzero then f_refract_from true eta_i eta_t wo else f_refract_from false eta_t eta_i wo.

(* reflection.cpp:53-55 and 70-72 *)
Definition f_mirrored (wo : fvec) : fvec := mk_fvec (fneg (fx wo)) (fneg (fy wo)) (fz wo).

(* reflection.cpp:46-65 ConductorReflection::sample_value *)
Definition f_metal_mirror (n k : f32) (wo : fvec) : f_bounce :=
  mk_fbounce (Some (f_mirrored wo)) fone (fdiv (f_conductor n k (fz wo)) (fabs (fz wo))).

(* reflection.cpp:67-106 DielectricReflection::sample_value *)
Definition f_glass_mirror (eta_i eta_t : f32) (wo : fvec) : f_bounce :=
  let exiting := fle (fz wo) fzero in
  let ei := if exiting then eta_t else eta_i in
  let et := if exiting then eta_i else eta_t in
  let abscosthetai := if exiting then fabs (fz wo) else fz wo in
  let sinthetat := f_snell ei et abscosthetai in
  let eval :=
    if fgt sinthetat fone then fone
    else fdiv (f_fresnel_terms ei et abscosthetai (fsqrt (fmax fzero (fsub fone (fmul sinthetat sinthetat))))) (fabs (fz wo)) in
  mk_fbounce (Some (f_mirrored wo)) fone eval.

(* path_tracer.cpp:62: the factor of the power of a path, f*adot/pdf*rrprob *)
Definition f_power_factor (value adot pdf rrprob : f32) : f32 := fmul (fdiv (fmul value adot) pdf) rrprob.

(* multi_bsdf.cpp:83-85: the chosen layer of [matchcount] ones *)
Definition f_layer (r0 : f32) (matchcount : Z) : res Z :=
  let! chosen := to_int (fmul r0 (of_Z matchcount)) in
  Ok (if (chosen =? matchcount)%Z then (chosen - 1)%Z else chosen).
