(* Sampling a diffuse surface in single precision. *)
From Coq Require Import ZArith.
From Flocq Require Import IEEE754.BinarySingleNaN.
From Verif Require Import Common FltModel FRayModel FTexModel FSpecModel FOrenModel FShadeModel.

(* bdf.cpp:17-27: the sampled direction. [c] and [s] are what cosf and sinf return for the angle *)
Definition f_diffuse_dir (wo : fvec) (r1 c s : f32) : fvec :=
  let r := fsqrt r1 in
  let x := fmul r c in
  let y := fmul r s in
  let z := fsqrt (fmax fzero (fsub (fsub fone (fmul x x)) (fmul y y))) in
  mk_fvec x y (if flt (fz wo) fzero then fmul z (of_Z (-1)) else z).
(* bdf.cpp:28: the density that comes with it *)
Definition f_diffuse_density (wi : fvec) : f32 := fmul (fabs (fz wi)) f_inv_pi.
(* bdf.cpp:32-36 *)
Definition f_diffuse_pdf (wo wi : fvec) : f32 := if fgt (fmul (fz wo) (fz wi)) fzero then fmul (fabs (fz wi)) f_inv_pi else fzero.

(* single_brdf.cpp:71-74 with lambertian.cpp:21-25, for one entry [k] of the diffuse texture: the
   direction in the world, the value and the density. [wo] is the other direction in the shading
   frame, what to_shading returned in line 68 *)
Definition f_lambert_sample (tangent n wo : fvec) (r1 c s k : f32) : fvec * f32 * f32 :=
  let t := f_frame_t tangent n in
  let wi_shading := f_diffuse_dir wo r1 c s in
  let pdf := f_diffuse_density wi_shading in
  (f_to_world tangent t n (f_normalize wi_shading), fmul f_diffuse k, pdf).

(* path_tracer.cpp:56-62 without roulette: the factor of the power of the path *)
Definition f_lambert_power (tangent n wo : fvec) (r1 c s k : f32) : f32 :=
  let '(wi, f, pdf) := f_lambert_sample tangent n wo r1 c s k in
  f_power_factor f (fabs (fv_dot wi n)) pdf fone.
