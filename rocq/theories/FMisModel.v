(* The weights that combine samples of the light and of the material, in single precision. *)
From Coq Require Import ZArith.
From Flocq Require Import IEEE754.BinarySingleNaN.
From Verif Require Import Common FltModel FRayModel.

(* ray_tracer.cpp:43-44, 62: p is the density of the strategy that drew the sample, q the other *)
Definition f_weight (p q : f32) : f32 := fdiv (fmul p p) (fadd (fmul p p) (fmul q q)).

(* ray_tracer.cpp:40-46: what one channel receives from a sample of the light; [f] is the value of
   the material, [l] the light, [c] the cosine. Only called when bsdfpdf > 0 *)
Definition f_light_term (f l c lightpdf bsdfpdf : f32) : f32 :=
  fdiv (fmul (fmul (fmul f l) c) (f_weight lightpdf bsdfpdf)) lightpdf.

(* ray_tracer.cpp:62-71: from a sample of the material that hits the light *)
Definition f_bsdf_term (f l c bsdfpdf lightpdf : f32) : f32 :=
  fdiv (fmul (fmul (fmul f l) c) (f_weight bsdfpdf lightpdf)) bsdfpdf.

(* area_light.cpp:93-102: the density of a sampled point at the squared distance [d2]; a density that is
   infinite is replaced by 0, which drops the sample *)
Definition f_light_density (d2 cosine area : f32) : f32 :=
  let pdf := fdiv d2 (fmul cosine area) in
  match pdf with B754_infinity _ => fzero | _ => pdf end.
