(* The directions of rough reflections and refractions in single precision. *)
From Coq Require Import ZArith.
From Flocq Require Import IEEE754.BinarySingleNaN.
From Verif Require Import Common FltModel FRayModel FLightModel.
Local Open Scope Z_scope.

(* vec3.hpp:1156-1167, vec3.cpp:256-266: 2*dot converts the integer *)
Definition f_reflect (source centre : fvec) : fvec :=
  let dot := fv_dot source centre in
  let part s c := fsub s (fmul (fmul (of_Z 2) dot) c) in
  mk_fvec (part (fx source) (fx centre)) (part (fy source) (fy centre)) (part (fz source) (fz centre)).

(* microfacet.cpp:41-43 MicrofacetR::sample_value: the direction for the half vector [wh] the distribution returns *)
Definition f_rough_wi (wo wh : fvec) : fvec := f_normalize (fv_neg (f_reflect wo (f_normalize wh))).

(* vec3.hpp:1210-1231, vec3.cpp:280-300: the direction for an interface and a ratio of indices; the zero
   vector when nothing is transmitted (the member functions return false there and leave the vector alone) *)
Definition f_refracted (source interface : fvec) (eta : f32) : fvec :=
  let cosi := fv_dot source interface in
  let sin2i := fmax fzero (fsub fone (fmul cosi cosi)) in
  let sin2t := fmul (fmul sin2i eta) eta in
  if fgt sin2t fone then mk_fvec fzero fzero fzero
  else
    let cost := fsqrt (fsub fone sin2t) in
    let k := fsub (fmul cosi eta) cost in
    let part s i := fadd (fmul (fneg s) eta) (fmul i k) in
    mk_fvec (part (fx source) (fx interface)) (part (fy source) (fy interface)) (part (fz source) (fz interface)).
