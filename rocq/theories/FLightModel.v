(* The density of the directions towards a light in single precision. *)
From Coq Require Import ZArith.
From Flocq Require Import IEEE754.BinarySingleNaN.
From Verif Require Import Common FltModel FRayModel FTexModel.

(* vec3.hpp: the operator that changes the sign of a vector *)
Definition fv_neg (v : fvec) : fvec := mk_fvec (fneg (fx v)) (fneg (fy v)) (fneg (fz v)).

(* area_light.cpp:93-96 and 129-132: the density of direction [wi] at [o], when the light is hit at
   [p] where its normal is [n] *)
Definition f_light_density (o p n wi : fvec) (area : f32) : f32 :=
  let square u v := fmul (fsub u v) (fsub u v) in
  fdiv (fadd (fadd (square (fx o) (fx p)) (square (fy o) (fy p))) (square (fz o) (fz p)))
       (fmul (fabs (fv_dot n (fv_neg wi))) area).

(* area_light.cpp:97-111: the density of a sampled direction and whether the light emits there *)
Definition f_light_sampled (o p n wi : fvec) (area : f32) : f32 * bool :=
  let pdf := f_light_density o p n wi area in
  match pdf with
  | B754_infinity _ => (fzero, false)
  | _ => (pdf, fgt (fv_dot n (fv_neg wi)) fzero)
  end.
