(* Distances in single precision. *)
From Coq Require Import ZArith.
From Flocq Require Import IEEE754.BinarySingleNaN.
From Verif Require Import Common FltModel FRayModel.

(* point3.cpp:35-42, vec3.cpp:112-119 *)
Definition f_distance (a p : fvec) : f32 :=
  let d := fv_sub p a in fsqrt (fadd (fadd (fmul (fx d) (fx d)) (fmul (fy d) (fy d))) (fmul (fz d) (fz d))).
