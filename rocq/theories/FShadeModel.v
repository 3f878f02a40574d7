(* The shading frame in single precision. *)
From Coq Require Import ZArith.
From Flocq Require Import IEEE754.BinarySingleNaN.
From Verif Require Import Common FltModel FRayModel.

(* shading_space.cpp:6-10: the third axis of the frame made of the tangent [s] and the normal [n] *)
Definition f_frame_t (s n : fvec) : fvec := f_normalize (fv_cross n s).

(* shading_space.cpp:12-17 *)
Definition f_to_world (s t n v : fvec) : fvec :=
  let row a b c := fadd (fadd (fmul a (fx v)) (fmul b (fy v))) (fmul c (fz v)) in
  f_normalize (mk_fvec (row (fx s) (fx t) (fx n)) (row (fy s) (fy t) (fy n)) (row (fz s) (fz t) (fz n))).

(* shading_space.cpp:19-22 *)
Definition f_to_shading (s t n w : fvec) : fvec := f_normalize (mk_fvec (fv_dot w s) (fv_dot w t) (fv_dot w n)).
