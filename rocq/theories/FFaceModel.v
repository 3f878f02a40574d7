(* Points sampled on a triangle in single precision. *)
From Coq Require Import ZArith.
From Flocq Require Import IEEE754.BinarySingleNaN.
From Verif Require Import Common FltModel FRayModel.

(* triangle.cpp:127-131: the weights of the three vertices *)
Definition f_face_weights (r0 r1 : f32) : f32 * f32 * f32 :=
  let r0 := fmax fzero r0 in
  let sq := fsqrt r0 in
  let u := fsub fone sq in
  let v := fmul r1 sq in
  let w := fsub (fsub fone u) v in
  (u, v, w).

(* triangle.cpp:124-139: the point and the normal; the array of densities is not used *)
Definition f_face_sample (a b c : fvec) (r0 r1 : f32) : fvec * fvec :=
  let '(u, v, w) := f_face_weights r0 r1 in
  let mix x y z := fadd (fadd (fmul u x) (fmul v y)) (fmul w z) in
  (mk_fvec (mix (fx a) (fx b) (fx c)) (mix (fy a) (fy b) (fy c)) (mix (fz a) (fz b) (fz c)),
   f_normalize (fv_cross (fv_sub b a) (fv_sub c a))).
