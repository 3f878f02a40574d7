(* Comparisons of vectors, points, normals and matrices in single precision. *)
From Coq Require Import ZArith List Bool.
From Flocq Require Import IEEE754.BinarySingleNaN.
From Verif Require Import Common FltModel FTexModel.

(* FLT_EPSILON of the C library *)
Definition f_flt_epsilon : f32 := fnum 1 (-23).

(* vec3.cpp:460-465, point3.cpp:105-115 without the message of the debug build; vec2.cpp:296-300 and
   point2.cpp:85-94 are the case of equal third components *)
Definition f_vec_eq (a b : fvec) : bool :=
  fle (fabs (fsub (fx a) (fx b))) f_flt_epsilon &&
  fle (fabs (fsub (fy a) (fy b))) f_flt_epsilon &&
  fle (fabs (fsub (fz a) (fz b))) f_flt_epsilon.

(* vec3.cpp:467-472, point3.cpp:117-127, vec2.cpp:302-306, point2.cpp:96-105 *)
Definition f_vec_ne (a b : fvec) : bool :=
  fgt (fabs (fsub (fx a) (fx b))) f_flt_epsilon ||
  fgt (fabs (fsub (fy a) (fy b))) f_flt_epsilon ||
  fgt (fabs (fsub (fz a) (fz b))) f_flt_epsilon.

(* vec3.cpp:854-857 and 859-862: operator== and != of Normal *)
Definition f_normal_eq (a b : fvec) : bool := Beqb (fx a) (fx b) && Beqb (fy a) (fy b) && Beqb (fz a) (fz b).
Definition f_normal_ne (a b : fvec) : bool := negb (Beqb (fx a) (fx b)) || negb (Beqb (fy a) (fy b)) || negb (Beqb (fz a) (fz b)).

(* vec3.cpp:158-163 and 627-631 *)
Definition f_is_normalized (v : fvec) : bool :=
  fgt (f_len2 v) (fsub fone f_epsilon) && flt (f_len2 v) (fadd fone f_epsilon).

(* utility.hpp:28, 222-225 *)
Definition f_flt_equal (a b : f32) : bool := fle (fabs (fsub a b)) f_epsilon.

(* matrix4.cpp:725-743 and 745-763; the sixteen entries row by row *)
Fixpoint f_mat_eq (a b : list f32) : bool :=
  match a, b with
  | x :: a', y :: b' => f_flt_equal x y && f_mat_eq a' b'
  | _, _ => true
  end.
Definition f_mat_ne (a b : list f32) : bool := negb (f_mat_eq a b).
