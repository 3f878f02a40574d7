(* Clamping in single precision. *)
From Coq Require Import ZArith.
From Flocq Require Import IEEE754.BinarySingleNaN.
From Verif Require Import Common FltModel FGgxModel.

(* vec3.cpp:180-196 and 648-658, vec3.hpp:1001-1014 and 1048-1061, each coordinate like utility.hpp:172-180;
   vec2.cpp:106-113 is the case of two coordinates *)
Definition f_clamp_vec (v lo hi : fvec) : fvec :=
  mk_fvec (f_clamp (fx v) (fx lo) (fx hi)) (f_clamp (fy v) (fy lo) (fy hi)) (f_clamp (fz v) (fz lo) (fz hi)).

(* vec3.cpp:198-208 and 660-670, vec3.hpp:1022-1035 and 1069-1082 *)
Definition f_saturate (v : fvec) : fvec := f_clamp_vec v (mk_fvec fzero fzero fzero) (mk_fvec fone fone fone).

(* config_driver.cpp:251-254 and 673-675: a coordinate of a colour of the scene file as a byte; the
   conversion to unsigned char cuts off the fraction and is undefined when the result does not fit *)
Definition f_colour_byte (x : f32) : res Z := to_range 0 255 (f_clamp x fzero (of_Z 255)).
