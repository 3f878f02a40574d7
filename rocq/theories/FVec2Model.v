(* Two dimensional vectors in single precision. *)
From Coq Require Import ZArith Bool.
From Flocq Require Import IEEE754.BinarySingleNaN.
From Verif Require Import Common FltModel FVecEqModel.

(* vec2.hpp:36-53: the coordinates as a pair *)
Definition fvec2 : Type := (f32 * f32)%type.

(* vec2.cpp:60-63 and 65-68, vec2.hpp:287-302 *)
Definition f2_length2 (v : fvec2) : f32 := fadd (fmul (fst v) (fst v)) (fmul (snd v) (snd v)).
Definition f2_length (v : fvec2) : f32 := fsqrt (f2_length2 v).

(* vec2.cpp:71-84, vec2.hpp:312-324; without the check of the debug build *)
Definition f2_normalize (v : fvec2) : fvec2 :=
  let inverse := fdiv fone (f2_length v) in (fmul (fst v) inverse, fmul (snd v) inverse).

(* vec2.cpp:86-90: a different tolerance, on the length, than vec3.cpp:158-163 *)
Definition f2_is_normalized (v : fvec2) : bool :=
  let len := f2_length v in fgt len (fsub fone f_flt_epsilon) && flt len (fadd fone f_flt_epsilon).
