(* Texture look ups in single precision: coordinates, the texels that are read and the mix of
   four texels, one channel. *)
From Coq Require Import ZArith.
From Flocq Require Import IEEE754.BinarySingleNaN.
From Verif Require Import Common FltModel FRayModel.
Local Open Scope Z_scope.

Definition fabs (x : f32) : f32 := Babs x.

(* texture_image.cpp:61-62, one coordinate *)
Definition f_texcoord (uv scale shift : f32) : f32 := fadd (fmul uv scale) shift.

(* texture_image.cpp:65-68, one coordinate *)
Definition f_repeat (u : f32) : res f32 :=
  if fgt u fone then let! n := to_int u in Ok (fsub u (of_Z n)) else Ok u.

(* image_map.cpp:209-210 (also 109-110): the position in texels *)
Definition f_texel_pos (side : Z) (u : f32) : f32 := fsub (fmul u (of_Z side)) (fnum 1 (-1)).

(* image_map.cpp:106-112, one coordinate: conversion to uint16_t *)
Definition f_unfiltered (side : Z) (u : f32) : res Z := to_range 0 65535 (f_texel_pos side u).

(* image_map.cpp:211-214: the first texel and the weight of the next one *)
Definition f_texel (side : Z) (u : f32) : res (Z * f32) :=
  let t := f_texel_pos side u in
  let! x := to_int t in
  Ok (x, fabs (fsub t (of_Z x))).

(* image_map.cpp:218-219 *)
Definition next_texel (side x : Z) : Z := if x + 1 <=? side - 1 then x + 1 else 0.

(* image_map.cpp:225-226 (and 227-232 for the other channels), before the conversion to uint8_t *)
Definition f_mix (t0 t1 t2 t3 : Z) (du dv : f32) : f32 :=
  let iu := fsub fone du in
  let iv := fsub fone dv in
  fadd (fmul (fadd (fmul (of_Z t0) iu) (fmul (of_Z t1) du)) iv)
       (fmul (fadd (fmul (of_Z t2) iu) (fmul (of_Z t3) du)) dv).

(* image_map.cpp:207-235 ImageMap::bilinear, one channel; [get] is MIPmap[level]->get *)
Definition f_bilinear (side : Z) (get : Z -> Z -> res Z) (u v : f32) : res Z :=
  let! px := f_texel side u in
  let! py := f_texel side v in
  let (x, du) := px in
  let (y, dv) := py in
  let nx := next_texel side x in
  let ny := next_texel side y in
  let! t0 := get x y in
  let! t1 := get nx y in
  let! t2 := get x ny in
  let! t3 := get nx ny in
  to_range 0 255 (f_mix t0 t1 t2 t3 du dv).
