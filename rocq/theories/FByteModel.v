(* Colours made of bytes in single precision. *)
From Coq Require Import ZArith.
From Flocq Require Import IEEE754.BinarySingleNaN.
From Verif Require Import Common FltModel PixelModel.
Local Open Scope Z_scope.

(* color.cpp:219 and 227: 1.f/255.f *)
Definition f_inv255 : f32 := fdiv fone (of_Z 255).
(* color.cpp:217-231: a channel; the byte is promoted to int and converted to float *)
Definition f_channel (b : Z) : f32 := fmul (of_Z b) f_inv255.

(* color.cpp:225-231: red, green and blue of a pixel *)
Definition f_of_pixel (p : N) : f32 * f32 * f32 :=
  (f_channel (Z.of_N (px_red p)), f_channel (Z.of_N (px_green p)), f_channel (Z.of_N (px_blue p))).
(* image_film.cpp:167-176 *)
Definition f_to_pixel (c : f32 * f32 * f32) : res N :=
  let '(r, g, b) := c in
  let! r := f_byte r in let! g := f_byte g in let! b := f_byte b in
  Ok (px_make (Z.to_N r) (Z.to_N g) (Z.to_N b)).
