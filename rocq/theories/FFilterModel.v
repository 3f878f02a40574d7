(* Weights of the tent and of the Mitchell filter in single precision. The other filters use expf
   and sinf, which the C standard does not fix. *)
From Coq Require Import ZArith.
From Flocq Require Import IEEE754.BinarySingleNaN.
From Verif Require Import Common FltModel FRayModel FTexModel.

(* filter_tent.cpp:14-18 *)
Definition f_tent (x y : f32) : f32 :=
  fdiv (fmul (fdiv (fmax fzero (fsub (of_Z 2) (fabs x))) (of_Z 2)) (fmax fzero (fsub (of_Z 2) (fabs y)))) (of_Z 2).

(* filter_mitchell.cpp:21-55, one axis: the code is repeated for y *)
Definition f_mitchell_axis (b c offset : f32) : f32 :=
  let x := fabs (fmul (fmul offset (fdiv fone (of_Z 2))) (of_Z 2)) in
  let denominator := fdiv fone (of_Z 6) in
  if fgt x fone then
    let res := fmul (fmul (fmul (fsub (fneg b) (fmul (of_Z 6) c)) x) x) x in
    let res := fadd res (fmul (fmul (fadd (fmul (of_Z 6) b) (fmul (of_Z 30) c)) x) x) in
    let res := fadd res (fmul (fsub (fmul (of_Z (-12)) b) (fmul (of_Z 48) c)) x) in
    let res := fadd res (fadd (fmul (of_Z 8) b) (fmul (of_Z 24) c)) in
    fmul res denominator
  else
    let res := fmul (fmul (fmul (fsub (fsub (of_Z 12) (fmul (of_Z 9) b)) (fmul (of_Z 6) c)) x) x) x in
    let res := fadd res (fmul (fmul (fadd (fadd (of_Z (-18)) (fmul (of_Z 12) b)) (fmul (of_Z 6) c)) x) x) in
    let res := fadd res (fsub (of_Z 6) (fmul (of_Z 2) b)) in
    fmul res denominator.
Definition f_mitchell (b c x y : f32) : f32 := fmul (f_mitchell_axis b c x) (f_mitchell_axis b c y).

(* image_film.cpp:69: the offset of pixel [x] from the centre of the sample *)
Definition f_offset (x : Z) (pos : f32) : f32 := fsub (of_Z x) (fsub pos (fnum 1 (-1))).
