(* Interpolation and the point of a mesh that is sampled, in single precision. *)
From Coq Require Import ZArith List.
From Flocq Require Import IEEE754.BinarySingleNaN.
From Verif Require Import Common FltModel FRayModel.
Local Open Scope Z_scope.

(* utility.hpp:192-195 *)
Definition f_lerp (value mi ma : f32) : f32 := fadd (fmul (fsub fone value) mi) (fmul value ma).
(* utility.hpp:208-211 *)
Definition f_inverse_lerp (value mi ma : f32) : f32 := fdiv (fsub value mi) (fsub ma mi).

(* mesh.cpp:170-217: the index of the face and the number that its sample_point receives *)
Definition f_sample01 (fuel : nat) (d : list f32) (r0 : f32) : res (Z * f32) :=
  let end_ := Z.of_nat (length d) - 1 in
  let! total := f_get d end_ in
  let x := f_lerp r0 fzero total in
  let! d0 := f_get d 0 in
  if flt x d0 then Ok (0, f_inverse_lerp x fzero d0)
  else
    let! dl := f_get d (end_ - 1) in
    if fgt x dl then Ok (end_, f_inverse_lerp (fsub x dl) fzero (fsub total dl))
    else
      let! mid := f_search fuel d x 0 end_ in
      let! dm := f_get d mid in
      let! dn := f_get d (mid + 1) in
      Ok (mid, f_inverse_lerp (fsub x dm) fzero (fsub dn dm)).
