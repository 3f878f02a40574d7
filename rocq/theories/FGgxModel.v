(* The isotropic GGX distribution in single precision. *)
From Coq Require Import ZArith.
From Flocq Require Import IEEE754.BinarySingleNaN.
From Verif Require Import Common FltModel FRayModel FTexModel.

(* utility.hpp:172-180 *)
Definition f_clamp (v lo hi : f32) : f32 := if flt v lo then lo else if fgt v hi then hi else v.

(* validator.h:33: the float nearest to pi *)
Definition f_pi : f32 := fnum 13176795 (-22).

(* microfacet_distributions.cpp:120-124 *)
Definition f_ggx (roughness : f32) : f32 := let r := f_clamp roughness fzero fone in fmul r r.

(* microfacet_distributions.cpp:126-135; [z] is the third coordinate of h *)
Definition f_ggx_d (a2 z : f32) : f32 :=
  if Beqb z fzero then fzero
  else
    let cos2t := fmul z z in
    let sin2t := fmax fzero (fsub fone cos2t) in
    let sqr_term := fadd a2 (fdiv sin2t cos2t) in
    let sqr_term := fmul sqr_term sqr_term in
    fdiv a2 (fmul (fmul (fmul sqr_term cos2t) cos2t) f_pi).

(* microfacet_distributions.cpp:142-150 *)
Definition f_ggx_g1 (a2 z : f32) : f32 :=
  let cos2 := fmul z z in
  if Beqb cos2 fzero then fzero
  else
    let sin2 := fmax fzero (fsub fone (fmul cos2 cos2)) in
    fdiv (of_Z 2) (fadd fone (fsqrt (fadd fone (fdiv (fmul a2 sin2) cos2)))).

(* microfacet_distributions.cpp:137-140 *)
Definition f_ggx_g (a2 zo zi : f32) : f32 := fmul (f_ggx_g1 a2 zo) (f_ggx_g1 a2 zi).
