(* Masking of the Blinn and Beckmann distributions and rough reflection in single precision. *)
From Coq Require Import ZArith Bool.
From Flocq Require Import IEEE754.BinarySingleNaN.
From Verif Require Import Common FltModel FRayModel FTexModel FGgxModel.

(* microfacet_distributions.cpp:42-45 and 99-102, the literals rounded to float by the compiler *)
Definition f_g1_ratio (c : f32) : f32 :=
  if fle (fnum 13421773 (-23)) c then fone
  else
    fdiv (fadd (fmul (fnum 14826865 (-22)) c) (fmul (fmul (fnum 9147777 (-22)) c) c))
         (fadd (fadd fone (fmul (fnum 9546236 (-22)) c)) (fmul (fmul (fnum 10808721 (-22)) c) c)).

(* microfacet_distributions.cpp:70-73 *)
Definition f_beckmann (roughness : f32) : f32 := f_clamp roughness fzero fone.
(* microfacet_distributions.cpp:91-103; [z] is the third coordinate of v *)
Definition f_beckmann_g1 (a z : f32) : f32 :=
  let cos := fabs z in
  if Beqb cos fzero then fzero
  else if fle fone cos then fone
  else f_g1_ratio (fdiv cos (fmul (fsqrt (fmax fzero (fsub fone (fmul cos cos)))) a)).
(* microfacet_distributions.cpp:86-89 *)
Definition f_beckmann_g (a zo zi : f32) : f32 := fmul (f_beckmann_g1 a zo) (f_beckmann_g1 a zi).

(* microfacet_distributions.cpp:11-14 *)
Definition f_blinn (exponent : f32) : f32 := f_clamp exponent fzero (of_Z 100000).
(* microfacet_distributions.cpp:28-46 *)
Definition f_blinn_g1 (e z : f32) : f32 :=
  let cos := fabs z in
  if Beqb cos fzero then fzero
  else if fle fone cos then fone
  else
    let sin := fsqrt (fsub fone (fmul cos cos)) in
    f_g1_ratio (fdiv (fsqrt (fadd (fmul (fnum 1 (-1)) e) fone)) (fdiv sin cos)).
(* microfacet_distributions.cpp:23-26 *)
Definition f_blinn_g (e zo zi : f32) : f32 := fmul (f_blinn_g1 e zo) (f_blinn_g1 e zi).

(* microfacet.cpp:21-36, one entry of the spectrum. [eval] is what the Fresnel object computes for that
   entry, [D] and [G] what the distribution computes for the third coordinates of its arguments: all
   of them but the anisotropic one read no other coordinate *)
Definition f_rough_value (eval D : f32 -> f32) (G : f32 -> f32 -> f32) (wo wi : fvec) : f32 :=
  if flt (fmul (fz wo) (fz wi)) fzero then fzero
  else
    let costwo := fabs (fz wo) in
    let costwi := fabs (fz wi) in
    let wh := mk_fvec (fadd (fx wo) (fx wi)) (fadd (fy wo) (fy wi)) (fadd (fz wo) (fz wi)) in
    if Beqb costwo fzero || Beqb costwi fzero || (Beqb (fx wh) fzero && Beqb (fy wh) fzero && Beqb (fz wh) fzero) then fzero
    else
      let wh := f_normalize wh in
      let inv := fmul (fmul (of_Z 4) costwo) costwi in
      fdiv (fmul (fmul (eval (fv_dot wi wh)) (D (fz wh))) (G (fz wo) (fz wi))) inv.
