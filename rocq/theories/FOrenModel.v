(* The Oren-Nayar reflection in single precision; one entry of the spectrum. *)
From Coq Require Import ZArith.
From Flocq Require Import IEEE754.BinarySingleNaN.
From Verif Require Import Common FltModel FRayModel FTexModel FGgxModel.

(* validator.h:35; oren_nayar.cpp:8-14 and lambertian.cpp:8-14 multiply 1.f by it *)
Definition f_inv_pi : f32 := fnum 10680707 (-25).
Definition f_diffuse : f32 := fmul fone f_inv_pi.

(* oren_nayar.cpp:16-22; the literals are the floats nearest to 0.33, 0.45 and 0.09 *)
Definition f_oren_a (sigma : f32) : f32 :=
  let sigma2 := fmul sigma sigma in fsub fone (fdiv sigma2 (fmul (of_Z 2) (fadd sigma2 (fnum 11072963 (-25))))).
Definition f_oren_b (sigma : f32) : f32 :=
  let sigma2 := fmul sigma sigma in fdiv (fmul (fnum 15099494 (-25)) sigma2) (fadd sigma2 (fnum 12079596 (-27))).

(* oren_nayar.cpp:30-31 *)
Definition f_sin_theta (cos : f32) : f32 := fsqrt (fmax fzero (fsub fone (fmul cos cos))).

(* oren_nayar.cpp:38-41 *)
Definition f_cos_phi (x sin : f32) : f32 := f_clamp (fdiv x sin) (of_Z (-1)) fone.
Definition f_sin_phi (c : f32) : f32 := fmax fzero (fsqrt (fsub fone (fmul c c))).

(* oren_nayar.cpp:24-61; the second coordinate of the directions is not read *)
Definition f_oren_value (a b : f32) (wout wincident : fvec) : f32 :=
  let costhetain := fz wincident in
  let costhetaout := fz wout in
  let abscosthetain := fabs costhetain in
  let abscosthetaout := fabs costhetaout in
  let sinthetain := f_sin_theta costhetain in
  let sinthetaout := f_sin_theta costhetaout in
  if andb (fgt sinthetain fzero) (fgt sinthetaout fzero) then
    let cosphiin := f_cos_phi (fx wincident) sinthetain in
    let cosphiout := f_cos_phi (fx wout) sinthetaout in
    let sinphiin := f_sin_phi cosphiin in
    let sinphiout := f_sin_phi cosphiout in
    let maxcos := fmax fzero (fadd (fmul cosphiin cosphiout) (fmul sinphiin sinphiout)) in
    let swap := fgt abscosthetain abscosthetaout in
    let sinalpha := if swap then sinthetaout else sinthetain in
    let tanbeta := if swap then fdiv sinthetain abscosthetain else fdiv sinthetaout abscosthetaout in
    fmul f_diffuse (fadd a (fmul (fmul (fmul b maxcos) sinalpha) tanbeta))
  else fmul f_diffuse a.
