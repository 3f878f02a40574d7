(* The fraction of light reflected by dielectrics and by metals in single precision, one entry
   of the spectrum. *)
From Coq Require Import ZArith.
From Flocq Require Import IEEE754.BinarySingleNaN.
From Verif Require Import Common FltModel FRayModel.

(* fresnel_conditions.cpp:71-79 (also reflection.cpp:94-102 and refraction.cpp:77-83) *)
Definition f_fresnel_terms (ei et cosi cost : f32) : f32 :=
  let etatcosi := fmul et cosi in
  let etaicosi := fmul ei cosi in
  let etatcost := fmul et cost in
  let etaicost := fmul ei cost in
  let rperp := fdiv (fsub etaicosi etatcost) (fadd etaicosi etatcost) in
  let rpar := fdiv (fsub etatcosi etaicost) (fadd etatcosi etaicost) in
  fdiv (fadd (fmul rpar rpar) (fmul rperp rperp)) (of_Z 2).

(* fresnel_conditions.cpp:66, the sine on the other side *)
Definition f_snell (ei et cosi : f32) : f32 :=
  fmul (fdiv ei et) (fsqrt (fmax fzero (fsub fone (fmul cosi cosi)))).

(* fresnel_conditions.cpp:66-80 for the two indices in the order of the light *)
Definition f_fresnel (ei et cosi : f32) : f32 :=
  let sint := f_snell ei et cosi in
  if fle fone sint then fone
  else f_fresnel_terms ei et cosi (fsqrt (fmax fzero (fsub fone (fmul sint sint)))).

(* fresnel_conditions.cpp:49-82 Dielectric::eval *)
Definition f_dielectric (eta_i eta_t cosin : f32) : f32 :=
  if flt cosin fzero then f_fresnel eta_t eta_i (fneg cosin) else f_fresnel eta_i eta_t cosin.

(* fresnel_conditions.cpp:12-30 Conductor::eval (also reflection.cpp:48-62) *)
Definition f_conductor (n k cosin : f32) : f32 :=
  let tmp := fadd (fmul n n) (fmul k k) in
  let cosinsq := fmul cosin cosin in
  let etacosin2 := fmul n (fmul cosin (of_Z 2)) in
  let rperpsq := fdiv (fadd (fsub tmp etacosin2) cosinsq) (fadd (fadd tmp etacosin2) cosinsq) in
  let tmp2 := fmul tmp cosinsq in
  let rparsq := fdiv (fadd (fsub tmp2 etacosin2) fone) (fadd (fadd tmp2 etacosin2) fone) in
  fdiv (fadd rperpsq rparsq) (of_Z 2).
