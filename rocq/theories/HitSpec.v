(* What derivatives and bumped frames mean. *)
From Coq Require Import Reals.
From Verif Require Import RVecModel HitModel.
Local Open Scope R_scope.

(* tangents of the surface at the hit *)
Definition tangent (h : hitp) : Prop := rdot (hp_n h) (hp_u h) = 0 /\ rdot (hp_n h) (hp_v h) = 0.

(* the ray reaches, at some parameter, the point q of the tangent plane *)
Definition reaches (r : dray) (h : hitp) (q : rv) : Prop :=
  rdot (hp_n h) (rsub q (hp_p h)) = 0 /\ exists t, q = radd (dr_o r) (rscale t (dr_d r)).

(* the hit point moved by du and dv along the tangents *)
Definition moved (h : hitp) (du dv : R) : rv :=
  radd (hp_p h) (radd (rscale du (hp_u h)) (rscale dv (hp_v h))).

(* axes at right angles whose squared lengths are within 1e-5 of one *)
Definition square_frame (m : shading) : Prop :=
  Rabs (rdot (sh_s m) (sh_s m) - 1) < / 100000 /\ Rabs (rdot (sh_t m) (sh_t m) - 1) < / 100000 /\
  Rabs (rdot (sh_n m) (sh_n m) - 1) < / 100000 /\
  rdot (sh_s m) (sh_n m) = 0 /\ rdot (sh_t m) (sh_n m) = 0 /\ rdot (sh_s m) (sh_t m) = 0.
