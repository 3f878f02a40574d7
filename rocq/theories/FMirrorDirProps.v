(* The direction of mirrors in single precision. *)
From Coq Require Import ZArith Reals List Lra Lia Bool.
From Flocq Require Import Core.Core IEEE754.BinarySingleNaN.
From Verif Require Import Common FltModel FltFacts FRayModel FSphereProps FSpecModel FltVecProps.
Local Open Scope R_scope.

(* w is the mirror image of wo about the normal (0, 0, 1): wo + w is 2 (wo.n) n *)
Definition mirror_image (wo w : fvec) : Prop :=
  vfin w /\ val (fx wo) + val (fx w) = 0 /\ val (fy wo) + val (fy w) = 0 /\ val (fz wo) + val (fz w) = 2 * val (fz wo).

(* Both perfect mirrors return the exact mirror image of the direction, with density 1: no rounding, so
   the length is kept, and the image of the image is the direction itself, bit by bit. *)
Theorem float_mirror_direction : forall wo a b, vfin wo ->
  exists w, fb_wi (f_metal_mirror a b wo) = Some w /\ fb_wi (f_glass_mirror a b wo) = Some w /\
    fb_pdf (f_metal_mirror a b wo) = fone /\ fb_pdf (f_glass_mirror a b wo) = fone /\
    mirror_image wo w /\ length2 w = length2 wo /\ fb_wi (f_metal_mirror a b w) = Some wo /\ fb_wi (f_glass_mirror a b w) = Some wo.
Proof.
  intros [x y z] a b (FX & FY & FZ). cbn [fx fy fz] in *. exists (mk_fvec (fneg x) (fneg y) z).
  split; [reflexivity|]. split; [reflexivity|]. split; [reflexivity|]. split; [reflexivity|].
  destruct (neg_val x FX) as (GX & VX). destruct (neg_val y FY) as (GY & VY).
  split; [split; [split; [exact GX|split; [exact GY|exact FZ]]|cbn [fx fy fz]; rewrite VX, VY; repeat split; ring]|].
  split; [unfold length2; cbn [fx fy fz]; rewrite VX, VY; ring|].
  assert (N : forall u : f32, fneg (fneg u) = u) by (intro u; unfold fneg; apply Bopp_involutive).
  unfold f_metal_mirror, f_glass_mirror, f_mirrored. cbv zeta. cbn [fb_wi fx fy fz]. rewrite !N. split; reflexivity.
Qed.
Print Assumptions float_mirror_direction.

Example mirror_direction_case : vfin (mk_fvec (fnum 3 (-3)) (fnum (-1) (-2)) (fnum 7 (-3))).
Proof. repeat split; vm_compute; reflexivity. Qed.
