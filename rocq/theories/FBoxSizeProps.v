(* Surface, longest axis and center of a box in single precision. *)
From Coq Require Import ZArith Reals List Lra Lia Bool.
From Flocq Require Import Core.Core IEEE754.BinarySingleNaN.
From Verif Require Import Common FltModel FltFacts FltProps FRayModel FExtFacts FFilmProps FFresProps FltVecProps FMatBoundProps FGgxProps FMatModel FGrowModel.
Local Open Scope R_scope.

(* a box with finite bounds in order, all coordinates within [m] of 0 *)
Definition axis_ok (m : R) (a b : f32) : Prop := fin a /\ fin b /\ - m <= val a /\ val a <= val b /\ val b <= m.
Definition box_ok (m : R) (b : fbox) : Prop :=
  axis_ok m (fx (fb_lo b)) (fx (fb_hi b)) /\ axis_ok m (fy (fb_lo b)) (fy (fb_hi b)) /\ axis_ok m (fz (fb_lo b)) (fz (fb_hi b)).
(* the first box lies in the second *)
Definition box_in (b c : fbox) : Prop := forall k, val (fcoord k (fb_lo c)) <= val (fcoord k (fb_lo b)) /\ val (fcoord k (fb_hi b)) <= val (fcoord k (fb_hi c)).

Definition extent (b : fbox) (k : nat) : R := val (fcoord k (fb_hi b)) - val (fcoord k (fb_lo b)).
(* the formula of the surface with every operation rounded *)
Definition rsurf (x y z : R) : R := rnd (2 * rnd (rnd (rnd (rnd x * rnd y) + rnd (rnd x * rnd z)) + rnd (rnd y * rnd z))).

Lemma side_val : forall a b, axis_ok (bpow radix2 60) a b -> fin (fsub b a) /\ val (fsub b a) = rnd (val b - val a) /\ 0 <= rnd (val b - val a) <= bpow radix2 61.
Proof.
  intros a b (FA & FB & A & L & B). pose proof (bpow_plus radix2 60 1) as P. change (60 + 1)%Z with 61%Z in P. replace (bpow radix2 1) with 2 in P by (cbn; lra). assert (E : 0 <= val b - val a <= bpow radix2 61) by lra.
  destruct (fsub_val b a FB FA) as (F & V). { apply (small_127 _ 61); [lia|]. rewrite Rabs_pos_eq; lra. } split; [exact F|]. split; [exact V|].
  apply rnd_between; [apply fits_0|apply fits_bpow; lia|exact E].
Qed.

Lemma mul_pos : forall x y e f, fin x -> fin y -> 0 <= val x <= bpow radix2 e -> 0 <= val y <= bpow radix2 f -> (-149 <= e + f <= 127)%Z -> fin (fmul x y) /\ val (fmul x y) = rnd (val x * val y) /\ 0 <= rnd (val x * val y) <= bpow radix2 (e + f).
Proof.
  intros x y e f FX FY (X0 & X1) (Y0 & Y1) E. assert (P : 0 <= val x * val y <= bpow radix2 (e + f)). { split; [apply Rmult_le_pos; assumption|]. rewrite bpow_plus. apply Rmult_le_compat; assumption. }
  destruct (fmul_val x y FX FY) as (F & V). { apply (small_127 _ (e + f)); [lia|]. rewrite Rabs_pos_eq; lra. } split; [exact F|]. split; [exact V|]. apply rnd_between; [apply fits_0|apply fits_bpow; lia|exact P].
Qed.

Lemma add_pos : forall x y e, fin x -> fin y -> 0 <= val x <= bpow radix2 e -> 0 <= val y <= bpow radix2 e -> (-149 <= e + 1 <= 127)%Z -> fin (fadd x y) /\ val (fadd x y) = rnd (val x + val y) /\ 0 <= rnd (val x + val y) <= bpow radix2 (e + 1).
Proof.
  intros x y e FX FY (X0 & X1) (Y0 & Y1) E. assert (P : 0 <= val x + val y <= bpow radix2 (e + 1)). { rewrite bpow_plus. replace (bpow radix2 1) with 2 by (cbn; lra). lra. }
  destruct (fadd_val x y FX FY) as (F & V). { apply (small_127 _ (e + 1)); [lia|]. rewrite Rabs_pos_eq; lra. } split; [exact F|]. split; [exact V|]. apply rnd_between; [apply fits_0|apply fits_bpow; lia|exact P].
Qed.

Lemma surf_ops : forall x y z, fin x -> fin y -> fin z -> 0 <= val x <= bpow radix2 61 -> 0 <= val y <= bpow radix2 61 -> 0 <= val z <= bpow radix2 61 ->
  let s := fmul (of_Z 2) (fadd (fadd (fmul x y) (fmul x z)) (fmul y z)) in
  fin s /\ val s = rnd (2 * rnd (rnd (rnd (val x * val y) + rnd (val x * val z)) + rnd (val y * val z))).
Proof.
  intros x y z FX FY FZ X Y Z. cbv zeta. destruct (mul_pos x y 61 61 FX FY X Y) as (F1 & V1 & B1); [lia|]. destruct (mul_pos x z 61 61 FX FZ X Z) as (F2 & V2 & B2); [lia|]. destruct (mul_pos y z 61 61 FY FZ Y Z) as (F3 & V3 & B3); [lia|].
  rewrite <- V1 in B1. rewrite <- V2 in B2. rewrite <- V3 in B3. destruct (add_pos _ _ (61 + 61) F1 F2 B1 B2) as (F4 & V4 & B4); [lia|]. rewrite <- V4 in B4.
  assert (B3' : 0 <= val (fmul y z) <= bpow radix2 (61 + 61 + 1)) by (split; [apply B3|]; eapply Rle_trans; [apply B3|apply bpow_le; lia]). destruct (add_pos _ _ (61 + 61 + 1) F4 F3 B4 B3') as (F5 & V5 & B5); [lia|]. rewrite <- V5 in B5.
  destruct (of_Z_exact 2) as (F2' & W2); [lia|]. assert (T : 0 <= val (of_Z 2) <= bpow radix2 1) by (rewrite W2; cbn; lra). destruct (mul_pos _ _ 1 (61 + 61 + 1 + 1) F2' F5 T B5) as (F6 & V6 & _); [lia|]. split; [exact F6|]. rewrite V6, W2, V5, V4, V3, V2, V1. reflexivity.
Qed.

Lemma surface_val : forall b, box_ok (bpow radix2 60) b -> fin (f_box_surface b) /\ val (f_box_surface b) = rsurf (extent b 0) (extent b 1) (extent b 2).
Proof.
  intros b (X & Y & Z). destruct (side_val _ _ X) as (FX & VX & BX). destruct (side_val _ _ Y) as (FY & VY & BY). destruct (side_val _ _ Z) as (FZ & VZ & BZ). unfold f_box_surface, fv_sub, rsurf, extent, fcoord. cbv zeta. cbn [fx fy fz].
  rewrite <- VX in *. rewrite <- VY in *. rewrite <- VZ in *. apply surf_ops; assumption.
Qed.

Lemma rsurf_le : forall x y z x' y' z', 0 <= x <= x' -> 0 <= y <= y' -> 0 <= z <= z' -> 0 <= rsurf x y z <= rsurf x' y' z'.
Proof.
  intros x y z x' y' z' X Y Z. assert (N : forall a b, 0 <= a <= b -> 0 <= rnd a <= rnd b) by (intros a b (A & B); split; [apply rnd_nonneg; exact A|apply rnd_le; exact B]).
  assert (M : forall a b c d, 0 <= a <= b -> 0 <= c <= d -> 0 <= a * c <= b * d) by (intros a b c d A C; split; [apply Rmult_le_pos; lra|apply Rmult_le_compat; lra]).
  assert (S : forall a b c d, 0 <= a <= b -> 0 <= c <= d -> 0 <= a + c <= b + d) by (intros; lra).
  unfold rsurf. apply N. apply M; [lra|]. apply N, S; [apply N, S; apply N, M; apply N; assumption|apply N, M; apply N; assumption].
Qed.

(* The surface of a box is a finite number that is never negative, and a box that lies in another
   one never has a larger surface, although every operation is rounded. *)
Theorem float_box_surface : forall b c, box_ok (bpow radix2 60) b -> box_ok (bpow radix2 60) c -> box_in b c ->
  fin (f_box_surface b) /\ fin (f_box_surface c) /\ 0 <= val (f_box_surface b) <= val (f_box_surface c).
Proof.
  intros b c B C I. destruct (surface_val b B) as (FB & VB). destruct (surface_val c C) as (FC & VC). split; [exact FB|]. split; [exact FC|]. rewrite VB, VC. destruct B as ((_ & _ & _ & BX & _) & (_ & _ & _ & BY & _) & (_ & _ & _ & BZ & _)).
  pose proof (I 0%nat) as IX. pose proof (I 1%nat) as IY. pose proof (I 2%nat) as IZ. unfold extent. cbn [fcoord] in *. apply rsurf_le; lra.
Qed.
Print Assumptions float_box_surface.

(* the unit cube in a box of sides 2, 2 and 3 *)
Definition cube_box : fbox := mk_fbox (mk_fvec fzero fzero fzero) (mk_fvec fone fone fone).
Definition tall_box : fbox := mk_fbox (mk_fvec (of_Z (-1)) fzero fzero) (mk_fvec fone (of_Z 2) (of_Z 3)).

Example box_surface_case : B2SF (f_box_surface cube_box) = B2SF (of_Z 6) /\ B2SF (f_box_surface tall_box) = B2SF (of_Z 32) /\ f_longest_axis tall_box = 2%nat.
Proof. repeat split; vm_compute; reflexivity. Qed.

(* The longest axis has the greatest extent among the three as the program computes them. An axis
   that is really longer differs by less than what rounding can see. *)
Theorem float_longest_axis : forall b j, box_ok (bpow radix2 60) b -> (j < 3)%nat ->
  let k := f_longest_axis b in
  (k < 3)%nat /\ rnd (extent b j) <= rnd (extent b k) /\ (extent b k < extent b j -> rnd (extent b j) = rnd (extent b k)).
Proof.
  intros b j (X & Y & Z) J. destruct (side_val _ _ X) as (FX & VX & BX). destruct (side_val _ _ Y) as (FY & VY & BY). destruct (side_val _ _ Z) as (FZ & VZ & BZ). cbv zeta.
  assert (M : (f_longest_axis b < 3)%nat /\ rnd (extent b j) <= rnd (extent b (f_longest_axis b))).
  { unfold f_longest_axis, fv_sub. cbv zeta. cbn [fx fy fz]. set (dx := fsub (fx (fb_hi b)) (fx (fb_lo b))) in *. set (dy := fsub (fy (fb_hi b)) (fy (fb_lo b))) in *. set (dz := fsub (fz (fb_hi b)) (fz (fb_lo b))) in *.
    assert (T : forall a c, fin a -> fin c -> fle a c = false -> val c < val a) by (intros a c FA FC E; apply Rnot_le_lt; intro L; apply (fle_val a c FA FC) in L; congruence).
    assert (E0 : rnd (extent b 0) = val dx) by (symmetry; exact VX). assert (E1 : rnd (extent b 1) = val dy) by (symmetry; exact VY). assert (E2 : rnd (extent b 2) = val dz) by (symmetry; exact VZ). clearbody dx dy dz.
    assert (G : forall k, val dx <= rnd (extent b k) -> val dy <= rnd (extent b k) -> val dz <= rnd (extent b k) -> rnd (extent b j) <= rnd (extent b k)). { intros k K0 K1 K2. destruct j as [|[|[|j]]]; [rewrite E0|rewrite E1|rewrite E2|lia]; assumption. }
    destruct (fle dy dx) eqn:A; destruct (fle dz dx) eqn:B; destruct (fle dz dy) eqn:C; cbn [andb];
      repeat match goal with H : fle ?a ?c = true |- _ => apply (fle_val a c) in H; [|assumption|assumption] | H : fle ?a ?c = false |- _ => apply (T a c) in H; [|assumption|assumption] end;
      (split; [lia|]); apply G; rewrite ?E0, ?E1, ?E2; lra. }
  destruct M as (M1 & M2). split; [exact M1|]. split; [exact M2|]. intro L. apply Rle_antisym; [exact M2|apply rnd_le; lra].
Qed.
Print Assumptions float_longest_axis.

Lemma fits_double : forall x, fits (val x * 2).
Proof. intro x. replace 2 with (bpow radix2 1) by (cbn; lra). apply (Mult_error.mult_bpow_pos_exact_FLT radix2 (-149) 24 (val x) 1); [apply fits_val|lia]. Qed.

Lemma mid_val : forall a b, axis_ok (bpow radix2 126) a b -> let m := fmul (fadd a b) (fnum 1 (-1)) in fin m /\ val a <= val m <= val b.
Proof.
  intros a b (FA & FB & A & L & B). cbv zeta. pose proof (bpow_plus radix2 126 1) as P. change (126 + 1)%Z with 127%Z in P. replace (bpow radix2 1) with 2 in P by (cbn; lra).
  destruct (fadd_val a b FA FB) as (F & V); [apply Rabs_le; lra|]. destruct half_val as (FH & VH).
  pose proof (rnd_between (val a + val b) (val a * 2) (val b * 2) (fits_double a) (fits_double b) ltac:(lra)) as R. rewrite <- V in R.
  destruct (fmul_val (fadd a b) (fnum 1 (-1)) F FH) as (FM & VM); [rewrite VH; apply Rabs_le; lra|]. split; [exact FM|]. rewrite VM, VH. apply rnd_between; [apply fits_val|apply fits_val|lra].
Qed.

(* The center of a box lies in the box. *)
Theorem float_box_center : forall b, box_ok (bpow radix2 126) b -> vfin (f_box_center b) /\ f_inside b (f_box_center b) = true.
Proof.
  intros b (X & Y & Z). destruct (mid_val _ _ X) as (FX & LX & UX). destruct (mid_val _ _ Y) as (FY & LY & UY). destruct (mid_val _ _ Z) as (FZ & LZ & UZ).
  destruct X as (FXA & FXB & _). destruct Y as (FYA & FYB & _). destruct Z as (FZA & FZB & _). unfold f_box_center. cbv zeta. cbn [fx fy fz].
  split; [split; [exact FX|split; [exact FY|exact FZ]]|]. unfold f_inside. cbn [fx fy fz]. rewrite !andb_true_iff. repeat split; apply fle_val; assumption.
Qed.
Print Assumptions float_box_center.

(* the center of a box that is one unit in the last place wide is one of its ends *)
Example box_center_case : let a := fone in let b := fnum 8388609 (-23) in
  B2SF (fx (f_box_center (mk_fbox (mk_fvec a a a) (mk_fvec b b b)))) = B2SF a /\ B2SF (fz (f_box_center tall_box)) = B2SF (fnum 3 (-1)).
Proof. split; vm_compute; reflexivity. Qed.

Lemma add_over : forall a b, fin a -> fin b -> bpow radix2 127 <= val a -> bpow radix2 127 <= val b -> fadd a b = B754_infinity false.
Proof.
  intros a b FA FB A B. pose proof (Bplus_correct 24 128 prec24 emax128 mode_NE a b FA FB) as C. cbn [round_mode] in C. change (round radix2 (SpecFloat.fexp 24 128) ZnearestE (B2R a + B2R b)) with (rnd (val a + val b)) in C.
  pose proof (bpow_plus radix2 127 1) as P. change (127 + 1)%Z with 128%Z in P. replace (bpow radix2 1) with 2 in P by (cbn; lra). pose proof (bpow_gt_0 radix2 127) as G.
  assert (R : bpow radix2 128 <= rnd (val a + val b)) by (rewrite <- (rnd_fits (bpow radix2 128)) by (apply fits_bpow; lia); apply rnd_le; lra).
  rewrite Rlt_bool_false in C by (rewrite Rabs_pos_eq; lra). destruct C as (C & _). apply sf_infinity. unfold fadd. rewrite C. rewrite (sign_pos a FA) by lra. reflexivity.
Qed.

(* The sum of the bounds overflows from 2^127 on: the center of a far box is at infinity. *)
Theorem float_box_center_refuted : forall b, fin (fx (fb_lo b)) -> fin (fx (fb_hi b)) -> bpow radix2 127 <= val (fx (fb_lo b)) -> bpow radix2 127 <= val (fx (fb_hi b)) ->
  fx (f_box_center b) = B754_infinity false /\ f_inside b (f_box_center b) = false.
Proof.
  intros b FA FB A B. assert (E : fx (f_box_center b) = B754_infinity false) by (unfold f_box_center; cbv zeta; cbn [fx]; rewrite (add_over _ _ FA FB A B); reflexivity). split; [exact E|].
  unfold f_inside. rewrite E. assert (H : fle (B754_infinity false) (fx (fb_hi b)) = false). { destruct (fx (fb_hi b)) as [s|s| |s m e h]; try discriminate FB; try reflexivity; destruct s; reflexivity. } rewrite H, andb_false_r. reflexivity.
Qed.
Print Assumptions float_box_center_refuted.

Example box_center_far_case : let a := fnum 1 127 in val a = bpow radix2 127 /\ f_inside (mk_fbox (mk_fvec a a a) (mk_fvec a a a)) (mk_fvec a a a) = true /\ f_inside (mk_fbox (mk_fvec a a a) (mk_fvec a a a)) (f_box_center (mk_fbox (mk_fvec a a a) (mk_fvec a a a))) = false.
Proof. cbv zeta. split; [rewrite (lit_val _ 8388608 104) by (vm_compute; reflexivity); replace (IZR 8388608) with (bpow radix2 23) by (cbn; lra); unfold F2R; cbn [Fnum Fexp]; rewrite <- ?bpow_plus; reflexivity|]. split; vm_compute; reflexivity. Qed.
