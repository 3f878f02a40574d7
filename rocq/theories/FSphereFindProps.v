(* Spheres in single precision: which rays hit. *)
From Coq Require Import ZArith Reals List Lra Lia Psatz Bool.
From Flocq Require Import Core.Core IEEE754.BinarySingleNaN.
From Verif Require Import Common FltModel FltFacts FltProps FExtFacts FRayModel FRayFacts FSphereProps FBoxMarginProps FMatModel FMatProps FMatBoundProps FFilmProps FQuadProps FQuadRootProps FSphereHitProps.
Import ListNotations.
Local Open Scope R_scope.

(* ----- specification ----- *)

(* the square of the distance from the centre of the point at s along the ray *)
Definition radius2 (r : fray) (s : R) : R :=
  (val (fx (fr_o r)) + s * val (fx (fr_d r))) * (val (fx (fr_o r)) + s * val (fx (fr_d r))) +
  (val (fy (fr_o r)) + s * val (fy (fr_d r))) * (val (fy (fr_o r)) + s * val (fy (fr_d r))) +
  (val (fz (fr_o r)) + s * val (fz (fr_d r))) * (val (fz (fr_o r)) + s * val (fz (fr_d r))).

(* ----- real arithmetic ----- *)

Lemma disc_real : forall D L P I a b c e, 0 < D -> 0 <= L -> 0 <= P -> P * P <= D * L -> Rabs I <= P ->
  Rabs (a - D) <= 32 / 10 * / 16777216 * D -> Rabs (b - 2 * I) <= 62 / 10 * / 16777216 * P + e ->
  Rabs (c - (L - 1)) <= 42 / 10 * / 16777216 * L + 11 / 10 * / 16777216 -> 0 < e -> e <= / 1000 * / 16777216 * D -> e <= / 1000 * / 16777216 ->
  Rabs (b * b - 4 * (a * c) - 4 * (I * I - D * (L - 1))) <= 56 * / 16777216 * (D * (L + 1)).
Proof.
  intros D L P I a b c e D0 L0 P0 PL IP Ha Hb Hc E0 E1 E2.
  assert (DL : 0 <= D * L) by (apply Rmult_le_pos; lra).
  replace (b * b - 4 * (a * c) - 4 * (I * I - D * (L - 1))) with ((b - 2 * I) * (b + 2 * I) + (- 4 * ((a - D) * c) + - 4 * (D * (c - (L - 1))))) by ring.
  assert (C : Rabs c <= 1001 / 1000 * (L + 1)) by (apply abs_both in Hc; apply Rabs_le; lra).
  assert (S : Rabs (b + 2 * I) <= 401 / 100 * P + e) by (apply abs_both in Hb, IP; apply Rabs_le; lra).
  assert (X1 : Rabs ((b - 2 * I) * (b + 2 * I)) <= (62 / 10 * / 16777216 * P + e) * (401 / 100 * P + e)) by (rewrite Rabs_mult; apply Rmult_le_compat; try apply Rabs_pos; assumption).
  assert (X2 : Rabs (- 4 * ((a - D) * c)) <= 4 * ((32 / 10 * / 16777216 * D) * (1001 / 1000 * (L + 1)))).
  { rewrite Rabs_mult, (Rabs_left (-4)) by lra. replace (- -4) with 4 by ring. apply Rmult_le_compat_l; [lra|]. rewrite Rabs_mult. apply Rmult_le_compat; try apply Rabs_pos; assumption. }
  assert (X3 : Rabs (- 4 * (D * (c - (L - 1)))) <= 4 * (D * (42 / 10 * / 16777216 * L + 11 / 10 * / 16777216))).
  { rewrite Rabs_mult, (Rabs_left (-4)) by lra. replace (- -4) with 4 by ring. apply Rmult_le_compat_l; [lra|]. rewrite Rabs_mult, (Rabs_pos_eq D) by lra. apply Rmult_le_compat_l; [lra|assumption]. }
  eapply Rle_trans; [apply Rabs_triang|]. eapply Rle_trans; [apply Rplus_le_compat_l, Rabs_triang|].
  assert (PP : 0 <= P * P) by (apply Rmult_le_pos; lra).
  assert (EP : e * P <= / 2000 * / 16777216 * (D + P * P)).
  { assert (P <= / 2 * (1 + P * P)) by (pose proof (Rle_0_sqr (P - 1)) as Z; unfold Rsqr in Z; lra).
    assert (Q1 : e * P <= e * (/ 2 * (1 + P * P))) by (apply Rmult_le_compat_l; lra).
    assert (Q2 : e * (P * P) <= / 1000 * / 16777216 * (P * P)) by (apply Rmult_le_compat_r; lra). lra. }
  assert (EE : e * e <= / 1000 * / 16777216 * e) by (apply Rmult_le_compat_r; lra).
  lra.
Qed.

Lemma g_close : forall D L P I a b c e t, 0 < D -> 0 <= L -> 0 <= P -> P * P <= D * L ->
  Rabs (a - D) <= 32 / 10 * / 16777216 * D -> Rabs (b - 2 * I) <= 62 / 10 * / 16777216 * P + e ->
  Rabs (c - (L - 1)) <= 42 / 10 * / 16777216 * L + 11 / 10 * / 16777216 -> 0 < e -> e <= / 1000 * / 16777216 * D -> e <= / 1000 * / 16777216 ->
  D * Rabs (D * t * t + 2 * I * t + (L - 1) - (a * t * t + b * t + c)) <= 64 / 10 * / 16777216 * ((D * t) * (D * t)) + 74 / 10 * / 16777216 * (D * (L + 1)).
Proof.
  intros D L P I a b c e t D0 L0 P0 PL Ha Hb Hc E0 E1 E2.
  assert (DL : 0 <= D * L) by (apply Rmult_le_pos; lra).
  replace (D * t * t + 2 * I * t + (L - 1) - (a * t * t + b * t + c)) with (- ((a - D) * (t * t) + (b - 2 * I) * t + (c - (L - 1)))) by ring. rewrite Rabs_Ropp.
  eapply Rle_trans; [apply Rmult_le_compat_l; [lra|]; eapply Rle_trans; [apply Rabs_triang|apply Rplus_le_compat_r, Rabs_triang]|].
  rewrite !Rabs_mult, !Rmult_plus_distr_l.
  assert (tt : 0 <= Rabs t * Rabs t) by apply Rle_0_sqr.
  assert (SQ : (D * t) * (D * t) = (D * Rabs t) * (D * Rabs t)).
  { replace (D * Rabs t * (D * Rabs t)) with (D * D * (Rabs t * Rabs t)) by ring. rewrite <- Rabs_mult, (Rabs_pos_eq (t * t)) by apply Rle_0_sqr. ring. }
  rewrite SQ. pose proof (Rmult_le_pos D (Rabs t) (Rlt_le _ _ D0) (Rabs_pos t)) as Y0.
  assert (X1 : D * (Rabs (a - D) * (Rabs t * Rabs t)) <= 32 / 10 * / 16777216 * ((D * Rabs t) * (D * Rabs t))).
  { replace (32 / 10 * / 16777216 * (D * Rabs t * (D * Rabs t))) with (D * (32 / 10 * / 16777216 * D * (Rabs t * Rabs t))) by ring.
    apply Rmult_le_compat_l; [lra|]. apply Rmult_le_compat_r; assumption. }
  assert (X2 : D * (Rabs (b - 2 * I) * Rabs t) <= 62 / 10 * / 16777216 * (P * (D * Rabs t)) + e * (D * Rabs t)).
  { replace (D * (Rabs (b - 2 * I) * Rabs t)) with (Rabs (b - 2 * I) * (D * Rabs t)) by ring.
    replace (62 / 10 * / 16777216 * (P * (D * Rabs t)) + e * (D * Rabs t)) with ((62 / 10 * / 16777216 * P + e) * (D * Rabs t)) by ring.
    apply Rmult_le_compat_r; [exact Y0|exact Hb]. }
  assert (X3 : D * Rabs (c - (L - 1)) <= 42 / 10 * / 16777216 * (D * L) + 11 / 10 * / 16777216 * D).
  { replace (42 / 10 * / 16777216 * (D * L) + 11 / 10 * / 16777216 * D) with (D * (42 / 10 * / 16777216 * L + 11 / 10 * / 16777216)) by ring. apply Rmult_le_compat_l; [lra|exact Hc]. }
  set (y := D * Rabs t) in *. clearbody y.
  assert (PT : P * y <= / 2 * (D * L + y * y)) by (pose proof (Rle_0_sqr (P - y)) as Z; unfold Rsqr in Z; lra).
  assert (Q : 0 <= y * y) by apply Rle_0_sqr.
  assert (ET : e * y <= / 1000 * / 16777216 * D + / 1000 * / 16777216 * (y * y)).
  { assert (Y : y <= 1 + y * y) by (pose proof (Rle_0_sqr (y - 1)) as Z; unfold Rsqr in Z; lra).
    assert (Q1 : e * y <= e * (1 + y * y)) by (apply Rmult_le_compat_l; lra).
    assert (e * (y * y) <= / 1000 * / 16777216 * (y * y)) by (apply Rmult_le_compat_r; lra). lra. }
  lra.
Qed.

Definition parabola (a b c t : R) : R := a * t * t + b * t + c.

Lemma par_diff : forall a b c s t, parabola a b c s - parabola a b c t = (s - t) * (a * (s + t) + b).
Proof. intros. unfold parabola. ring. Qed.

Lemma after_end : forall a b c s0 s1 t m, 0 < a -> parabola a b c s0 < 0 -> 0 < m -> m <= parabola a b c s1 -> s0 <= s1 -> parabola a b c t < m -> t <= s1.
Proof.
  intros a b c s0 s1 t m A F0 M F1 L FT. apply Rnot_lt_le. intro T.
  pose proof (par_diff a b c s1 s0) as E1. pose proof (par_diff a b c t s1) as E2.
  assert (P : 0 < a * (s1 + s0) + b).
  { apply Rnot_le_lt. intro N. assert (0 <= (s1 - s0) * - (a * (s1 + s0) + b)) by (apply Rmult_le_pos; lra). lra. }
  assert (Q : a * (s1 + s0) <= a * (t + s1)) by (apply Rmult_le_compat_l; lra).
  assert (0 <= (t - s1) * (a * (t + s1) + b)) by (apply Rmult_le_pos; lra). lra.
Qed.

Lemma before_start : forall a b c s0 z t m, 0 < a -> parabola a b c s0 < 0 -> 0 < m -> m <= parabola a b c z -> z <= s0 -> parabola a b c t < m -> z <= t.
Proof.
  intros a b c s0 z t m A F0 M F1 L FT. apply Rnot_lt_le. intro T.
  pose proof (par_diff a b c z s0) as E1. pose proof (par_diff a b c t z) as E2.
  assert (P : a * (z + s0) + b < 0).
  { apply Rnot_le_lt. intro N. assert (0 <= (s0 - z) * (a * (z + s0) + b)) by (apply Rmult_le_pos; lra). lra. }
  assert (Q : a * (t + z) <= a * (z + s0)) by (apply Rmult_le_compat_l; lra).
  assert (0 <= (z - t) * - (a * (t + z) + b)) by (apply Rmult_le_pos; lra). lra.
Qed.

(* both solutions cannot be below a hundredth when the parabola is negative at two hundredths or later *)
Lemma top_root : forall a b c s0 q0 th1 th2 m, 0 < a -> 2 / 100 <= s0 -> parabola a b c s0 <= - m -> 0 < m -> q0 <> 0 -> b * q0 <= 0 -> Rabs b / 2 <= Rabs q0 ->
  Rabs th1 <= 5 * u24 -> Rabs th2 <= 5 * u24 ->
  let s1 := q0 / a * (1 + th1) in let s2 := c / q0 * (1 + th2) in
  - m < parabola a b c s1 -> - m < parabola a b c s2 -> s1 < 101 / 10000 -> s2 < 101 / 10000 -> False.
Proof.
  intros a b c s0 q0 th1 th2 m A S0 F0 M QN BQ BB T1 T2 s1 s2 F1 F2 L1 L2.
  assert (UU : 0 < u24 <= / 1000000) by (unfold u24; lra). apply abs_both in T1, T2.
  pose proof (par_diff a b c s0 s1) as E1. pose proof (par_diff a b c s0 s2) as E2.
  destruct (Rlt_le_dec b 0) as [B|B].
  - assert (QP : 0 < q0).
    { apply Rnot_le_lt. intro N. assert (NN : q0 < 0) by (destruct N; [assumption|contradiction]).
      assert (0 < - b * - q0) by (apply Rmult_lt_0_compat; lra). lra. }
    rewrite Rabs_left, Rabs_pos_eq in BB by lra.
    assert (X : q0 * (1 + th1) = a * s1) by (unfold s1; field; lra).
    assert (Y : - b / 2 * (1 - 5 * u24) <= a * s1).
    { rewrite <- X. apply Rmult_le_compat; lra. }
    assert (Z : a * s1 <= a * (101 / 10000)) by (apply Rmult_le_compat_l; lra).
    assert (W : a * (2 / 100) <= a * s0) by (apply Rmult_le_compat_l; lra).
    assert (V : - b * u24 <= - b * / 1000000) by (apply Rmult_le_compat_l; lra).
    assert (0 <= a * (s0 + s1) + b) by (rewrite Rmult_plus_distr_l; lra).
    assert (0 <= (s0 - s1) * (a * (s0 + s1) + b)) by (apply Rmult_le_pos; lra). lra.
  - assert (CN : c < 0).
    { unfold parabola in F0. assert (0 <= b * s0) by (apply Rmult_le_pos; lra).
      assert (0 <= a * s0 * s0) by (apply Rmult_le_pos; [apply Rmult_le_pos|]; lra). lra. }
    assert (K : forall s, 0 < s -> s < 101 / 10000 -> - m < parabola a b c s -> False).
    { intros s P L FS. pose proof (par_diff a b c s0 s) as E.
      assert (0 <= a * (s0 + s)) by (apply Rmult_le_pos; lra).
      assert (0 <= (s0 - s) * (a * (s0 + s) + b)) by (apply Rmult_le_pos; lra). lra. }
    destruct (Rlt_le_dec 0 q0) as [Q|Q].
    + apply (K s1); try assumption. unfold s1. apply Rmult_lt_0_compat; [apply Rdiv_lt_0_compat; assumption|lra].
    + apply (K s2); try assumption. unfold s2. apply Rmult_lt_0_compat; [|lra].
      replace (c / q0) with (- c / - q0) by (field; exact QN). apply Rdiv_lt_0_compat; [lra|]. destruct Q; [lra|contradiction].
Qed.

(* one of the solutions is the entering one *)
Lemma low_root : forall a b c s0 q0 th1 th2 m, 0 < a -> 0 < s0 -> parabola a b c s0 <= - m -> 0 < m -> q0 <> 0 -> b < 0 ->
  Rabs th1 <= 5 * u24 -> Rabs th2 <= 5 * u24 ->
  let s1 := q0 / a * (1 + th1) in let s2 := c / q0 * (1 + th2) in
  - m < parabola a b c s1 -> - m < parabola a b c s2 -> 3 * u24 * (b * b) < a * m -> s0 < s1 -> s0 < s2 -> False.
Proof.
  intros a b c s0 q0 th1 th2 m A S0 F0 M QN B T1 T2 s1 s2 F1 F2 H L1 L2.
  assert (UU : u24 = / 16777216) by reflexivity. apply abs_both in T1, T2.
  pose proof (par_diff a b c s1 s0) as E1. pose proof (par_diff a b c s2 s0) as E2.
  assert (K : forall s, s0 < s -> - m < parabola a b c s -> parabola a b c s - parabola a b c s0 = (s - s0) * (a * (s + s0) + b) -> - b / 2 < a * s).
  { intros s L FS E. apply Rnot_le_lt. intro N.
    assert (a * s0 <= a * s) by (apply Rmult_le_compat_l; lra).
    assert (0 <= (s - s0) * - (a * (s + s0) + b)) by (apply Rmult_le_pos; [lra|rewrite Rmult_plus_distr_l; lra]). lra. }
  pose proof (K s1 L1 F1 E1) as V1. pose proof (K s2 L2 F2 E2) as V2. clear K.
  assert (PR : (- b / 2) * (- b / 2) <= (a * s1) * (a * s2)) by (apply Rmult_le_compat; lra).
  replace ((a * s1) * (a * s2)) with (a * c * ((1 + th1) * (1 + th2))) in PR by (unfold s1, s2; field; lra).
  assert (AC : a * c <= b * b / 4 - a * m).
  { assert (Z : 0 <= (a * s0 + b / 2) * (a * s0 + b / 2)) by apply Rle_0_sqr.
    assert (G : a * parabola a b c s0 <= a * - m) by (apply Rmult_le_compat_l; lra). unfold parabola in G. lra. }
  assert (TH : 0 <= (1 + th1) * (1 + th2) <= 1 + 11 * / 16777216).
  { split; [apply Rmult_le_pos; lra|]. eapply Rle_trans; [apply Rmult_le_compat with (r2 := 1 + 5 * u24) (r4 := 1 + 5 * u24); lra|]. rewrite UU. lra. }
  assert (BB : 0 < b * b) by (rewrite <- (Rmult_opp_opp b b); apply Rmult_lt_0_compat; lra).
  assert (PC : 0 < a * c).
  { apply Rnot_le_lt. intro N. assert (0 <= - (a * c) * ((1 + th1) * (1 + th2))) by (apply Rmult_le_pos; lra). lra. }
  assert (G : a * c * ((1 + th1) * (1 + th2)) <= a * c * (1 + 11 * / 16777216)) by (apply Rmult_le_compat_l; lra).
  rewrite UU in H. lra.
Qed.

(* ----- the sphere ----- *)

Lemma sphere_numbers : forall r, near_ray r ->
  let D := sq (fr_d r) in let L := sq (fr_o r) in let P := span (fr_d r) (fr_o r) in let I := inner (fr_d r) (fr_o r) in
  let a := val (f_a r) in let b := val (f_b r) in let c := val (f_c r) in let e := bpow radix2 (-140) in
  solvable (f_a r) (f_b r) (f_c r) /\ 0 < D /\ 0 <= L /\ 0 <= P /\ P * P <= D * L /\ Rabs I <= P /\
  Rabs (a - D) <= 32 / 10 * / 16777216 * D /\ Rabs (b - 2 * I) <= 62 / 10 * / 16777216 * P + e /\
  Rabs (c - (L - 1)) <= 42 / 10 * / 16777216 * L + 11 / 10 * / 16777216 /\ 0 < e /\ e <= / 1000 * / 16777216 * D /\ e <= / 1000 * / 16777216.
Proof.
  intros r N. destruct (coefficients r N) as (S & CA & CB & CC). destruct N as (FO & FD & L & D1 & D2). cbv zeta.
  assert (P20 : 0 < bpow radix2 (-20)) by apply bpow_gt_0.
  destruct h150_small as (HP & H16).
  assert (HT : bpow radix2 (-140) <= / 1000 * u24 * bpow radix2 (-20)).
  { replace (bpow radix2 (-140)) with (bpow radix2 (-96) * bpow radix2 (-24) * bpow radix2 (-20)) by (rewrite <- !bpow_plus; reflexivity).
    apply Rmult_le_compat_r; [apply bpow_ge_0|]. rewrite <- u24_bpow.
    apply Rmult_le_compat_r; [apply bpow_ge_0|]. assert (Q : bpow radix2 (-96) <= bpow radix2 (-16)) by (apply bpow_le; lia).
    change (bpow radix2 (-16)) with (/ 65536) in Q. lra. }
  assert (H40 : 16 * h150 <= bpow radix2 (-140)) by (rewrite H16; apply bpow_le; lia).
  unfold u24 in *.
  split; [exact S|]. split; [lra|]. split; [apply sq_pos|]. split; [apply span_pos|]. split; [apply span_square|]. split; [apply inner_span|].
  split; [exact CA|]. split; [lra|]. split; [exact CC|]. split; [apply bpow_gt_0|]. split; [lra|].
  assert (bpow radix2 (-20) <= 1) by (change 1 with (bpow radix2 0); apply bpow_le; lia). lra.
Qed.

Lemma radius_exact : forall r s, radius2 r s - 1 = sq (fr_d r) * s * s + 2 * inner (fr_d r) (fr_o r) * s + (sq (fr_o r) - 1).
Proof. intros. unfold radius2, sq, inner. ring. Qed.

(* a ray whose line passes outside the sphere beyond rounding and a tangent is not said to hit it *)
Theorem float_sphere_miss : forall r distance, near_ray r ->
  inside_by r <= - 28 / 1000000 - 24 / 16777216 * (sq (fr_d r) * (sq (fr_o r) + 1)) -> f_sphere r distance = None.
Proof.
  intros r distance N H. unfold f_sphere. fold (f_a r) (f_b r) (f_c r). cbv zeta.
  destruct (sphere_numbers r N) as (S & D0 & L0 & P0 & PL & IP & Ha & Hb & Hc & E0 & E1 & E2).
  pose proof (disc_real _ _ _ _ _ _ _ _ D0 L0 P0 PL IP Ha Hb Hc E0 E1 E2) as DR.
  destruct (coef_bounds _ _ _ _ _ _ _ _ D0 L0 P0 PL IP Ha Hb Hc E0 E1 E2) as (A & B & C).
  destruct (float_equation2_finds _ _ _ S) as (_ & F). rewrite F; [reflexivity|].
  unfold discriminant, terms. unfold inside_by in H. apply abs_both in DR.
  assert (0 <= sq (fr_d r) * (sq (fr_o r) + 1)) by (apply Rmult_le_pos; lra).
  set (X := sq (fr_d r) * (sq (fr_o r) + 1)) in *. clearbody X.
  set (bb := val (f_b r) * val (f_b r)) in *. set (ac := val (f_a r) * Rabs (val (f_c r))) in *. set (ac' := val (f_a r) * val (f_c r)) in *.
  set (w := inner (fr_d r) (fr_o r) * inner (fr_d r) (fr_o r) - sq (fr_d r) * (sq (fr_o r) - 1)) in *.
  clearbody bb ac ac' w. clear - DR B C H H0. lra.
Qed.
Print Assumptions float_sphere_miss.

(* at a point well within the sphere, the computed parabola is negative *)
Lemma negative_inside : forall r s, near_ray r -> radius2 r s <= 1 - / 65536 * (sq (fr_o r) + 1) ->
  val (f_a r) * parabola (val (f_a r)) (val (f_b r)) (val (f_c r)) s <= - (234 / 16777216 * (sq (fr_d r) * (sq (fr_o r) + 1))).
Proof.
  intros r s N H.
  destruct (sphere_numbers r N) as (S & D0 & L0 & P0 & PL & IP & Ha & Hb & Hc & E0 & E1 & E2).
  destruct (coef_bounds _ _ _ _ _ _ _ _ D0 L0 P0 PL IP Ha Hb Hc E0 E1 E2) as (A & _ & _).
  pose proof (g_close _ _ _ _ _ _ _ _ s D0 L0 P0 PL Ha Hb Hc E0 E1 E2) as G. fold (parabola (val (f_a r)) (val (f_b r)) (val (f_c r)) s) in G.
  pose proof (radius_exact r s) as EX.
  assert (II : inner (fr_d r) (fr_o r) * inner (fr_d r) (fr_o r) <= sq (fr_d r) * sq (fr_o r)).
  { eapply Rle_trans; [|exact PL]. apply (Rsqr_le_abs_1 _ (span (fr_d r) (fr_o r))). rewrite (Rabs_pos_eq (span _ _)) by exact P0. exact IP. }
  rewrite <- EX in G.
  set (D := sq (fr_d r)) in *. set (L := sq (fr_o r)) in *. set (I := inner (fr_d r) (fr_o r)) in *. set (a := val (f_a r)) in *.
  set (F := parabola a (val (f_b r)) (val (f_c r)) s) in *. set (g := radius2 r s) in *. clearbody D L I a F g.
  assert (DL : 0 <= D * L) by (apply Rmult_le_pos; lra).
  assert (DG : D * g <= D * (1 - / 65536 * (L + 1))) by (apply Rmult_le_compat_l; lra).
  assert (SB : (D * s) * (D * s) <= 2 * (D * (L + 1))).
  { pose proof (Rle_0_sqr (D * s + 2 * I)) as Z. unfold Rsqr in Z.
    assert (EE : D * g = (D * s) * (D * s) + 2 * (I * (D * s)) + D * L) by (replace g with (1 + (g - 1)) by ring; rewrite EX; ring). lra. }
  assert (GF : D * (F - (g - 1)) <= D * Rabs (g - 1 - F)) by (apply Rmult_le_compat_l; [lra|]; rewrite Rabs_minus_sym; apply Rle_abs).
  assert (DF : D * F <= - (2355 / 10 * / 16777216 * (D * (L + 1)))) by lra.
  assert (DM : 0 < D * (L + 1)) by (apply Rmult_lt_0_compat; lra).
  assert (FN : F < 0) by (apply (Rmult_lt_reg_l D); lra).
  assert (AF : a * F <= 9999 / 10000 * (D * F)).
  { assert (0 <= (a - 9999 / 10000 * D) * - F) by (apply Rmult_le_pos; lra). lra. }
  lra.
Qed.

(* at a point well outside the sphere it is positive *)
Lemma positive_outside : forall r s, near_ray r -> 1 + / 65536 * (sq (fr_o r) + 1 + sq (fr_d r) * (s * s)) <= radius2 r s ->
  234 / 16777216 * (sq (fr_d r) * (sq (fr_o r) + 1)) <= val (f_a r) * parabola (val (f_a r)) (val (f_b r)) (val (f_c r)) s.
Proof.
  intros r s N H.
  destruct (sphere_numbers r N) as (S & D0 & L0 & P0 & PL & IP & Ha & Hb & Hc & E0 & E1 & E2).
  destruct (coef_bounds _ _ _ _ _ _ _ _ D0 L0 P0 PL IP Ha Hb Hc E0 E1 E2) as (A & _ & _).
  pose proof (g_close _ _ _ _ _ _ _ _ s D0 L0 P0 PL Ha Hb Hc E0 E1 E2) as G. fold (parabola (val (f_a r)) (val (f_b r)) (val (f_c r)) s) in G.
  pose proof (radius_exact r s) as EX. rewrite <- EX in G.
  set (D := sq (fr_d r)) in *. set (L := sq (fr_o r)) in *. set (a := val (f_a r)) in *.
  set (F := parabola a (val (f_b r)) (val (f_c r)) s) in *. set (g := radius2 r s) in *. clear EX. clearbody D L a F g.
  assert (DL : 0 <= D * L) by (apply Rmult_le_pos; lra).
  assert (DG : D * (1 + / 65536 * (L + 1 + D * (s * s))) <= D * g) by (apply Rmult_le_compat_l; lra).
  assert (GF : D * ((g - 1) - F) <= D * Rabs (g - 1 - F)) by (apply Rmult_le_compat_l; [lra|]; apply Rle_abs).
  assert (SS : 0 <= (D * s) * (D * s)) by apply Rle_0_sqr.
  assert (DF : 240 * / 16777216 * (D * (L + 1)) <= D * F) by lra.
  assert (DM : 0 < D * (L + 1)) by (apply Rmult_lt_0_compat; lra).
  assert (FN : 0 < F) by (apply (Rmult_lt_reg_l D); lra).
  assert (AF : 9999 / 10000 * (D * F) <= a * F).
  { replace (9999 / 10000 * (D * F)) with (9999 / 10000 * D * F) by ring. apply Rmult_le_compat_r; lra. }
  lra.
Qed.

(* the equation has two solutions, both good, when the ray passes well within *)
Lemma both_roots : forall r s, near_ray r -> radius2 r s <= 1 - / 65536 * (sq (fr_o r) + 1) ->
  exists s1 s2 q0 th1 th2, f_equation2 (f_a r) (f_b r) (f_c r) = Some (s1, s2) /\ fin s1 /\ fin s2 /\
  val (f_a r) * Rabs (parabola (val (f_a r)) (val (f_b r)) (val (f_c r)) (val s1)) <= 143 / 16777216 * (sq (fr_d r) * (sq (fr_o r) + 1)) /\
  val (f_a r) * Rabs (parabola (val (f_a r)) (val (f_b r)) (val (f_c r)) (val s2)) <= 143 / 16777216 * (sq (fr_d r) * (sq (fr_o r) + 1)) /\
  q0 <> 0 /\ val (f_b r) * q0 <= 0 /\ Rabs (val (f_b r)) / 2 <= Rabs q0 /\ Rabs th1 <= 5 * u24 /\ Rabs th2 <= 5 * u24 /\
  val s1 = q0 / val (f_a r) * (1 + th1) /\ val s2 = val (f_c r) / q0 * (1 + th2).
Proof.
  intros r s N H. pose proof (negative_inside r s N H) as NI.
  destruct (sphere_numbers r N) as (S & D0 & L0 & P0 & PL & IP & Ha & Hb & Hc & E0 & E1 & E2).
  destruct (coef_bounds _ _ _ _ _ _ _ _ D0 L0 P0 PL IP Ha Hb Hc E0 E1 E2) as (A & B & C).
  destruct (delta_close _ _ _ S) as (FD & ED). destruct fzero_val as (F0 & V0).
  assert (DM : sq (fr_d r) <= sq (fr_d r) * (sq (fr_o r) + 1)).
  { rewrite <- (Rmult_1_r (sq (fr_d r))) at 1. apply Rmult_le_compat_l; lra. }
  assert (DP : 0 < val (f_delta (f_a r) (f_b r) (f_c r))).
  { apply abs_both in ED. unfold discriminant, terms in ED. unfold parabola in NI.
    pose proof (Rle_0_sqr (2 * val (f_a r) * s + val (f_b r))) as Z. unfold Rsqr in Z.
    set (X := sq (fr_d r) * (sq (fr_o r) + 1)) in *. set (bb := val (f_b r) * val (f_b r)) in *. set (ac := val (f_a r) * Rabs (val (f_c r))) in *. set (ac' := val (f_a r) * val (f_c r)) in *.
    assert (Z2 : 0 <= 4 * (val (f_a r) * (val (f_a r) * s * s + val (f_b r) * s + val (f_c r))) + (bb - 4 * ac')).
    { unfold bb, ac'. replace (4 * (val (f_a r) * (val (f_a r) * s * s + val (f_b r) * s + val (f_c r))) + (val (f_b r) * val (f_b r) - 4 * (val (f_a r) * val (f_c r)))) with
      ((2 * val (f_a r) * s + val (f_b r)) * (2 * val (f_a r) * s + val (f_b r))) by ring. exact Z. }
    set (y := val (f_a r) * (val (f_a r) * s * s + val (f_b r) * s + val (f_c r))) in *.
    clearbody X bb ac ac' y. clear Z. lra. }
  destruct (far_root _ _ _ S DP) as (F1 & R1). destruct (near_root _ _ _ S DP) as (F2 & R2).
  destruct (root_values _ _ _ S DP) as (q0 & th1 & th2 & Q).
  assert (NL : fle (f_delta (f_a r) (f_b r) (f_c r)) fzero = false).
  { apply not_true_is_false. intro T. apply (fle_val _ _ FD F0) in T. rewrite V0 in T. lra. }
  assert (PL2 : fle fzero (f_delta (f_a r) (f_b r) (f_c r)) = true) by (apply (fle_val _ _ F0 FD); rewrite V0; lra).
  rewrite eq2_unfold. cbv zeta. rewrite NL, PL2. cbn [andb].
  exists (fdiv (f_q (f_b r) (f_delta (f_a r) (f_b r) (f_c r))) (f_a r)), (fdiv (f_c r) (f_q (f_b r) (f_delta (f_a r) (f_b r) (f_c r)))), q0, th1, th2.
  assert (TOL : tolerance (f_a r) (f_b r) (f_c r) <= 143 / 16777216 * (sq (fr_d r) * (sq (fr_o r) + 1))) by (unfold tolerance, u24; lra).
  split; [reflexivity|]. split; [exact F1|]. split; [exact F2|].
  split; [eapply Rle_trans; [exact R1|exact TOL]|]. split; [eapply Rle_trans; [exact R2|exact TOL]|]. exact Q.
Qed.

Lemma self_bounds : fin f_self /\ 9999 / 1000000 <= val f_self < 101 / 10000.
Proof. split; [vm_compute; reflexivity|]. rewrite (lit_val _ 10737418 (-30)) by (vm_compute; reflexivity). cbn. lra. Qed.

(* smaller than what is at a point well within or outside *)
Lemma root_small : forall a F m, 0 < a -> a * Rabs F <= 143 / 16777216 * m -> 0 < m -> Rabs F < / a * (234 / 16777216 * m).
Proof.
  intros a F m A H M. apply (Rmult_lt_reg_l a); [exact A|].
  rewrite <- Rmult_assoc, Rinv_r, Rmult_1_l by lra. lra.
Qed.
Lemma scale_out : forall a x y, 0 < a -> x <= a * y -> / a * x <= y.
Proof. intros a x y A H. apply (Rmult_le_reg_l a); [exact A|]. rewrite <- Rmult_assoc, Rinv_r, Rmult_1_l by lra. exact H. Qed.
Lemma scale_neg : forall a x y, 0 < a -> a * y <= - x -> y <= - (/ a * x).
Proof. intros a x y A H. assert (/ a * x <= - y) by (apply scale_out; lra). lra. Qed.

(* a ray that passes well within the sphere, at least two hundredths after its start, and leaves
   it before the distance it is given, hits it *)
Theorem float_sphere_hit : forall r distance s0 s1, near_ray r -> fin distance -> 2 / 100 <= s0 <= s1 -> s1 <= val distance ->
  radius2 r s0 <= 1 - / 65536 * (sq (fr_o r) + 1) -> 1 + / 65536 * (sq (fr_o r) + 1 + sq (fr_d r) * (s1 * s1)) <= radius2 r s1 ->
  exists t p, f_sphere r distance = Some (t, p) /\ val t <= s1.
Proof.
  intros r distance s0 s1 N FDi S01 S1D IN OUT.
  pose proof (negative_inside r s0 N IN) as NI. pose proof (positive_outside r s1 N OUT) as PO.
  destruct (both_roots r s0 N IN) as (t1 & t2 & q0 & th1 & th2 & E & F1 & F2 & R1 & R2 & QN & BQ & BB & T1 & T2 & V1 & V2).
  destruct (sphere_numbers r N) as (S & D0 & L0 & _). pose proof (solvable_a _ _ _ S) as PA.
  assert (DM : 0 < sq (fr_d r) * (sq (fr_o r) + 1)) by (apply Rmult_lt_0_compat; lra).
  set (X := sq (fr_d r) * (sq (fr_o r) + 1)) in *.
  apply (root_small _ _ _ PA) in R1; [|exact DM]. apply (root_small _ _ _ PA) in R2; [|exact DM].
  apply (scale_out _ _ _ PA) in PO. apply (scale_neg _ _ _ PA) in NI.
  set (m := / val (f_a r) * (234 / 16777216 * X)) in *.
  assert (M : 0 < m) by (apply Rmult_lt_0_compat; [apply Rinv_0_lt_compat; exact PA|lra]).
  assert (E1 : val t1 <= s1).
  { apply (after_end (val (f_a r)) (val (f_b r)) (val (f_c r)) s0 s1 (val t1) m); try assumption; try lra. eapply Rle_lt_trans; [apply Rle_abs|exact R1]. }
  assert (E2 : val t2 <= s1).
  { apply (after_end (val (f_a r)) (val (f_b r)) (val (f_c r)) s0 s1 (val t2) m); try assumption; try lra. eapply Rle_lt_trans; [apply Rle_abs|exact R2]. }
  destruct self_bounds as (FS & SB).
  assert (TOP : val f_self <= val t1 \/ val f_self <= val t2).
  { destruct (Rle_dec (val f_self) (val t1)) as [?|N1]; [auto|]. destruct (Rle_dec (val f_self) (val t2)) as [?|N2]; [auto|]. exfalso.
    apply (top_root (val (f_a r)) (val (f_b r)) (val (f_c r)) s0 q0 th1 th2 m); try assumption; try lra; rewrite <- ?V1, <- ?V2; try lra.
    - apply Rabs_def2 in R1. lra.
    - apply Rabs_def2 in R2. lra. }
  assert (NB : forall t, fin t -> val t <= s1 -> flt distance t = false).
  { intros t F T. apply not_true_is_false. intro Q. apply (flt_val _ _ FDi F) in Q. lra. }
  pose proof (NB t1 F1 E1) as B1. pose proof (NB t2 F2 E2) as B2.
  assert (NS : forall t, fin t -> val f_self <= val t -> flt t f_self = false).
  { intros t F T. apply not_true_is_false. intro Q. apply (flt_val _ _ F FS) in Q. lra. }
  unfold f_sphere. fold (f_a r) (f_b r) (f_c r). cbv zeta. rewrite E.
  destruct (flt t2 t1) eqn:O.
  - rewrite B2, B1. destruct (flt t2 f_self) eqn:Q; [|eauto]. apply (flt_val _ _ F2 FS) in Q.
    rewrite (NS t1 F1) by (destruct TOP; lra). cbn [orb]. eauto.
  - rewrite B1, B2. destruct (flt t1 f_self) eqn:Q; [|eauto]. apply (flt_val _ _ F1 FS) in Q.
    rewrite (NS t2 F2) by (destruct TOP; lra). cbn [orb]. eauto.
Qed.
Print Assumptions float_sphere_hit.

(* a ray that is still well outside the sphere at the distance below which hits are ignored, and
   passes well within it at s0, hits the side it meets first: no later than s0 *)
Theorem float_sphere_first : forall r distance s0, near_ray r -> fin distance -> val f_self <= s0 <= val distance ->
  1 + / 65536 * (sq (fr_o r) + 1 + sq (fr_d r) * (val f_self * val f_self)) <= radius2 r (val f_self) ->
  radius2 r s0 <= 1 - / 65536 * (sq (fr_o r) + 1) ->
  exists t p, f_sphere r distance = Some (t, p) /\ val f_self <= val t <= s0.
Proof.
  intros r distance s0 N FDi S0 OUT IN.
  pose proof (negative_inside r s0 N IN) as NI. pose proof (positive_outside r (val f_self) N OUT) as PO.
  destruct (both_roots r s0 N IN) as (t1 & t2 & q0 & th1 & th2 & E & F1 & F2 & R1 & R2 & QN & BQ & BB & T1 & T2 & V1 & V2).
  destruct (sphere_numbers r N) as (S & D0 & L0 & P0 & PL & IP & Ha & Hb & Hc & E0 & E1 & E2). pose proof (solvable_a _ _ _ S) as PA.
  destruct (coef_bounds _ _ _ _ _ _ _ _ D0 L0 P0 PL IP Ha Hb Hc E0 E1 E2) as (A & B & C). clear Ha Hb Hc E0 E1 E2 PL IP P0.
  assert (DM : 0 < sq (fr_d r) * (sq (fr_o r) + 1)) by (apply Rmult_lt_0_compat; lra).
  set (X := sq (fr_d r) * (sq (fr_o r) + 1)) in *.
  apply (root_small _ _ _ PA) in R1; [|exact DM]. apply (root_small _ _ _ PA) in R2; [|exact DM].
  apply (scale_out _ _ _ PA) in PO. apply (scale_neg _ _ _ PA) in NI.
  set (m := / val (f_a r) * (234 / 16777216 * X)) in *.
  assert (M : 0 < m) by (apply Rmult_lt_0_compat; [apply Rinv_0_lt_compat; exact PA|lra]).
  destruct self_bounds as (FS & SB).
  assert (G1 : val f_self <= val t1).
  { apply (before_start (val (f_a r)) (val (f_b r)) (val (f_c r)) s0 _ (val t1) m); try assumption; try lra. eapply Rle_lt_trans; [apply Rle_abs|exact R1]. }
  assert (G2 : val f_self <= val t2).
  { apply (before_start (val (f_a r)) (val (f_b r)) (val (f_c r)) s0 _ (val t2) m); try assumption; try lra. eapply Rle_lt_trans; [apply Rle_abs|exact R2]. }
  assert (BN : val (f_b r) < 0).
  { apply Rnot_le_lt. intro Q. pose proof (par_diff (val (f_a r)) (val (f_b r)) (val (f_c r)) s0 (val f_self)) as PD.
    assert (0 <= val (f_a r) * (s0 + val f_self)) by (apply Rmult_le_pos; lra).
    assert (0 <= (s0 - val f_self) * (val (f_a r) * (s0 + val f_self) + val (f_b r))) by (apply Rmult_le_pos; lra). lra. }
  assert (LOW : val t1 <= s0 \/ val t2 <= s0).
  { destruct (Rle_dec (val t1) s0) as [?|N1]; [auto|]. destruct (Rle_dec (val t2) s0) as [?|N2]; [auto|]. exfalso.
    apply (low_root (val (f_a r)) (val (f_b r)) (val (f_c r)) s0 q0 th1 th2 m); try assumption; try lra; rewrite <- ?V1, <- ?V2; try lra.
    - apply Rabs_def2 in R1. lra.
    - apply Rabs_def2 in R2. lra.
    - assert (AM : val (f_a r) * m = 234 / 16777216 * X) by (unfold m; field; lra). rewrite AM. unfold u24. lra. }
  assert (NB : forall t, fin t -> val t <= s0 -> flt distance t = false).
  { intros t F T. apply not_true_is_false. intro Q. apply (flt_val _ _ FDi F) in Q. lra. }
  assert (NS : forall t, fin t -> val f_self <= val t -> flt t f_self = false).
  { intros t F T. apply not_true_is_false. intro Q. apply (flt_val _ _ F FS) in Q. lra. }
  pose proof (NS t1 F1 G1) as K1. pose proof (NS t2 F2 G2) as K2.
  unfold f_sphere. fold (f_a r) (f_b r) (f_c r). cbv zeta. rewrite E.
  destruct (flt t2 t1) eqn:O.
  - apply (flt_val _ _ F2 F1) in O. assert (W : val t2 <= s0) by (destruct LOW; lra). rewrite (NB t2 F2 W), K2. exists t2, (f_apply r t2). split; [reflexivity|lra].
  - assert (O' : val t1 <= val t2) by (apply Rnot_lt_le; intro Q; apply (flt_val _ _ F2 F1) in Q; congruence).
    assert (W : val t1 <= s0) by (destruct LOW; lra). rewrite (NB t1 F1 W), K1. exists t1, (f_apply r t1). split; [reflexivity|lra].
Qed.
Print Assumptions float_sphere_first.

(* a ray along z that starts three before the centre, aside by y *)
Definition ahead (y : Z) : fray := mk_fray (ivec 0 y (-3)) (ivec 0 0 1).

Lemma ahead_near : forall y, (Z.abs y <= 1000)%Z -> near_ray (ahead y) /\ sq (fr_d (ahead y)) = 1 /\ sq (fr_o (ahead y)) = IZR y * IZR y + 9 /\
  inside_by (ahead y) = 1 - IZR y * IZR y /\ (forall s, radius2 (ahead y) s = IZR y * IZR y + (s - 3) * (s - 3)).
Proof.
  intros y Y. destruct (of_Z_exact y ltac:(lia)) as (FY & VY). destruct (of_Z_exact 0 ltac:(lia)) as (F0 & V0).
  destruct (of_Z_exact 1 ltac:(lia)) as (F1 & V1). destruct (of_Z_exact (-3) ltac:(lia)) as (F3 & V3).
  unfold near_ray, finite_vec, inside_by, inner, radius2, sq, ahead, ivec. cbn [fr_o fr_d fx fy fz]. rewrite VY, V0, V1, V3.
  assert (YB : IZR y * IZR y <= 1000 * 1000).
  { rewrite <- !mult_IZR. apply IZR_le. rewrite <- (Z.abs_eq (y * y)), Z.abs_mul by apply Z.square_nonneg. apply Z.mul_le_mono_nonneg; lia. }
  assert (B20 : 1 <= bpow radix2 20) by (change 1 with (bpow radix2 0); apply bpow_le; lia).
  assert (B30 : 1048576 <= bpow radix2 30) by (change 1048576 with (bpow radix2 20); apply bpow_le; lia).
  assert (BM : bpow radix2 (-20) <= 1) by (change 1 with (bpow radix2 0); apply bpow_le; lia).
  repeat split; auto; try (intro s); try lra.
Qed.

Example float_sphere_case : near_ray (ahead 0) /\ fin f_max /\ (exists t p, f_sphere (ahead 0) f_max = Some (t, p) /\ val f_self <= val t <= 3) /\
  near_ray (ahead 2) /\ f_sphere (ahead 2) f_max = None.
Proof.
  destruct (ahead_near 0 ltac:(lia)) as (N0 & D0 & L0 & _ & R0). destruct (ahead_near 2 ltac:(lia)) as (N2 & D2 & L2 & I2 & _).
  assert (FM : fin f_max) by (vm_compute; reflexivity).
  assert (VM : 3 <= val f_max).
  { assert (T : fle (of_Z 3) f_max = true) by (vm_compute; reflexivity). destruct (of_Z_exact 3 ltac:(lia)) as (F3 & V3).
    apply (fle_val _ _ F3 FM) in T. rewrite V3 in T. exact T. }
  split; [exact N0|]. split; [exact FM|]. split; [|split; [exact N2|]].
  - destruct self_bounds as (_ & SB). apply float_sphere_first; [exact N0|exact FM|lra|rewrite R0, D0, L0|rewrite R0, L0; lra].
    set (z := val f_self) in *. clearbody z.
    assert (z * z <= / 10 * z) by (apply Rmult_le_compat_r; lra). assert (0 <= z * z) by apply Rle_0_sqr. lra.
  - apply float_sphere_miss; [exact N2|]. rewrite I2, D2, L2. lra.
Qed.

(* the ray is not stopped before it leaves the sphere; and every hit of
   these rays is one of those of float_sphere_on *)
Example float_sphere_within : forall distance, fin distance -> 5 <= val distance ->
  exists t p, f_sphere (ahead 0) distance = Some (t, p) /\ val t <= 5 /\ Rabs (sq p - 1) <= / 1000.
Proof.
  intros distance F V. destruct (ahead_near 0 ltac:(lia)) as (N0 & D0 & L0 & _ & R0).
  destruct (float_sphere_hit (ahead 0) distance 3 5 N0 F) as (t & p & E & T); [lra|lra|rewrite R0, L0; lra|rewrite R0, D0, L0; lra|].
  exists t, p. split; [exact E|]. split; [exact T|].
  destruct (float_sphere_on (ahead 0) distance t p N0 E) as (_ & _ & _ & _ & _ & S). rewrite D0, L0 in S. lra.
Qed.
