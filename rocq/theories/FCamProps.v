(* Where samples land on the screen of a camera in single precision. *)
From Coq Require Import ZArith Reals List Lra Lia Bool.
From Flocq Require Import Core.Core IEEE754.BinarySingleNaN.
From Verif Require Import Common FltModel FltFacts FltProps FRayModel FExtFacts FSphereProps FBoxMarginProps FFilmProps FFresProps FFresNearProps FMatBoundProps FSpecProps FVecEqProps FGgxProps FltVecProps FMatModel FCamModel.
Local Open Scope R_scope.

(* a coordinate of the screen: a + (-2a/n) p with every operation rounded *)
Definition pix (a n p : R) : R := rnd (rnd (rnd (- 2 * a / n) * p) + a).

Lemma pix_opp : forall a n p, pix (- a) n p = - pix a n p.
Proof.
  intros a n p. unfold pix. replace (-2 * - a / n) with (- (-2 * a / n)) by (unfold Rdiv; ring). rewrite rnd_opp. replace (- rnd (-2 * a / n) * p) with (- (rnd (-2 * a / n) * p)) by ring. rewrite rnd_opp.
  replace (- rnd (rnd (-2 * a / n) * p) + - a) with (- (rnd (rnd (-2 * a / n) * p) + a)) by ring. apply rnd_opp.
Qed.

(* sizes of the screen and of the image *)
Definition size_ok (b n p : R) : Prop := / 65536 <= b <= 131072 /\ 1 <= n <= 65535 /\ 0 <= p <= n.

Lemma scale_val : forall b n, / 65536 <= b <= 131072 -> 1 <= n <= 65535 -> exists e, Rabs e <= 1001 / 1000 * u24 /\ rnd (2 * b / n) = 2 * b / n * (1 + e) /\ / 4294967296 <= 2 * b / n <= 262144.
Proof.
  intros b n B N. assert (L : / 4294967296 <= 2 * b / n <= 262144).
  { split; [apply (Rmult_le_reg_r n); [lra|]; unfold Rdiv; rewrite (Rmult_assoc (2 * b)), Rinv_l by lra; lra|]. apply (Rmult_le_reg_r n); [lra|]; unfold Rdiv; rewrite (Rmult_assoc (2 * b)), Rinv_l by lra; lra. }
  destruct (rel_error (2 * b / n)) as (e & E & V). { rewrite Rabs_pos_eq by lra. eapply Rle_trans; [|apply L]. rewrite <- u32_bpow. apply bpow_le; lia. } exists e. split; [exact E|]. split; [exact V|exact L].
Qed.

Lemma pix_err : forall b n p, size_ok b n p -> Rabs (pix (- b) n p - b * (2 * (p / n) - 1)) <= 51 / 10 * u24 * b.
Proof.
  intros b n p (B & N & P). unfold pix. replace (-2 * - b / n) with (2 * b / n) by (unfold Rdiv; ring). destruct (scale_val b n B N) as (e & E & V & _). rewrite V. set (q := p / n).
  assert (Q : 0 <= q <= 1). { unfold q. split; [apply Rmult_le_pos; [lra|left; apply Rinv_0_lt_compat; lra]|]. apply (Rmult_le_reg_r n); [lra|]. unfold Rdiv. rewrite Rmult_assoc, Rinv_l by lra. lra. }
  replace (2 * b / n * (1 + e) * p) with (2 * b * q * (1 + e)) by (unfold q; field; lra). assert (BQ : 0 <= b * q <= b) by (split; [apply Rmult_le_pos; lra|rewrite <- (Rmult_1_r b) at 2; apply Rmult_le_compat_l; lra]).
  replace (b * (2 * q - 1)) with (2 * (b * q) - b) by ring. replace (2 * b * q * (1 + e)) with (2 * (b * q) * (1 + e)) by ring. set (m := b * q) in *. clearbody m. clear q Q V P p N n.
  pose proof h150_u24 as H. apply abs_both in E. assert (U : u24 = / 16777216) by reflexivity. assert (ME : - (1001 / 1000 * u24 * b) <= m * e <= 1001 / 1000 * u24 * b).
  { assert (W : 0 <= u24) by (rewrite U; lra). split; nra. }
  assert (Hb : h150 <= / 1000 * (u24 * b)) by (rewrite U in *; lra).
  pose proof (rerr (2 * m * (1 + e))) as R1. set (t := rnd (2 * m * (1 + e))) in *. clearbody t. rewrite (Rabs_pos_eq (2 * m * (1 + e))) in R1 by (apply Rmult_le_pos; rewrite U in *; lra). apply abs_both in R1.
  assert (T : - (402 / 100 * (u24 * b)) <= t - 2 * m <= 402 / 100 * (u24 * b)) by (rewrite U in *; clear - B BQ E ME Hb R1 U H; lra).
  pose proof (rerr (t + - b)) as R2. set (c := rnd (t + - b)) in *. clearbody c. assert (A : Rabs (t + - b) <= b * (1 + 402 / 100 * u24)) by (apply Rabs_le; rewrite U in *; lra). apply Rabs_le.
  assert (A2 : u24 * Rabs (t + - b) <= u24 * (b * (1 + 402 / 100 * u24))) by (apply Rmult_le_compat_l; [rewrite U; lra|exact A]). apply abs_both in R2. rewrite U in *. lra.
Qed.

Lemma pix_mono : forall b n p q, 0 <= b -> 0 < n -> p <= q -> pix (- b) n p <= pix (- b) n q.
Proof.
  intros b n p q B N L. unfold pix. apply rnd_le, Rplus_le_compat_r, rnd_le, Rmult_le_compat_l; [|exact L]. apply rnd_nonneg. unfold Rdiv. apply Rmult_le_pos; [lra|left; apply Rinv_0_lt_compat; exact N].
Qed.

(* ----- the floats ----- *)
Lemma add_zero : forall x z, fin x -> fin z -> val z = 0 -> Rabs (val x) <= bpow radix2 127 -> fin (fadd x z) /\ val (fadd x z) = val x.
Proof. intros x z FX FZ Z B. destruct (fadd_val x z FX FZ) as (F & V); [rewrite Z, Rplus_0_r; exact B|]. split; [exact F|]. rewrite V, Z, Rplus_0_r. apply rnd_fits, fits_val. Qed.

Lemma zero_mul : forall x, fin x -> fin (fmul fzero x) /\ val (fmul fzero x) = 0.
Proof. exact fzero_mul. Qed.

(* one row of the matrix; the zero terms come before or after *)
Lemma row_val : forall a b (n : Z) p, fin a -> fin b -> fin p -> val b = - val a -> / 65536 <= Rabs (val a) <= 131072 -> (1 <= n <= 65535)%Z -> 0 <= val p <= IZR n ->
  let s := fdiv (fsub b a) (of_Z n) in
  fin s /\ fin (fmul s p) /\ Rabs (val (fmul s p)) <= bpow radix2 36 /\ fin (fadd (fmul s p) a) /\ val (fadd (fmul s p) a) = pix (val a) (IZR n) (val p).
Proof.
  intros a b n p FA FB FP E A N P. cbv zeta. assert (N1 : 1 <= IZR n <= 65535) by (split; apply IZR_le; lia). destruct (of_Z_exact n) as (FN & VN); [lia|].
  assert (D : Rabs (val b - val a) <= 262144) by (rewrite E; replace (- val a - val a) with (- (2 * val a)) by ring; rewrite Rabs_Ropp, Rabs_mult, (Rabs_pos_eq 2); lra).
  destruct (fsub_val b a FB FA) as (F1 & V1). { apply (small_127 _ 18); [lia|]. eapply Rle_trans; [exact D|]. cbn; lra. }
  assert (V1' : val (fsub b a) = - 2 * val a). { rewrite V1, E. replace (- val a - val a) with (- (val a * 2)) by ring. rewrite rnd_opp, rnd_fits; [ring|]. replace 2 with (bpow radix2 1) by (cbn; lra). apply (Mult_error.mult_bpow_pos_exact_FLT radix2 (-149) 24 (val a) 1); [apply fits_val|lia]. }
  assert (Q : Rabs (-2 * val a / IZR n) <= bpow radix2 18). { unfold Rdiv. rewrite Rabs_mult. rewrite (Rabs_pos_eq (/ IZR n)) by (left; apply Rinv_0_lt_compat; lra). rewrite Rabs_mult. replace (Rabs (-2)) with 2 by (rewrite Rabs_left; lra). replace (bpow radix2 18) with (262144 * 1) by (cbn; lra). apply Rmult_le_compat; [pose proof (Rabs_pos (val a)); lra|left; apply Rinv_0_lt_compat; lra|lra|]. rewrite <- Rinv_1. apply Rinv_le_contravar; lra. }
  destruct (fdiv_val (fsub b a) (of_Z n) F1) as (F2 & V2); [rewrite VN; lra|rewrite V1', VN; apply (small_127 _ 18); [lia|exact Q]|]. rewrite V1', VN in V2. split; [exact F2|].
  assert (S : Rabs (val (fdiv (fsub b a) (of_Z n))) <= bpow radix2 18). { rewrite V2. rewrite <- (rnd_fits (bpow radix2 18)) by (apply fits_bpow; lia). apply rnd_abs_le. exact Q. }
  assert (M : Rabs (val (fdiv (fsub b a) (of_Z n)) * val p) <= bpow radix2 36). { change 36%Z with (18 + 18)%Z. rewrite bpow_plus, Rabs_mult. apply Rmult_le_compat; [apply Rabs_pos|apply Rabs_pos|exact S|]. rewrite Rabs_pos_eq by lra. cbn; lra. }
  destruct (fmul_val _ p F2 FP) as (F3 & V3); [apply (small_127 _ 36); [lia|exact M]|]. split; [exact F3|].
  assert (T : Rabs (val (fmul (fdiv (fsub b a) (of_Z n)) p)) <= bpow radix2 36). { rewrite V3. rewrite <- (rnd_fits (bpow radix2 36)) by (apply fits_bpow; lia). apply rnd_abs_le. exact M. } split; [exact T|].
  destruct (fadd_val (fmul (fdiv (fsub b a) (of_Z n)) p) a F3 FA) as (F4 & V4). { apply (small_127 _ 37); [lia|]. eapply Rle_trans; [apply Rabs_triang|]. replace (bpow radix2 37) with (bpow radix2 36 + bpow radix2 36) by (cbn; lra). apply Rplus_le_compat; [exact T|]. eapply Rle_trans; [apply A|]. cbn; lra. }
  split; [exact F4|]. rewrite V4, V3, V2. reflexivity.
Qed.

(* half the width and half the height of the screen *)
Definition half_w (w h : Z) : R := Rmax 1 (IZR w / IZR h).
Definition half_h (w h : Z) : R := Rmax 1 (IZR h / IZR w).

Lemma quot_range : forall w h, (1 <= w <= 65535)%Z -> (1 <= h <= 65535)%Z -> / 65535 <= IZR w / IZR h <= 65535.
Proof.
  intros w h W H. assert (W1 : 1 <= IZR w <= 65535) by (split; apply IZR_le; lia). assert (H1 : 1 <= IZR h <= 65535) by (split; apply IZR_le; lia).
  split; apply (Rmult_le_reg_r (IZR h)); try lra; unfold Rdiv; rewrite (Rmult_assoc (IZR w)), Rinv_l by lra; lra.
Qed.

Lemma large_quot : forall x, / 65535 <= x -> bpow radix2 (-100) <= Rabs x.
Proof. intros x X. rewrite Rabs_pos_eq by lra. apply Rle_trans with (/ 4294967296); [rewrite <- u32_bpow; apply bpow_le; lia|lra]. Qed.

Lemma aspect_val : forall w h, (1 <= w <= 65535)%Z -> (1 <= h <= 65535)%Z ->
  fin (f_aspect w h) /\ val (f_aspect w h) = rnd (IZR w / IZR h) /\ (fgt (f_aspect w h) fone = true <-> (h < w)%Z) /\ exists e, Rabs e <= 1001 / 1000 * u24 /\ rnd (IZR w / IZR h) = IZR w / IZR h * (1 + e).
Proof.
  intros w h W H. pose proof (quot_range w h W H) as Q. destruct (of_Z_exact w) as (FW & VW); [lia|]. destruct (of_Z_exact h) as (FH & VH); [lia|]. assert (H1 : 1 <= IZR h) by (apply IZR_le; lia).
  destruct (fdiv_val (of_Z w) (of_Z h) FW) as (F & V); [rewrite VH; lra|rewrite VW, VH; apply (small_127 _ 16); [lia|rewrite Rabs_pos_eq by lra; cbn; lra]|]. rewrite VW, VH in V. fold (f_aspect w h) in *. split; [exact F|]. split; [exact V|].
  assert (R : exists e, Rabs e <= 1001 / 1000 * u24 /\ rnd (IZR w / IZR h) = IZR w / IZR h * (1 + e)) by (apply rel_error, large_quot, Q). split; [|exact R].
  destruct fone_val as (F1 & V1). unfold fgt. fold (flt fone (f_aspect w h)). rewrite (flt_val _ _ F1 F), V1, V. destruct R as (e & E & R). split; intro L.
  - apply Z.nle_gt. intro M. apply IZR_le in M. assert (IZR w / IZR h <= 1). { apply (Rmult_le_reg_r (IZR h)); [lra|]. unfold Rdiv. rewrite Rmult_assoc, Rinv_l by lra. lra. } assert (rnd (IZR w / IZR h) <= 1) by (rewrite <- (rnd_fits 1) by (apply (fits_Z 1); lia); apply rnd_le; assumption). lra.
  - assert (M : IZR h + 1 <= IZR w) by (rewrite <- plus_IZR; apply IZR_le; lia). assert (X : 65536 / 65535 <= IZR w / IZR h). { apply (Rmult_le_reg_r (IZR h)); [lra|]. unfold Rdiv. rewrite (Rmult_assoc (IZR w)), Rinv_l by lra. assert (IZR h <= 65535) by (apply IZR_le; lia). lra. }
    rewrite R. apply abs_both in E. unfold u24 in E. nra.
Qed.

(* the bounds are opposite, and are those of the exact screen up to three roundings *)
Lemma bounds_val : forall w h, (1 <= w <= 65535)%Z -> (1 <= h <= 65535)%Z ->
  let '(b0, b1, b2, b3) := f_screen_bounds w h in
  (fin b0 /\ fin b1 /\ fin b2 /\ fin b3) /\ val b0 = - val b1 /\ val b2 = - val b3 /\ Rabs (val b1 - half_w w h) <= 201 / 100 * u24 * half_w w h /\ Rabs (val b3 - half_h w h) <= 201 / 100 * u24 * half_h w h.
Proof.
  intros w h W H. destruct (aspect_val w h W H) as (FA & VA & G & e & E & R). destruct fone_val as (F1 & V1). destruct (of_Z_exact (-1)) as (FM & VM); [lia|]. pose proof (quot_range w h W H) as Q. pose proof (quot_range h w H W) as Q'.
  assert (W1 : 1 <= IZR w) by (apply IZR_le; lia). assert (H1 : 1 <= IZR h) by (apply IZR_le; lia). assert (I : IZR h / IZR w = / (IZR w / IZR h)) by (field; lra).
  assert (ONE : forall x, x = 1 -> Rabs (x - 1) <= 201 / 100 * u24 * 1) by (intros x ->; replace (1 - 1) with 0 by ring; rewrite Rabs_R0; unfold u24; lra).
  unfold f_screen_bounds, half_w, half_h. cbv zeta. destruct (fgt (f_aspect w h) fone) eqn:T.
  - assert (L : (h < w)%Z) by (apply G; reflexivity). apply IZR_lt in L. assert (X : 1 <= IZR w / IZR h) by (apply (Rmult_le_reg_r (IZR h)); [lra|]; unfold Rdiv; rewrite (Rmult_assoc (IZR w)), Rinv_l by lra; lra).
    assert (Y : IZR h / IZR w <= 1) by (rewrite I, <- Rinv_1; apply Rinv_le_contravar; lra). rewrite (Rmax_right 1 (IZR w / IZR h)) by lra. rewrite (Rmax_left 1 (IZR h / IZR w)) by lra. destruct (neg_val _ FA) as (FN & VN).
    split; [tauto|]. split; [exact VN|]. split; [rewrite VM, V1; lra|]. split; [|apply ONE; exact V1]. rewrite VA, R. set (x := IZR w / IZR h) in *. clearbody x. replace (x * (1 + e) - x) with (x * e) by ring. rewrite Rabs_mult, Rabs_pos_eq by lra. unfold u24 in *. nra.
  - assert (L : (w <= h)%Z) by (apply Z.nlt_ge; intro L; apply G in L; congruence). apply IZR_le in L. assert (X : IZR w / IZR h <= 1) by (apply (Rmult_le_reg_r (IZR h)); [lra|]; unfold Rdiv; rewrite (Rmult_assoc (IZR w)), Rinv_l by lra; lra).
    assert (Y : 1 <= IZR h / IZR w) by (rewrite I, <- Rinv_1; apply Rinv_le_contravar; lra). rewrite (Rmax_left 1 (IZR w / IZR h)) by lra. rewrite (Rmax_right 1 (IZR h / IZR w)) by lra.
    assert (E' := E). apply abs_both in E'. assert (AP : 0 < val (f_aspect w h)) by (rewrite VA, R; apply Rmult_lt_0_compat; [lra|unfold u24 in *; lra]).
    assert (IA : 1 / val (f_aspect w h) = IZR h / IZR w * / (1 + e)) by (rewrite VA, R, I; field; split; unfold u24 in *; lra).
    assert (K : exists d, Rabs d <= 10015 / 10000 * u24 /\ / (1 + e) = 1 + d). { exists (/ (1 + e) - 1). split; [|ring]. assert (P : 0 < 1 + e) by (unfold u24 in *; lra). replace (/ (1 + e) - 1) with (- e * / (1 + e)) by (field; lra). rewrite Rabs_mult, Rabs_Ropp, (Rabs_pos_eq (/ (1 + e))) by (left; apply Rinv_0_lt_compat; exact P). apply (Rmult_le_reg_r (1 + e)); [exact P|]. rewrite Rmult_assoc, Rinv_l by lra. unfold u24 in *. lra. }
    destruct K as (d & D & K). rewrite K in IA. set (y := IZR h / IZR w) in *. clearbody y. assert (D' := D). apply abs_both in D'. assert (BY : 1 / 2 <= y * (1 + d) <= 131072) by (unfold u24 in *; clear - D' Q' Y; nra).
    destruct (fdiv_val fone (f_aspect w h) F1) as (F3 & V3); [lra|rewrite V1, IA; apply (small_127 _ 17); [lia|rewrite Rabs_pos_eq by lra; cbn; lra]|]. rewrite V1, IA in V3.
    assert (NA : -1 / val (f_aspect w h) = - (y * (1 + d))) by (rewrite <- IA; field; lra).
    destruct (fdiv_val (of_Z (-1)) (f_aspect w h) FM) as (F2 & V2); [lra|rewrite VM, NA, Rabs_Ropp; apply (small_127 _ 17); [lia|rewrite Rabs_pos_eq by lra; cbn; lra]|]. rewrite VM, NA, rnd_opp, <- V3 in V2.
    split; [tauto|]. split; [rewrite VM, V1; lra|]. split; [exact V2|]. split; [apply ONE; exact V1|]. rewrite V3. destruct (rel_error (y * (1 + d))) as (f & F & RF); [apply large_quot; lra|]. rewrite RF. replace (y * (1 + d) * (1 + f) - y) with (y * (d + f + d * f)) by ring. rewrite Rabs_mult, (Rabs_pos_eq y) by lra. apply abs_both in F.
    assert (DF : - / 1000 * u24 <= d * f <= / 1000 * u24) by (unfold u24 in *; clear - D' F; split; nra). assert (Z : Rabs (d + f + d * f) <= 201 / 100 * u24) by (apply Rabs_le; unfold u24 in *; lra). rewrite (Rmult_comm y). apply Rmult_le_compat_r; lra.
Qed.

Lemma near_pixel : forall b x n p, size_ok b n p -> 1 <= x <= 65535 -> Rabs (b - x) <= 201 / 100 * u24 * x -> Rabs (pix (- b) n p - x * (2 * (p / n) - 1)) <= / 50 * (2 * x / n).
Proof.
  intros b x n p S X E. pose proof (pix_err b n p S) as R. destruct S as (B & N & P). assert (Q : 0 <= p / n <= 1). { split; [apply Rmult_le_pos; [lra|left; apply Rinv_0_lt_compat; lra]|]. apply (Rmult_le_reg_r n); [lra|]. unfold Rdiv. rewrite Rmult_assoc, Rinv_l by lra. lra. }
  set (q := p / n) in *. clearbody q. set (c := pix (- b) n p) in *. clearbody c. assert (I : / 65535 <= / n) by (apply Rinv_le_contravar; lra). assert (M : / 50 * (2 * x * / 65535) <= / 50 * (2 * x / n)) by (apply Rmult_le_compat_l; [lra|]; unfold Rdiv; apply Rmult_le_compat_l; lra). eapply Rle_trans; [|exact M].
  replace (c - x * (2 * q - 1)) with ((c - b * (2 * q - 1)) + (b - x) * (2 * q - 1)) by ring. eapply Rle_trans; [apply Rabs_triang|]. rewrite Rabs_mult. assert (Q1 : Rabs (2 * q - 1) <= 1) by (apply Rabs_le; lra).
  assert (T : Rabs (b - x) * Rabs (2 * q - 1) <= 201 / 100 * u24 * x) by (rewrite <- (Rmult_1_r (201 / 100 * u24 * x)); apply Rmult_le_compat; [apply Rabs_pos|apply Rabs_pos|exact E|exact Q1]). apply abs_both in E. unfold u24 in *. lra.
Qed.

Lemma rest_zero : forall x y z c, fin x -> fin y -> fin z -> fin c -> val y = 0 -> val z = 0 -> Rabs (val x) <= bpow radix2 127 -> fin (fadd (fadd x y) z) /\ val (fadd (fadd x y) z) = val x.
Proof. intros x y z c FX FY FZ FC Y Z B. destruct (add_zero x y FX FY Y B) as (F & V). rewrite <- V. apply add_zero; try assumption. rewrite V; exact B. Qed.

(* the value of a sum depends on the values of the terms *)
Lemma add_same : forall x x' c, fin x -> fin x' -> val x = val x' -> fin c -> Rabs (val x + val c) <= bpow radix2 127 -> fin (fadd x c) /\ val (fadd x c) = rnd (val x' + val c).
Proof. intros x x' c FX FX' E FC B. destruct (fadd_val x c FX FC B) as (F & V). rewrite E in V. split; assumption. Qed.

Lemma screen_val : forall w h px py, (1 <= w <= 65535)%Z -> (1 <= h <= 65535)%Z -> fin px -> fin py -> 0 <= val px <= IZR w -> 0 <= val py <= IZR h ->
  let '(b0, b1, b2, b3) := f_screen_bounds w h in
  let s := f_screen w h px py in
  vfin s /\ val (fx s) = pix (- val b1) (IZR w) (val px) /\ val (fy s) = - pix (- val b3) (IZR h) (val py) /\ val (fz s) = 0.
Proof.
  intros w h px py W H FX FY PX PY. pose proof (bounds_val w h W H) as BV. pose proof (quot_range w h W H) as Q. pose proof (quot_range h w H W) as Q'. unfold f_screen, f_raster2screen. destruct (f_screen_bounds w h) as [[[b0 b1] b2] b3]. destruct BV as ((F0 & F1 & F2 & F3) & V0 & V2 & E1 & E3).
  assert (HW : 1 <= half_w w h <= 65535) by (unfold half_w; split; [apply Rmax_l|apply Rmax_lub; lra]). assert (HH : 1 <= half_h w h <= 65535) by (unfold half_h; split; [apply Rmax_l|apply Rmax_lub; lra]).
  assert (B1 : / 65536 <= val b1 <= 131072) by (apply abs_both in E1; unfold u24 in *; lra). assert (B3 : / 65536 <= val b3 <= 131072) by (apply abs_both in E3; unfold u24 in *; lra). clear E1 E3 HW HH Q Q'.
  destruct (row_val b0 b1 w px F0 F1 FX) as (SX & MX & LX & AX & VX); [lra|rewrite V0, Rabs_Ropp, Rabs_pos_eq; lra|exact W|exact PX|]. destruct (row_val b3 b2 h py F3 F2 FY) as (SY & MY & LY & AY & VY); [lra|rewrite Rabs_pos_eq; lra|exact H|exact PY|].
  set (sx := fdiv (fsub b1 b0) (of_Z w)) in *. set (sy := fdiv (fsub b2 b3) (of_Z h)) in *. clearbody sx sy. destruct (zero_mul px FX) as (FZX & ZX). destruct (zero_mul py FY) as (FZY & ZY). assert (Z00 : fin (fmul fzero fzero) /\ val (fmul fzero fzero) = 0) by (split; [reflexivity|vm_compute; reflexivity]). destruct Z00 as (FZ & ZZ).
  assert (Z10 : fin (fmul fone fzero) /\ val (fmul fone fzero) = 0) by (split; [vm_compute; reflexivity|vm_compute; reflexivity]). destruct Z10 as (FO & ZO). destruct fzero_val as (FZ0 & VZ0). destruct fone_val as (FO1 & VO1).
  assert (B36 : bpow radix2 36 + 131072 <= bpow radix2 127) by (replace (bpow radix2 127) with (bpow radix2 36 * bpow radix2 91) by (rewrite <- bpow_plus; reflexivity); pose proof (bpow_ge_0 radix2 36); assert (2 <= bpow radix2 91) by (replace 2 with (bpow radix2 1) by (cbn; lra); apply bpow_le; lia); replace 131072 with (bpow radix2 17) by (cbn; lra); assert (bpow radix2 17 <= bpow radix2 36) by (apply bpow_le; lia); nra).
  assert (X : fin (f_rowpoint (mk_frow sx fzero fzero b0) (mk_fvec px py fzero)) /\ val (f_rowpoint (mk_frow sx fzero fzero b0) (mk_fvec px py fzero)) = pix (- val b1) (IZR w) (val px)).
  { unfold f_rowpoint. cbn [q0 q1 q2 q3 fx fy fz]. destruct (rest_zero (fmul sx px) (fmul fzero py) (fmul fzero fzero) b0 MX FZY FZ F0 ZY ZZ) as (R1 & R2); [apply (small_127 _ 36); [lia|exact LX]|].
    assert (BB : Rabs (val (fmul sx px) + val b0) <= bpow radix2 127) by (eapply Rle_trans; [apply Rabs_triang|]; eapply Rle_trans; [|exact B36]; apply Rplus_le_compat; [exact LX|rewrite V0, Rabs_Ropp, Rabs_pos_eq; lra]).
    destruct (add_same _ (fmul sx px) b0 R1 MX R2 F0) as (S1 & S2); [rewrite R2; exact BB|]. split; [exact S1|]. rewrite S2, <- V0, <- VX. symmetry. apply (fadd_val _ _ MX F0 BB). }
  assert (Y : fin (f_rowpoint (mk_frow fzero sy fzero b3) (mk_fvec px py fzero)) /\ val (f_rowpoint (mk_frow fzero sy fzero b3) (mk_fvec px py fzero)) = - pix (- val b3) (IZR h) (val py)).
  { unfold f_rowpoint. cbn [q0 q1 q2 q3 fx fy fz]. assert (L127 : Rabs (val (fmul sy py)) <= bpow radix2 127) by (apply (small_127 _ 36); [lia|exact LY]). destruct (fadd_val (fmul fzero px) (fmul sy py) FZX MY) as (R0 & R0'); [rewrite ZX, Rplus_0_l; exact L127|]. rewrite ZX, Rplus_0_l, rnd_fits in R0' by apply fits_val.
    destruct (add_zero _ (fmul fzero fzero) R0 FZ ZZ) as (R1 & R2); [rewrite R0'; exact L127|]. rewrite R0' in R2.
    assert (BB : Rabs (val (fmul sy py) + val b3) <= bpow radix2 127) by (eapply Rle_trans; [apply Rabs_triang|]; eapply Rle_trans; [|exact B36]; apply Rplus_le_compat; [exact LY|rewrite Rabs_pos_eq; lra]).
    destruct (add_same _ (fmul sy py) b3 R1 MY R2 F3) as (S1 & S2); [rewrite R2; exact BB|]. split; [exact S1|]. rewrite S2, pix_opp, Ropp_involutive, <- VY. symmetry. apply (fadd_val _ _ MY F3 BB). }
  assert (Z : fin (f_rowpoint (mk_frow fzero fzero fone fzero) (mk_fvec px py fzero)) /\ val (f_rowpoint (mk_frow fzero fzero fone fzero) (mk_fvec px py fzero)) = 0).
  { unfold f_rowpoint. cbn [q0 q1 q2 q3 fx fy fz]. assert (T : Rabs 0 <= bpow radix2 127) by (rewrite Rabs_R0; apply bpow_ge_0). destruct (rest_zero (fmul fzero px) (fmul fzero py) (fmul fone fzero) fzero FZX FZY FO FZ0 ZY ZO) as (R1 & R2); [rewrite ZX; exact T|]. rewrite ZX in R2.
    destruct (add_zero _ fzero R1 FZ0 VZ0) as (S1 & S2); [rewrite R2; exact T|]. split; [exact S1|rewrite S2; exact R2]. }
  assert (WW : Beqb (f_rowpoint (mk_frow fzero fzero fzero fone) (mk_fvec px py fzero)) fone = true).
  { unfold f_rowpoint. cbn [q0 q1 q2 q3 fx fy fz]. assert (T : Rabs 0 <= bpow radix2 127) by (rewrite Rabs_R0; apply bpow_ge_0). destruct (rest_zero (fmul fzero px) (fmul fzero py) (fmul fzero fzero) fzero FZX FZY FZ FZ0 ZY ZZ) as (R1 & R2); [rewrite ZX; exact T|]. rewrite ZX in R2.
    destruct (fadd_val _ fone R1 FO1) as (S1 & S2); [rewrite R2, VO1, Rplus_0_l; apply one_127; rewrite Rabs_pos_eq; lra|]. apply (eqb_val _ _ S1 FO1). rewrite S2, R2, VO1, Rplus_0_l. apply rnd_fits. rewrite <- VO1. apply fits_val. }
  unfold f_point. cbn [m_x m_y m_z m_w]. cbv zeta. rewrite WW. cbn [fx fy fz]. unfold vfin. cbn [fx fy fz]. tauto.
Qed.

(* A sample of an image of up to 65535 columns and rows lands on the screen at its own place up to a
   fiftieth of a pixel: the columns run from left to right and the rows from top to bottom over a
   screen whose shorter side is from -1 to 1. *)
Theorem float_screen_place : forall w h px py, (1 <= w <= 65535)%Z -> (1 <= h <= 65535)%Z -> fin px -> fin py -> 0 <= val px <= IZR w -> 0 <= val py <= IZR h ->
  let s := f_screen w h px py in
  vfin s /\ val (fz s) = 0 /\
  Rabs (val (fx s) - half_w w h * (2 * (val px / IZR w) - 1)) <= / 50 * (2 * half_w w h / IZR w) /\
  Rabs (val (fy s) - half_h w h * (1 - 2 * (val py / IZR h))) <= / 50 * (2 * half_h w h / IZR h).
Proof.
  intros w h px py W H FX FY PX PY. pose proof (screen_val w h px py W H FX FY PX PY) as S. pose proof (bounds_val w h W H) as BV. pose proof (quot_range w h W H) as Q. pose proof (quot_range h w H W) as Q'. destruct (f_screen_bounds w h) as [[[b0 b1] b2] b3]. cbv zeta in *. destruct BV as (_ & _ & _ & E1 & E3). destruct S as (S & SX & SY & SZ). split; [exact S|]. split; [exact SZ|]. rewrite SX, SY.
  assert (HW : 1 <= half_w w h <= 65535) by (unfold half_w; split; [apply Rmax_l|apply Rmax_lub; lra]). assert (HH : 1 <= half_h w h <= 65535) by (unfold half_h; split; [apply Rmax_l|apply Rmax_lub; lra]).
  assert (B1 : / 65536 <= val b1 <= 131072) by (apply abs_both in E1; unfold u24 in *; lra). assert (B3 : / 65536 <= val b3 <= 131072) by (apply abs_both in E3; unfold u24 in *; lra).
  assert (W1 : 1 <= IZR w <= 65535) by (split; apply IZR_le; lia). assert (H1 : 1 <= IZR h <= 65535) by (split; apply IZR_le; lia).
  split; [apply near_pixel; [repeat split; lra|exact HW|exact E1]|]. replace (- pix (- val b3) (IZR h) (val py) - half_h w h * (1 - 2 * (val py / IZR h))) with (- (pix (- val b3) (IZR h) (val py) - half_h w h * (2 * (val py / IZR h) - 1))) by ring. rewrite Rabs_Ropp. apply near_pixel; [repeat split; lra|exact HH|exact E3].
Qed.
Print Assumptions float_screen_place.

(* Samples never change places: one further right is never further left on the screen, and one
   further down never further up, however close they are. *)
Theorem float_screen_order : forall w h px py qx qy, (1 <= w <= 65535)%Z -> (1 <= h <= 65535)%Z -> fin px -> fin py -> fin qx -> fin qy ->
  0 <= val px <= val qx -> val qx <= IZR w -> 0 <= val py <= val qy -> val qy <= IZR h ->
  val (fx (f_screen w h px py)) <= val (fx (f_screen w h qx qy)) /\ val (fy (f_screen w h qx qy)) <= val (fy (f_screen w h px py)).
Proof.
  intros w h px py qx qy W H FPX FPY FQX FQY X X1 Y Y1. pose proof (screen_val w h px py W H FPX FPY ltac:(lra) ltac:(lra)) as S. pose proof (screen_val w h qx qy W H FQX FQY ltac:(lra) ltac:(lra)) as T. pose proof (bounds_val w h W H) as BV. destruct (f_screen_bounds w h) as [[[b0 b1] b2] b3]. cbv zeta in *.
  destruct S as (_ & SX & SY & _). destruct T as (_ & TX & TY & _). destruct BV as (_ & _ & _ & E1 & E3). assert (W1 : 0 < IZR w) by (apply IZR_lt; lia). assert (H1 : 0 < IZR h) by (apply IZR_lt; lia).
  assert (B1 : 0 <= val b1) by (pose proof (Rmax_l 1 (IZR w / IZR h)) as M; fold (half_w w h) in M; apply abs_both in E1; unfold u24 in *; lra). assert (B3 : 0 <= val b3) by (pose proof (Rmax_l 1 (IZR h / IZR w)) as M; fold (half_h w h) in M; apply abs_both in E3; unfold u24 in *; lra).
  rewrite SX, SY, TX, TY. split; [apply pix_mono; lra|]. apply Ropp_le_contravar, pix_mono; lra.
Qed.
Print Assumptions float_screen_order.

(* 1920 x 1080: the upper left corner, and the middle *)
Example screen_case : let s := f_screen 1920 1080 in
  B2SF (fx (s fzero fzero)) = B2SF (fneg (f_aspect 1920 1080)) /\ B2SF (fy (s fzero fzero)) = B2SF fone /\
  B2SF (fx (s (of_Z 960) (of_Z 540))) = B2SF fzero /\ B2SF (fy (s (of_Z 960) (of_Z 1080))) = B2SF (of_Z (-1)).
Proof. repeat split; vm_compute; reflexivity. Qed.
