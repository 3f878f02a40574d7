(* Lemmas on colours and spectra. *)
From Coq Require Import Reals Lra Lia List ZArith.
From Verif Require Import Common ColorModel ColorSpec.
Import ListNotations.
Local Open Scope R_scope.

(* -- wavelengths and emission -- *)

Lemma wavelength_nm : forall i, wavelength i = nm i.
Proof. induction i as [| i IH]; [unfold nm; cbn; lra |]. unfold nm in *. rewrite S_INR. cbn [wavelength]. rewrite IH. lra. Qed.

Lemma nm_pos : forall i, 0 < nm i.
Proof. intro i. unfold nm. pose proof (pos_INR i). lra. Qed.

Lemma nm_lt : forall i j, (i < j)%nat -> nm i < nm j.
Proof. intros i j H. unfold nm. apply lt_INR in H. lra. Qed.

Lemma src_pos : 0 < src.
Proof. unfold src, planck_h, light_c, boltzmann_k. apply Rdiv_lt_0_compat; lra. Qed.

Lemma frc_pos : 0 < frc.
Proof. unfold frc, planck_h, light_c. lra. Qed.

Lemma emission_pos : forall t i, 0 < emission t i.
Proof.
  intros t i. unfold emission. apply Rmult_lt_0_compat.
  - apply Rdiv_lt_0_compat; [apply frc_pos |]. apply pow_lt. rewrite wavelength_nm. apply nm_pos.
  - apply Rdiv_lt_0_compat; [lra |]. pose proof (exp_pos (src / (IZR t * wavelength i))). lra.
Qed.

Lemma greatest_ge : forall l m, m <= greatest l m.
Proof. induction l as [| v l IH]; intro m; cbn [greatest]; [lra |]. destruct (Rlt_dec m v); [apply Rle_trans with v; [lra |] |]; apply IH. Qed.

Lemma greatest_in : forall l m v, In v l -> v <= greatest l m.
Proof.
  induction l as [| a l IH]; intros m v H; [destruct H |]. cbn [greatest]. destruct H as [-> | H]; [| apply IH; exact H].
  destruct (Rlt_dec m v); [apply greatest_ge |]. apply Rle_trans with m; [lra | apply greatest_ge].
Qed.

Lemma greatest_of : forall l m, greatest l m = m \/ In (greatest l m) l.
Proof.
  induction l as [| a l IH]; intro m; cbn [greatest]; [left; reflexivity |].
  destruct (Rlt_dec m a).
  - right. destruct (IH a) as [E | E]; [left; symmetry; exact E | right; exact E].
  - destruct (IH m) as [E | E]; [left; exact E | right; right; exact E].
Qed.

Lemma flt_min_pos : 0 < flt_min.
Proof. unfold flt_min. apply Rinv_0_lt_compat, pow_lt. lra. Qed.

(* the greatest emission of a temperature *)
Definition peak (t : Z) : R := greatest (map (emission t) (seq 0 16)) flt_min.

Lemma peak_pos : forall t, 0 < peak t.
Proof. intro t. pose proof flt_min_pos. pose proof (greatest_ge (map (emission t) (seq 0 16)) flt_min). unfold peak. lra. Qed.

Lemma peak_of : forall t, peak t = flt_min \/ exists i, emission t i = peak t /\ In i (seq 0 16).
Proof.
  intro t. unfold peak. destruct (greatest_of (map (emission t) (seq 0 16)) flt_min) as [E | E]; [left; exact E | right].
  apply in_map_iff in E. exact E.
Qed.

Lemma peak_ge : forall t i, In i (seq 0 16) -> emission t i <= peak t.
Proof. intros t i I. unfold peak. apply greatest_in. apply in_map. exact I. Qed.

Lemma blackbody_spectral : forall t, t <> 0%Z -> blackbody Spectral t = map (fun i => emission t i / peak t) (seq 0 16).
Proof.
  intros t T. unfold blackbody, peak. apply Z.eqb_neq in T. rewrite T. set (l := map (emission t) (seq 0 16)). set (p := greatest l flt_min). clearbody p.
  subst l. rewrite map_map. reflexivity.
Qed.

Lemma blackbody_nth : forall t i, t <> 0%Z -> (i < 16)%nat -> nth i (blackbody Spectral t) 0 = emission t i / peak t.
Proof.
  intros t i T I. rewrite blackbody_spectral by exact T.
  rewrite nth_indep with (d' := emission t 0 / peak t) by (rewrite map_length, seq_length; exact I).
  change (emission t 0 / peak t) with ((fun i => emission t i / peak t) O).
  rewrite map_nth, seq_nth by exact I. reflexivity.
Qed.

Lemma exp_le : forall x y, x <= y -> exp x <= exp y.
Proof. intros x y [H | ->]; [left; apply exp_increasing; exact H | lra]. Qed.

Lemma exp_nat : forall n, exp (INR n) <= 3 ^ n.
Proof.
  induction n as [| n IH]; [cbn; rewrite exp_0; lra |]. rewrite S_INR, exp_plus. cbn [pow].
  pose proof exp_le_3. pose proof (exp_pos (INR n)). pose proof (exp_pos 1). nra.
Qed.

Lemma emission_warm : forall t, (300 <= t)%Z -> flt_min < emission t 15.
Proof.
  intros t T. unfold emission. rewrite wavelength_nm.
  assert (E : nm 15 = 7e-7) by (unfold nm; cbn [INR]; lra). rewrite E.
  assert (T' : 300 <= IZR t) by (apply IZR_le; exact T).
  assert (X : src / (IZR t * 7e-7) <= INR 69).
  { apply Rmult_le_reg_r with (IZR t * 7e-7); [lra |]. unfold Rdiv. rewrite Rmult_assoc, Rinv_l by lra. rewrite Rmult_1_r.
    rewrite INR_IZR_INZ. change (Z.of_nat 69) with 69%Z. apply Rle_trans with (69 * (300 * 7e-7)); [| nra].
    unfold src, planck_h, light_c, boltzmann_k. apply Rmult_le_reg_r with 1.38064852e-23; [lra |].
    unfold Rdiv. rewrite Rmult_assoc, Rinv_l by lra. lra. }
  pose proof (exp_le _ _ X) as EX. pose proof (exp_nat 69) as E3. pose proof (exp_pos (src / (IZR t * 7e-7))) as EP.
  set (e := exp (src / (IZR t * 7e-7))) in *. clearbody e.
  assert (EB : e + 1 <= 3 ^ 70).
  { assert (H : 3 ^ 69 + 1 <= 3 ^ 70) by (cbn [pow]; lra). lra. }
  unfold flt_min. apply Rmult_lt_reg_r with (e + 1); [lra |].
  replace (frc / 7e-7 ^ 5 * (1 / (e + 1)) * (e + 1)) with (frc / 7e-7 ^ 5) by (unfold Rdiv; rewrite Rmult_1_l, (Rmult_assoc _ (/ (e + 1))), Rinv_l by lra; rewrite Rmult_1_r; reflexivity).
  apply Rle_lt_trans with (/ 2 ^ 126 * 3 ^ 70).
  { apply Rmult_le_compat_l; [left; apply Rinv_0_lt_compat, pow_lt; lra | exact EB]. }
  assert (P2 : 2 ^ 126 = IZR (2 ^ 126)) by (rewrite pow_IZR; reflexivity). assert (P3 : 3 ^ 70 = IZR (3 ^ 70)) by (rewrite pow_IZR; reflexivity).
  rewrite P2, P3. apply Rlt_trans with 1.
  - apply Rmult_lt_reg_l with (IZR (2 ^ 126)); [apply IZR_lt; reflexivity |].
    rewrite <- Rmult_assoc, Rinv_r by (apply IZR_neq; discriminate). rewrite Rmult_1_l, Rmult_1_r. apply IZR_lt. reflexivity.
  - apply Rmult_lt_reg_r with (7e-7 ^ 5); [apply pow_lt; lra |]. unfold Rdiv. rewrite Rmult_assoc, Rinv_l by (apply pow_nonzero; lra).
    unfold frc, planck_h, light_c. cbn [pow]. lra.
Qed.

(* -- Planck's law -- *)

(* the exponential of a wavelength *)
Definition boost (t : R) (i : nat) : R := exp (src / (t * nm i)).

Lemma boost_gt1 : forall t i, 0 < t -> 1 < boost t i.
Proof.
  intros t i T. unfold boost. rewrite <- exp_0. apply exp_increasing. apply Rdiv_lt_0_compat; [apply src_pos |].
  apply Rmult_lt_0_compat; [exact T | apply nm_pos].
Qed.

Lemma boost_lt : forall t i j, 0 < t -> (i < j)%nat -> boost t j < boost t i.
Proof.
  intros t i j T H. unfold boost. apply exp_increasing. unfold Rdiv. apply Rmult_lt_compat_l; [apply src_pos |].
  pose proof (nm_pos i). pose proof (nm_lt i j H). pose proof (nm_pos j).
  apply Rinv_lt_contravar; [apply Rmult_lt_0_compat; apply Rmult_lt_0_compat; assumption | apply Rmult_lt_compat_l; assumption].
Qed.

Lemma planck_boost : forall t i, 0 < t -> planck t (nm i) = frc / nm i ^ 5 / (boost t i - 1).
Proof.
  intros t i T. unfold planck, boost. pose proof (nm_pos i).
  replace (6.62606957e-34 * 299792458 / (1.38064852e-23 * nm i * t)) with (src / (t * nm i)).
  - f_equal. f_equal. unfold frc, planck_h, light_c. lra.
  - unfold src, planck_h, light_c, boltzmann_k. field. split; lra.
Qed.

Lemma emission_boost : forall t i, emission t i = frc / nm i ^ 5 / (boost (IZR t) i + 1).
Proof.
  intros t i. unfold emission. rewrite wavelength_nm. fold (boost (IZR t) i). unfold Rdiv at 2. rewrite Rmult_1_l. reflexivity.
Qed.

Lemma radiation_pos : forall i, 0 < frc / nm i ^ 5.
Proof. intro i. apply Rdiv_lt_0_compat; [apply frc_pos | apply pow_lt, nm_pos]. Qed.

Lemma ratio_emission : forall ki kj p bi bj, 0 < ki -> 0 < kj -> 0 < p -> 1 < bi -> 1 < bj ->
  ki / (bi + 1) / p / (kj / (bj + 1) / p) = ki / kj * ((bj + 1) / (bi + 1)).
Proof. intros. field. repeat split; lra. Qed.

Lemma ratio_planck : forall ki kj bi bj, 0 < ki -> 0 < kj -> 1 < bi -> 1 < bj ->
  ki / (bi - 1) / (kj / (bj - 1)) = ki / kj * ((bj - 1) / (bi - 1)).
Proof. intros. field. repeat split; lra. Qed.

(* the ratio of two samples *)
Lemma samples_ratio : forall t i j, (0 < t)%Z -> (i < 16)%nat -> (j < 16)%nat ->
  nth i (blackbody Spectral t) 0 / nth j (blackbody Spectral t) 0 =
  frc / nm i ^ 5 / (frc / nm j ^ 5) * ((boost (IZR t) j + 1) / (boost (IZR t) i + 1)).
Proof.
  intros t i j T I J. assert (T0 : t <> 0%Z) by lia. rewrite (blackbody_nth t i T0 I), (blackbody_nth t j T0 J), (emission_boost t i), (emission_boost t j).
  assert (T' : 0 < IZR t) by (apply IZR_lt; exact T).
  apply ratio_emission; [apply radiation_pos | apply radiation_pos | apply peak_pos | apply boost_gt1; exact T' | apply boost_gt1; exact T'].
Qed.

Lemma planck_ratio : forall t i j, 0 < t ->
  planck t (nm i) / planck t (nm j) =
  frc / nm i ^ 5 / (frc / nm j ^ 5) * ((boost t j - 1) / (boost t i - 1)).
Proof.
  intros t i j T. rewrite (planck_boost t i T), (planck_boost t j T).
  apply ratio_planck; [apply radiation_pos | apply radiation_pos | apply boost_gt1; exact T | apply boost_gt1; exact T].
Qed.

Lemma frac_lt : forall a b c d, 0 < b -> 0 < d -> a * d < c * b -> a / b < c / d.
Proof.
  intros a b c d B D H. apply Rmult_lt_reg_r with (b * d); [nra |].
  replace (a / b * (b * d)) with (a * d) by (field; lra). replace (c / d * (b * d)) with (c * b) by (field; lra). exact H.
Qed.

Lemma frac_le : forall a b c d, 0 < b -> 0 < d -> a * d <= c * b -> a / b <= c / d.
Proof.
  intros a b c d B D H. apply Rmult_le_reg_r with (b * d); [nra |].
  replace (a / b * (b * d)) with (a * d) by (field; lra). replace (c / d * (b * d)) with (c * b) by (field; lra). exact H.
Qed.

Lemma le_div : forall a b c, 0 < c -> a * c <= b -> a <= b / c.
Proof. intros a b c C H. apply Rmult_le_reg_r with c; [exact C |]. replace (b / c * c) with b by (field; lra). exact H. Qed.

Lemma boost_warm : forall t j, 0 < t <= 3000 -> (j < 16)%nat -> 201 <= boost t j.
Proof.
  intros t j (T0 & T1) J. unfold boost.
  assert (N : nm j <= 7e-7) by (unfold nm; assert (INR j <= 15) by (change 15 with (IZR (Z.of_nat 15)); rewrite <- INR_IZR_INZ; apply le_INR; lia); lra).
  pose proof (nm_pos j) as P.
  assert (X : 6.84 <= src / (t * nm j)).
  { apply Rmult_le_reg_r with (t * nm j); [nra |]. unfold Rdiv. rewrite Rmult_assoc, Rinv_l by nra. rewrite Rmult_1_r.
    apply Rle_trans with (6.84 * (3000 * 7e-7)); [nra |].
    unfold src, planck_h, light_c, boltzmann_k. apply le_div; lra. }
  apply Rle_trans with (exp 6.84); [| apply exp_le; exact X].
  replace 6.84 with (INR 30 * 0.228) by (rewrite INR_IZR_INZ; change (Z.of_nat 30) with 30%Z; lra).
  assert (EN : forall n x, exp (INR n * x) = exp x ^ n).
  { induction n as [| n IH]; intro x; [cbn; rewrite Rmult_0_l, exp_0; reflexivity |].
    rewrite S_INR, Rmult_plus_distr_r, Rmult_1_l, exp_plus, IH. cbn [pow]. lra. }
  rewrite EN. apply Rle_trans with (1.228 ^ 30).
  - cbn [pow]. lra.
  - apply pow_incr. pose proof (exp_ineq1_le 0.228). lra.
Qed.

Lemma hotter : forall a b x y, 0 < b < a -> 0 < x < y ->
  (exp (b * y) + 1) * (exp (a * x) + 1) < (exp (b * x) + 1) * (exp (a * y) + 1).
Proof.
  intros a b x y (B & BA) (X & XY).
  assert (H1 : exp (b * y) * exp (a * x) < exp (b * x) * exp (a * y)) by (rewrite <- !exp_plus; apply exp_increasing; nra).
  assert (H2 : exp (b * y) + exp (a * x) <= exp (b * x) + exp (a * y)).
  { replace (b * y) with (b * x + b * (y - x)) by ring. replace (a * y) with (a * x + a * (y - x)) by ring. rewrite !exp_plus.
    assert (exp (b * x) < exp (a * x)) by (apply exp_increasing; nra).
    assert (exp (b * (y - x)) < exp (a * (y - x))) by (apply exp_increasing; nra).
    assert (1 < exp (b * (y - x))) by (rewrite <- exp_0; apply exp_increasing; nra).
    pose proof (exp_pos (b * x)). nra. }
  lra.
Qed.
