(* Reconstruction filters. *)
From Coq Require Import Reals Lra Psatz List.
From Verif Require Import FilterModel FilterSpec.
Import ListNotations.
Local Open Scope R_scope.

Lemma rmax0 : forall a, 0 <= a -> Rmax 0 a = a.
Proof. intros. apply Rmax_right. assumption. Qed.
Lemma rmax_le1 : forall a, a <= 1 -> 0 <= Rmax 0 a <= 1.
Proof. intros a H. unfold Rmax. destruct (Rle_dec 0 a); lra. Qed.
Lemma rmax_mono : forall a b, a <= b -> Rmax 0 a <= Rmax 0 b.
Proof. intros a b H. unfold Rmax. destruct (Rle_dec 0 a), (Rle_dec 0 b); lra. Qed.
Lemma prod01 : forall a b, 0 <= a <= 1 -> 0 <= b <= 1 -> 0 <= a * b <= 1.
Proof. intros a b [A B] [C D]. split; [apply Rmult_le_pos; lra |]. nra. Qed.
Lemma prod_mono : forall a b c d, 0 <= a <= c -> 0 <= b <= d -> a * b <= c * d.
Proof. intros. apply Rmult_le_compat; lra. Qed.
Lemma abs_sq : forall a b, Rabs a <= Rabs b -> a * a <= b * b.
Proof.
  intros a b H. pose proof (Rabs_pos a). pose proof (Rsqr_abs a) as A. pose proof (Rsqr_abs b) as B.
  unfold Rsqr in *. rewrite A, B. apply Rmult_le_compat; lra.
Qed.

Definition tent_axis x := Rmax 0 (2 - Rabs x) / 2.
Lemma tent_axes : forall x y, f_weight tent_filter x y = tent_axis x * tent_axis y.
Proof. intros. cbn. unfold tent_axis. field. Qed.
Lemma tent_axis01 : forall x, 0 <= tent_axis x <= 1.
Proof.
  intros x. unfold tent_axis. pose proof (Rabs_pos x). unfold Rmax. destruct (Rle_dec 0 (2 - Rabs x)); lra.
Qed.

(* The tent has every property its header promises; the weights a sample gives to the
   pixels around it add up to the same number wherever it is. *)
Theorem tent_weights :
  unit_weights tent_filter /\ one_at_centre tent_filter /\ zero_outside tent_filter /\
  even_weights tent_filter /\ falls_off tent_filter /\
  forall x y, 0 <= x <= 1 -> 0 <= y <= 1 -> distributed tent_filter x y = 4.
Proof.
  split; [| split; [| split; [| split; [| split]]]].
  - intros x y. rewrite tent_axes. apply prod01; apply tent_axis01.
  - unfold one_at_centre. cbn. rewrite Rabs_R0. rewrite rmax0 by lra. field.
  - intros x y H. rewrite tent_axes. assert (Z : forall t, f_range tent_filter <= Rabs t -> tent_axis t = 0).
    { intros t Ht. cbn in Ht. unfold tent_axis. rewrite Rmax_left by lra. lra. }
    destruct H as [H | H]; rewrite (Z _ H); ring.
  - intros x y x' y' H1 H2. rewrite !tent_axes. unfold tent_axis. rewrite H1, H2. reflexivity.
  - intros x y x' y' H1 H2. rewrite !tent_axes.
    assert (M : forall a b, Rabs a <= Rabs b -> 0 <= tent_axis b <= tent_axis a).
    { intros a b H. split; [apply tent_axis01 |]. unfold tent_axis.
      pose proof (rmax_mono (2 - Rabs b) (2 - Rabs a)). lra. }
    apply prod_mono; apply M; assumption.
  - assert (S : forall t, 0 <= t <= 1 -> tent_axis (t + 1) + (tent_axis t + (tent_axis (t - 1) + (tent_axis (t - 2) + 0))) = 2).
    { intros t Ht. unfold tent_axis. rewrite (Rabs_right (t + 1)), (Rabs_right t), (Rabs_left1 (t - 1)), (Rabs_left1 (t - 2)) by lra.
      rewrite !rmax0 by lra. field. }
    intros x y Hx Hy. unfold distributed, around, sum, map. rewrite !tent_axes.
    transitivity ((tent_axis (x + 1) + (tent_axis x + (tent_axis (x - 1) + (tent_axis (x - 2) + 0)))) *
                  (tent_axis (y + 1) + (tent_axis y + (tent_axis (y - 1) + (tent_axis (y - 2) + 0))))); [ring |].
    rewrite !S by assumption. ring.
Qed.
Print Assumptions tent_weights.
Example tent_ex : f_weight tent_filter 1 (-1) = 1 / 4.
Proof. cbn. rewrite Rabs_R1, (Rabs_left1 (-1)), !rmax0 by lra. field. Qed.

Definition gauss_axis a x := Rmax 0 (exp (- a * x * x) - exp (- a * 2 * 2)).
Lemma gauss_axis01 : forall a x, 0 <= a -> 0 <= gauss_axis a x <= 1.
Proof.
  intros a x H. apply rmax_le1. pose proof (exp_pos (- a * 2 * 2)).
  assert (exp (- a * x * x) <= 1); [| lra]. rewrite <- exp_0.
  pose proof (Rle_0_sqr x) as S. unfold Rsqr in S.
  assert (- a * x * x <= 0) by nra. destruct (Rle_lt_or_eq_dec _ _ H1) as [L | ->]; [left; apply exp_increasing; assumption | right; reflexivity].
Qed.
Lemma exp_le : forall a b, a <= b -> exp a <= exp b.
Proof. intros a b H. destruct (Rle_lt_or_eq_dec _ _ H) as [L | ->]; [left; apply exp_increasing; assumption | right; reflexivity]. Qed.

(* The gaussian is a fading filter that ends at its edge. *)
Theorem gauss_weights : forall falloff, 0 <= falloff ->
  unit_weights (gauss_filter falloff) /\ zero_outside (gauss_filter falloff) /\
  even_weights (gauss_filter falloff) /\ falls_off (gauss_filter falloff) /\
  (0 < falloff -> forall x y, Rabs x < 2 -> Rabs y < 2 -> 0 < f_weight (gauss_filter falloff) x y).
Proof.
  intros a Ha. split; [| split; [| split; [| split]]].
  - intros x y. apply (prod01 (gauss_axis a x) (gauss_axis a y)); apply gauss_axis01; assumption.
  - assert (Z : forall t, 2 <= Rabs t -> gauss_axis a t = 0).
    { intros t Ht. unfold gauss_axis. apply Rmax_left.
      assert (Q : 2 * 2 <= t * t) by (apply abs_sq; rewrite (Rabs_right 2) by lra; assumption).
      assert (exp (- a * t * t) <= exp (- a * 2 * 2)) by (apply exp_le; nra). lra. }
    intros x y [H | H]; cbn in H.
    + change (gauss_axis a x * gauss_axis a y = 0). rewrite (Z _ H). ring.
    + change (gauss_axis a x * gauss_axis a y = 0). rewrite (Z _ H). ring.
  - assert (E : forall s t, Rabs s = Rabs t -> - a * s * s = - a * t * t).
    { intros s t H. assert (s * s = t * t); [| nra].
      pose proof (Rsqr_abs s) as A. pose proof (Rsqr_abs t) as B. unfold Rsqr in *. rewrite A, B, H. reflexivity. }
    intros x y x' y' H1 H2. cbn. rewrite (E _ _ H1), (E _ _ H2). reflexivity.
  - assert (M : forall s t, Rabs s <= Rabs t -> 0 <= gauss_axis a t <= gauss_axis a s).
    { intros s t H. split; [apply gauss_axis01; assumption |]. apply rmax_mono.
      pose proof (abs_sq _ _ H). assert (exp (- a * t * t) <= exp (- a * s * s)) by (apply exp_le; nra). lra. }
    intros x y x' y' H1 H2. apply (prod_mono (gauss_axis a x') (gauss_axis a y')); apply M; assumption.
  - assert (P : 0 < a -> forall t, Rabs t < 2 -> 0 < gauss_axis a t).
    { intros Hp t Ht. unfold gauss_axis.
      assert (Q : t * t < 2 * 2).
      { pose proof (Rabs_pos t). pose proof (Rsqr_abs t) as A. unfold Rsqr in A. rewrite A. nra. }
      assert (exp (- a * 2 * 2) < exp (- a * t * t)) by (apply exp_increasing; nra).
      rewrite rmax0 by lra. lra. }
    intros Hp x y Hx Hy. apply (Rmult_lt_0_compat (gauss_axis a x) (gauss_axis a y)); apply P; assumption.
Qed.
Print Assumptions gauss_weights.

(* Its centre is below one for every falloff, while the header says it is one. *)
Theorem gauss_centre_refuted : forall falloff, 0 <= falloff ->
  f_weight (gauss_filter falloff) 0 0 = (1 - exp (- (4 * falloff))) * (1 - exp (- (4 * falloff))) /\
  ~ one_at_centre (gauss_filter falloff).
Proof.
  intros a Ha.
  assert (E : f_weight (gauss_filter a) 0 0 = (1 - exp (- (4 * a))) * (1 - exp (- (4 * a)))).
  { cbn. replace (- a * 0 * 0) with 0 by ring. replace (- a * 2 * 2) with (- (4 * a)) by ring. rewrite exp_0.
    assert (exp (- (4 * a)) <= 1) by (rewrite <- exp_0; apply exp_le; lra). rewrite rmax0 by lra. reflexivity. }
  split; [exact E |]. unfold one_at_centre. rewrite E.
  assert (exp (- (4 * a)) <= 1) by (rewrite <- exp_0; apply exp_le; lra). pose proof (exp_pos (- (4 * a))). nra.
Qed.
Print Assumptions gauss_centre_refuted.

(* ---- Mitchell ---- *)
Lemma mitchell_inner : forall b c x, 0 <= x <= 1 \/ -1 <= x <= 0 ->
  mitchell_axis b c x = ((12 - 9 * b - 6 * c) * Rabs x * Rabs x * Rabs x + (- 18 + 12 * b + 6 * c) * Rabs x * Rabs x + (6 - 2 * b)) * (1 / 6).
Proof.
  intros b c x H. unfold mitchell_axis. replace (x * (1 / 2) * 2) with x by field.
  assert (Rabs x <= 1) by (destruct H; [rewrite Rabs_right | rewrite Rabs_left1]; lra).
  destruct (Rlt_dec 1 (Rabs x)); [lra | reflexivity].
Qed.
Lemma mitchell_outer : forall b c x, 1 <= Rabs x ->
  mitchell_axis b c x = ((- b - 6 * c) * Rabs x * Rabs x * Rabs x + (6 * b + 30 * c) * Rabs x * Rabs x + (- 12 * b - 48 * c) * Rabs x +
     (8 * b + 24 * c)) * (1 / 6).
Proof.
  intros b c x H. unfold mitchell_axis. replace (x * (1 / 2) * 2) with x by field.
  destruct (Rlt_dec 1 (Rabs x)); [reflexivity |]. assert (E : Rabs x = 1) by lra. rewrite E. field.
Qed.

(* For all parameters: the weights of a sample add up to one, they are zero at the edge and
   even. *)
Theorem mitchell_weights : forall b c,
  zero_at_edge (mitchell_filter b c) /\ even_weights (mitchell_filter b c) /\
  forall x y, 0 <= x <= 1 -> 0 <= y <= 1 -> distributed (mitchell_filter b c) x y = 1.
Proof.
  intros b c. split; [| split].
  - assert (Z : forall t, Rabs t = 2 -> mitchell_axis b c t = 0).
    { intros t Ht. rewrite mitchell_outer by lra. rewrite Ht. field. }
    intros x y [H | H]; cbn in *; rewrite (Z _ H); ring.
  - assert (E : forall s t, Rabs s = Rabs t -> mitchell_axis b c s = mitchell_axis b c t).
    { intros s t H. unfold mitchell_axis. replace (s * (1 / 2) * 2) with s by field. replace (t * (1 / 2) * 2) with t by field.
      rewrite H. reflexivity. }
    intros x y x' y' H1 H2. cbn. rewrite (E _ _ H1), (E _ _ H2). reflexivity.
  - assert (S : forall t, 0 <= t <= 1 -> mitchell_axis b c (t + 1) + (mitchell_axis b c t + (mitchell_axis b c (t - 1) + (mitchell_axis b c (t - 2) + 0))) = 1).
    { intros t Ht. rewrite (mitchell_outer b c (t + 1)) by (rewrite Rabs_right; lra).
      rewrite (mitchell_inner b c t) by (left; lra). rewrite (mitchell_inner b c (t - 1)) by (right; lra).
      rewrite (mitchell_outer b c (t - 2)) by (rewrite Rabs_left1; lra).
      rewrite (Rabs_right (t + 1)), (Rabs_right t), (Rabs_left1 (t - 1)), (Rabs_left1 (t - 2)) by lra. field. }
    intros x y Hx Hy. unfold distributed, around, sum, map. cbn [f_weight mitchell_filter].
    transitivity ((mitchell_axis b c (x + 1) + (mitchell_axis b c x + (mitchell_axis b c (x - 1) + (mitchell_axis b c (x - 2) + 0)))) *
                  (mitchell_axis b c (y + 1) + (mitchell_axis b c y + (mitchell_axis b c (y - 1) + (mitchell_axis b c (y - 2) + 0))))); [ring |].
    rewrite !S by assumption. ring.
Qed.
Print Assumptions mitchell_weights.

(* The value at the centre is one only for b = 0, and weights are negative just inside the
   edge for every c above zero (the default is b = c = 0.33). *)
Theorem mitchell_range_refuted : forall b c,
  (0 <= b <= 3 -> b <> 0 -> ~ one_at_centre (mitchell_filter b c)) /\
  (0 <= b <= 1 -> 0 < c <= 1 -> exists x, 1 < x < 2 /\ f_weight (mitchell_filter b c) x 0 < 0).
Proof.
  intros b c. split.
  - intros Hb Hn H. unfold one_at_centre in H. cbn in H. rewrite mitchell_inner in H by lra. rewrite Rabs_R0 in H. nra.
  - intros Hb Hc. exists (2 - c / (b + 6 * c)).
    assert (P : 0 < b + 6 * c) by lra.
    assert (Q : 0 < c / (b + 6 * c)) by (apply Rdiv_lt_0_compat; lra).
    assert (Q1 : c / (b + 6 * c) < 1).
    { apply (Rmult_lt_reg_r (b + 6 * c)); [assumption |]. unfold Rdiv. rewrite Rmult_assoc, Rinv_l by lra. lra. }
    split; [lra |]. cbn. rewrite (mitchell_inner b c 0) by lra. rewrite Rabs_R0.
    rewrite mitchell_outer by (rewrite Rabs_right; lra). rewrite Rabs_right by lra.
    assert (D : (b + 6 * c) * (c / (b + 6 * c)) = c) by (field; lra).
    set (d := c / (b + 6 * c)) in *. clearbody d.
    (* in the distance d from the edge the cubic is (b+6c) d^3 - 6c d^2, over 6 *)
    assert (E : (- b - 6 * c) * (2 - d) * (2 - d) * (2 - d) + (6 * b + 30 * c) * (2 - d) * (2 - d) + (- 12 * b - 48 * c) * (2 - d) + (8 * b + 24 * c)
                = (b + 6 * c) * d * (d * d) - 6 * c * (d * d)) by ring.
    rewrite E, D. replace (c * (d * d) - 6 * c * (d * d)) with (- (5 * c * (d * d))) by ring.
    assert (0 < 5 * c * (d * d)) by (apply Rmult_lt_0_compat; nra). nra.
Qed.
Print Assumptions mitchell_range_refuted.
Example mitchell_ex : 0 <= 33 / 100 <= 1 /\ 33 / 100 <> 0.
Proof. lra. Qed.

(* ---- Lanczos ---- *)
Lemma sin_le_id : forall z, 0 <= z -> - z <= sin z <= z.
Proof.
  intros z Hz. destruct (Rle_lt_or_eq_dec _ _ Hz) as [L | <-]; [| rewrite sin_0; lra].
  split.
  - destruct (Rle_lt_dec z 1).
    + assert (0 <= sin z); [| lra]. apply sin_ge_0; [lra |]. pose proof (PI_2_3_7_ineq 1). pose proof PI2_3_2. unfold PI2 in *. lra.
    + pose proof (SIN_bound z). lra.
  - left. apply sin_lt_x. assumption.
Qed.
Lemma sinc_abs : forall z, 0 < z -> -1 <= sin z / z <= 1.
Proof.
  intros z H. destruct (sin_le_id z) as [A B]; [lra |]. split.
  - apply (Rmult_le_reg_r z); [assumption |]. unfold Rdiv. rewrite Rmult_assoc, Rinv_l by lra. lra.
  - apply (Rmult_le_reg_r z); [assumption |]. unfold Rdiv. rewrite Rmult_assoc, Rinv_l by lra. lra.
Qed.
Lemma sinc01 : forall z, 0 < z <= PI -> 0 <= sin z / z <= 1.
Proof.
  intros z H. split; [| apply sinc_abs; lra].
  unfold Rdiv. apply Rmult_le_pos; [apply sin_ge_0; lra |]. left. apply Rinv_0_lt_compat. lra.
Qed.

Lemma lanczos_axis_bound : forall tau t, 0 < tau -> -1 <= lanczos_axis tau t <= 1.
Proof.
  intros tau t H. unfold lanczos_axis. set (x := Rabs (t * (1 / 4))).
  destruct (Rlt_dec x (/ 100000)) as [C | C]; [lra |]. destruct (Rlt_dec 1 x) as [D | D]; [lra |].
  assert (0 < x) by lra. pose proof PI_RGT_0.
  assert (0 < x * PI) by (apply Rmult_lt_0_compat; lra).
  pose proof (sinc01 (x * PI)) as S1. assert (x * PI <= PI) by nra. specialize (S1 ltac:(lra)).
  pose proof (sinc_abs (x * PI * tau)) as S2. assert (0 < x * PI * tau) by (apply Rmult_lt_0_compat; lra). specialize (S2 H4).
  cbv zeta. set (u := sin (x * PI * tau) / (x * PI * tau)) in *. set (v := sin (x * PI) / (x * PI)) in *. nra.
Qed.
Lemma lanczos_axis_bound1 : forall tau t, 0 < tau <= 1 -> 0 <= lanczos_axis tau t <= 1.
Proof.
  intros tau t H. split; [| apply lanczos_axis_bound; lra]. unfold lanczos_axis. set (x := Rabs (t * (1 / 4))).
  destruct (Rlt_dec x (/ 100000)) as [C | C]; [lra |]. destruct (Rlt_dec 1 x) as [D | D]; [lra |].
  assert (0 < x) by lra. pose proof PI_RGT_0.
  assert (0 < x * PI) by (apply Rmult_lt_0_compat; lra). assert (x * PI <= PI) by nra.
  pose proof (sinc01 (x * PI) ltac:(lra)) as S1. pose proof (sinc01 (x * PI * tau)) as S2.
  assert (0 < x * PI * tau <= PI) by (split; [apply Rmult_lt_0_compat; lra | nra]). specialize (S2 H4).
  cbv zeta. apply Rmult_le_pos; lra.
Qed.

(* Lanczos: one at the centre, zero outside, even, never beyond one in size; within [0,1]
   when tau is at most one. *)
Theorem lanczos_weights : forall tau, 0 < tau ->
  one_at_centre (lanczos_filter tau) /\ zero_at_edge (lanczos_filter tau) /\ zero_outside (lanczos_filter tau) /\
  even_weights (lanczos_filter tau) /\
  (forall x y, -1 <= f_weight (lanczos_filter tau) x y <= 1) /\
  (tau <= 1 -> unit_weights (lanczos_filter tau)).
Proof.
  intros tau H.
  assert (Z : forall t, 4 <= Rabs t -> lanczos_axis tau t = 0).
  { intros t Ht. unfold lanczos_axis.
    assert (E : Rabs (t * (1 / 4)) = Rabs t * (1 / 4)) by (rewrite Rabs_mult, (Rabs_right (1 / 4)) by lra; reflexivity).
    rewrite E. destruct (Rlt_dec (Rabs t * (1 / 4)) (/ 100000)); [lra |].
    destruct (Rlt_dec 1 (Rabs t * (1 / 4))); [reflexivity |].
    assert (F : Rabs t * (1 / 4) = 1) by lra. rewrite F. cbv zeta. replace (1 * PI) with PI by ring. rewrite sin_PI.
    unfold Rdiv. ring. }
  split; [| split; [| split; [| split; [| split]]]].
  - unfold one_at_centre. cbn. unfold lanczos_axis. replace (0 * (1 / 4)) with 0 by ring. rewrite Rabs_R0.
    destruct (Rlt_dec 0 (/ 100000)); [ring | lra].
  - intros x y [C | C]; cbn in C |- *; [rewrite (Z x) | rewrite (Z y)]; try lra; ring.
  - intros x y [C | C]; cbn in C |- *; [rewrite (Z x) | rewrite (Z y)]; try lra; ring.
  - assert (E : forall s t, Rabs s = Rabs t -> lanczos_axis tau s = lanczos_axis tau t).
    { intros s t Hst. unfold lanczos_axis. rewrite !(Rabs_mult _ (1 / 4)), Hst. reflexivity. }
    intros x y x' y' H1 H2. cbn. rewrite (E _ _ H1), (E _ _ H2). reflexivity.
  - intros x y. cbn. pose proof (lanczos_axis_bound tau x H). pose proof (lanczos_axis_bound tau y H). nra.
  - intros Ht x y. cbn. apply prod01; apply lanczos_axis_bound1; lra.
Qed.
Print Assumptions lanczos_weights.

(* With tau above one some weights are negative, although the interface says that weights
   are in [0,1]. *)
Theorem lanczos_range_refuted : forall tau, 1 < tau <= 2 ->
  exists x, 0 < x < 4 /\ f_weight (lanczos_filter tau) x 0 < 0.
Proof.
  intros tau H. exists (2 + 2 / tau).
  assert (P : 1 / 2 <= / tau < 1).
  { split; [apply (Rmult_le_reg_r tau); [lra |]; rewrite Rinv_l by lra; lra |
            apply (Rmult_lt_reg_r tau); [lra |]; rewrite Rinv_l by lra; lra]. }
  split; [unfold Rdiv; lra |]. cbn. unfold lanczos_axis at 2. replace (0 * (1 / 4)) with 0 by ring. rewrite Rabs_R0.
  destruct (Rlt_dec 0 (/ 100000)) as [_ | C]; [| lra]. unfold lanczos_axis.
  assert (E : Rabs ((2 + 2 / tau) * (1 / 4)) = (1 + / tau) / 2) by (rewrite Rabs_right by (unfold Rdiv; lra); unfold Rdiv; lra).
  rewrite E. destruct (Rlt_dec ((1 + / tau) / 2) (/ 100000)) as [C | _]; [lra |].
  destruct (Rlt_dec 1 ((1 + / tau) / 2)) as [C | _]; [lra |]. cbv zeta.
  set (k := (1 + / tau) / 2) in *. assert (Hk : 3 / 4 <= k < 1) by (unfold k; lra).
  assert (Hkt : 1 < k * tau < 2).
  { assert (k * tau = (tau + 1) / 2) by (unfold k; field; lra). lra. }
  pose proof PI_RGT_0 as Pp. rewrite Rmult_1_r.
  assert (S1 : 0 < sin (k * PI)) by (apply sin_gt_0; nra).
  assert (S2 : sin (k * PI * tau) < 0).
  { apply sin_lt_0; [|]; replace (k * PI * tau) with (k * tau * PI) by ring; nra. }
  assert (D1 : 0 < k * PI) by (apply Rmult_lt_0_compat; lra).
  assert (D2 : 0 < k * PI * tau) by (apply Rmult_lt_0_compat; lra).
  apply Rinv_0_lt_compat in D1. apply Rinv_0_lt_compat in D2. unfold Rdiv.
  assert (A : sin (k * PI * tau) * / (k * PI * tau) < 0) by nra.
  assert (B : 0 < sin (k * PI) * / (k * PI)) by (apply Rmult_lt_0_compat; assumption). nra.
Qed.
Print Assumptions lanczos_range_refuted.
Example lanczos_ex : 1 < 3 / 2 <= 2.
Proof. lra. Qed.
