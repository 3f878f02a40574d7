(* C40, C41, C96-C101: matrices and transforms. *)
From Coq Require Import Reals Lra List Lia.
From Verif Require Import RVecModel RVecProps MatModel MatSpec.
Import ListNotations.
Local Open Scope R_scope.

(* entry by entry *)
Ltac entries := intros [|[|[|[|?]]]] [|[|[|[|?]]]] ? ?; try lia; cbn [entry Nat.eqb]; unfold sum4; cbn [entry].

Lemma rmat_ext : forall a b, (forall i j, (i < 4)%nat -> (j < 4)%nat -> entry a i j = entry b i j) -> a = b.
Proof.
  intros a b H; assert (L0 : (0 < 4)%nat) by lia; assert (L1 : (1 < 4)%nat) by lia; assert (L2 : (2 < 4)%nat) by lia; assert (L3 : (3 < 4)%nat) by lia.
  pose proof (H 0%nat 0%nat L0 L0) as E00; cbn [entry] in E00.
  pose proof (H 0%nat 1%nat L0 L1) as E01; cbn [entry] in E01.
  pose proof (H 0%nat 2%nat L0 L2) as E02; cbn [entry] in E02.
  pose proof (H 0%nat 3%nat L0 L3) as E03; cbn [entry] in E03.
  pose proof (H 1%nat 0%nat L1 L0) as E10; cbn [entry] in E10.
  pose proof (H 1%nat 1%nat L1 L1) as E11; cbn [entry] in E11.
  pose proof (H 1%nat 2%nat L1 L2) as E12; cbn [entry] in E12.
  pose proof (H 1%nat 3%nat L1 L3) as E13; cbn [entry] in E13.
  pose proof (H 2%nat 0%nat L2 L0) as E20; cbn [entry] in E20.
  pose proof (H 2%nat 1%nat L2 L1) as E21; cbn [entry] in E21.
  pose proof (H 2%nat 2%nat L2 L2) as E22; cbn [entry] in E22.
  pose proof (H 2%nat 3%nat L2 L3) as E23; cbn [entry] in E23.
  pose proof (H 3%nat 0%nat L3 L0) as E30; cbn [entry] in E30.
  pose proof (H 3%nat 1%nat L3 L1) as E31; cbn [entry] in E31.
  pose proof (H 3%nat 2%nat L3 L2) as E32; cbn [entry] in E32.
  pose proof (H 3%nat 3%nat L3 L3) as E33; cbn [entry] in E33.
  clear H L0 L1 L2 L3; destruct a as [a0 a1 a2 a3 a4 a5 a6 a7 a8 a9 a10 a11 a12 a13 a14 a15], b as [b0 b1 b2 b3 b4 b5 b6 b7 b8 b9 b10 b11 b12 b13 b14 b15]; cbn [m00 m01 m02 m03 m10 m11 m12 m13 m20 m21 m22 m23 m30 m31 m32 m33] in *.
  subst; reflexivity.
Qed.

(* C96.  operator* is the product of matrices. *)
Theorem mul_is_product : forall a b, is_product a b (m_mul a b).
Proof. intros a b; entries; reflexivity. Qed.
Print Assumptions mul_is_product.

Lemma product_mul : forall a b c, is_product a b c -> c = m_mul a b.
Proof. intros a b c H; apply rmat_ext; intros i j I J; rewrite H, mul_is_product by assumption; reflexivity. Qed.

Lemma identity_is : is_identity m_identity.
Proof. entries; reflexivity. Qed.
Lemma is_identity_eq : forall m, is_identity m -> m = m_identity.
Proof. intros m H; apply rmat_ext; intros i j I J; rewrite H, identity_is by assumption; reflexivity. Qed.

Theorem mul_identity : forall a, m_mul a m_identity = a /\ m_mul m_identity a = a.
Proof.
  intro a; split; apply rmat_ext; entries; unfold m_mul, m_identity;
    cbn [m00 m01 m02 m03 m10 m11 m12 m13 m20 m21 m22 m23 m30 m31 m32 m33]; ring.
Qed.
Print Assumptions mul_identity.

Theorem mul_assoc : forall a b c, m_mul a (m_mul b c) = m_mul (m_mul a b) c.
Proof.
  intros a b c; apply rmat_ext; entries; unfold m_mul;
    cbn [m00 m01 m02 m03 m10 m11 m12 m13 m20 m21 m22 m23 m30 m31 m32 m33]; ring.
Qed.
Print Assumptions mul_assoc.

(* C40. *)
Lemma det_is_determinant : forall m, m_det m = determinant m.
Proof.
  intros m; unfold determinant, m_det, m_adj; cbn [minor fold_left remove Nat.eq_dec nat_rec nat_rect sumbool_rec sumbool_rect fst snd entry
    m00 m01 m02 m03 m10 m11 m12 m13 m20 m21 m22 m23 m30 m31 m32 m33]; cbn; ring.
Qed.

Lemma adj_right : forall m i j, (i < 4)%nat -> (j < 4)%nat ->
  sum4 (fun k => entry m i k * entry (m_adj m) k j) = if Nat.eqb i j then m_det m else 0.
Proof. intro m; unfold m_det; entries; unfold m_adj; cbn [m00 m01 m02 m03 m10 m11 m12 m13 m20 m21 m22 m23 m30 m31 m32 m33]; ring. Qed.
Lemma adj_left : forall m i j, (i < 4)%nat -> (j < 4)%nat ->
  sum4 (fun k => entry (m_adj m) i k * entry m k j) = if Nat.eqb i j then m_det m else 0.
Proof. intro m; unfold m_det; entries; unfold m_adj; cbn [m00 m01 m02 m03 m10 m11 m12 m13 m20 m21 m22 m23 m30 m31 m32 m33]; ring. Qed.

Lemma times_entry : forall k m i j, entry (m_times k m) i j = entry m i j * k.
Proof. intros k m [|[|[|i]]] [|[|[|j]]]; reflexivity. Qed.

Theorem inverse_correct : forall m n, m_inverse m = Some n -> inverses m n.
Proof.
  intros m n; unfold m_inverse, flt_equal.
  destruct (Rle_dec (Rabs (m_det m - 0)) (/ 100000)) as [L | G]; [discriminate |].
  intro E; injection E as <-.
  assert (D : m_det m <> 0).
  { intro Z; apply G; rewrite Z, Rminus_0_r, Rabs_R0; lra. }
  set (d := m_det m) in *.
  exists m_identity; split; [exact identity_is |].
  split; intros i j I J; rewrite identity_is by assumption; unfold sum4.
  - pose proof (adj_right m i j I J) as A; unfold sum4 in A; fold d in A.
    rewrite !times_entry.
    transitivity ((if Nat.eqb i j then d else 0) * (1 / d)); [destruct (Nat.eqb i j); field; exact D | rewrite <- A; ring].
  - pose proof (adj_left m i j I J) as A; unfold sum4 in A; fold d in A.
    rewrite !times_entry.
    transitivity ((if Nat.eqb i j then d else 0) * (1 / d)); [destruct (Nat.eqb i j); field; exact D | rewrite <- A; ring].
Qed.
Print Assumptions inverse_correct.

(* failure is exactly a determinant within 1e-5 of zero *)
Theorem inverse_fails : forall m, m_inverse m = None <-> Rabs (determinant m) <= / 100000.
Proof.
  intro m; unfold m_inverse, flt_equal; rewrite det_is_determinant, Rminus_0_r.
  destruct (Rle_dec (Rabs (determinant m)) (/ 100000)); split; intro H; try discriminate; try reflexivity; auto; contradiction.
Qed.
Print Assumptions inverse_fails.
Example inverse_ex : determinant (m_scale (RV 2 3 5)) = 30 /\ ~ Rabs (determinant (m_scale (RV 2 3 5))) <= / 100000.
Proof.
  assert (E : determinant (m_scale (RV 2 3 5)) = 30) by (rewrite <- det_is_determinant; unfold m_det, m_adj, m_scale; cbn; ring).
  split; [exact E | rewrite E, Rabs_right by lra; lra].
Qed.

(* C97.  A matrix scaling everything by 0.02 has an inverse, yet the inversion fails: the
   threshold is on the determinant, the cube of the scale. *)
Theorem small_scale_refuted : forall s, 0 < s -> s <= 2 / 100 ->
  (exists n, inverses (m_scale (RV s s s)) n) /\ m_inverse (m_scale (RV s s s)) = None /\
  a_to_obj (make_asset (m_scale (RV s s s))) = None.
Proof.
  intros s S0 S1.
  assert (E : m_inverse (m_scale (RV s s s)) = None).
  { apply inverse_fails; rewrite <- det_is_determinant.
    replace (m_det (m_scale (RV s s s))) with (s * s * s) by (unfold m_det, m_adj, m_scale; cbn; ring).
    assert (0 < s * s) by (apply Rmult_lt_0_compat; lra).
    assert (s * s <= 2 / 100 * (2 / 100)) by (apply Rmult_le_compat; lra).
    assert (s * s * s <= 2 / 100 * (2 / 100) * (2 / 100)) by (apply Rmult_le_compat; lra).
    assert (0 < s * s * s) by (apply Rmult_lt_0_compat; lra).
    rewrite Rabs_right by lra; lra. }
  split; [| split; [exact E | exact E]].
  exists (m_scale (RV (/ s) (/ s) (/ s))), m_identity; split; [exact identity_is |].
  split; entries; cbn; try ring; field; lra.
Qed.
Print Assumptions small_scale_refuted.

(* C41. *)
Theorem mul_affine : forall a b, affine a -> affine b -> affine (m_mul a b).
Proof.
  intros a b (A0 & A1 & A2 & A3) (B0 & B1 & B2 & B3); unfold affine, m_mul; cbn [m30 m31 m32 m33].
  rewrite A0, A1, A2, A3, B0, B1, B2, B3; repeat split; ring.
Qed.

Lemma point_affine : forall m p, affine m ->
  m_point m p = RV (m00 m * rx p + m01 m * ry p + m02 m * rz p + m03 m)
                   (m10 m * rx p + m11 m * ry p + m12 m * rz p + m13 m)
                   (m20 m * rx p + m21 m * ry p + m22 m * rz p + m23 m).
Proof.
  intros m p (A0 & A1 & A2 & A3); unfold m_point; rewrite A0, A1, A2, A3.
  destruct (Req_EM_T (0 * rx p + 0 * ry p + 0 * rz p + 1) 1) as [E | N]; [reflexivity | exfalso; apply N; ring].
Qed.

Theorem compose_point : forall a b p, affine a -> affine b -> m_point (m_mul a b) p = m_point a (m_point b p).
Proof.
  intros a b p A B; rewrite !point_affine by (try apply mul_affine; assumption).
  destruct B as (B0 & B1 & B2 & B3).
  unfold m_mul; cbn [m00 m01 m02 m03 m10 m11 m12 m13 m20 m21 m22 m23 rx ry rz]; rewrite B0, B1, B2, B3; f_equal; ring.
Qed.
Print Assumptions compose_point.

Theorem compose_vec : forall a b v, affine b -> m_vec (m_mul a b) v = m_vec a (m_vec b v).
Proof.
  intros a b v (B0 & B1 & B2 & B3).
  unfold m_vec, m_mul; cbn [m00 m01 m02 m03 m10 m11 m12 m13 m20 m21 m22 m23 rx ry rz]; rewrite B0, B1, B2; f_equal; ring.
Qed.
Print Assumptions compose_vec.

Theorem compose_ray : forall a b r, affine a -> affine b -> m_ray (m_mul a b) r = m_ray a (m_ray b r).
Proof. intros a b r A B; unfold m_ray; cbn; rewrite compose_point, compose_vec by assumption; reflexivity. Qed.
Print Assumptions compose_ray.

Theorem transform_ray_parameter : forall m r t, affine m -> m_point m (rr_apply r t) = rr_apply (m_ray m r) t.
Proof.
  intros m r t A; rewrite point_affine by exact A; unfold m_ray, rr_apply, m_vec; cbn [r_org r_dir].
  rewrite point_affine by exact A; cbn [rx ry rz]; f_equal; ring.
Qed.
Print Assumptions transform_ray_parameter.

Theorem config_affine : forall position rotation scale, affine (config_transform position rotation scale).
Proof.
  intros; unfold config_transform; repeat apply mul_affine; unfold affine; cbn; repeat split; ring.
Qed.
Print Assumptions config_affine.
Example compose_ex : affine (config_transform (RV 1 2 3) (RV 0 1 0) (RV 2 2 2)) /\ affine (m_rotate_x PI).
Proof. split; [apply config_affine | unfold affine; cbn; repeat split; ring]. Qed.

(* C98.  What a transform read from the configuration does: scale, then turn about x, y and z,
   then move; the turns keep lengths and angles, and the scale can be read back. *)
Theorem config_order : forall position rotation scale p,
  m_point (config_transform position rotation scale) p =
  radd (m_vec (m_rotate_z (rz rotation)) (m_vec (m_rotate_y (ry rotation)) (m_vec (m_rotate_x (rx rotation))
         (RV (rx scale * rx p) (ry scale * ry p) (rz scale * rz p))))) position.
Proof.
  assert (AX : forall a, affine (m_rotate_x a)) by (intro; unfold affine; cbn; repeat split; ring).
  assert (AY : forall a, affine (m_rotate_y a)) by (intro; unfold affine; cbn; repeat split; ring).
  assert (AZ : forall a, affine (m_rotate_z a)) by (intro; unfold affine; cbn; repeat split; ring).
  assert (AS : forall a, affine (m_scale a)) by (intro; unfold affine; cbn; repeat split; ring).
  assert (AT : forall a, affine (m_translation a)) by (intro; unfold affine; cbn; repeat split; ring).
  assert (LIN : forall m v, affine m -> m03 m = 0 -> m13 m = 0 -> m23 m = 0 -> m_point m v = m_vec m v).
  { intros m v A E0 E1 E2; rewrite point_affine, E0, E1, E2 by exact A; unfold m_vec; rewrite !Rplus_0_r; reflexivity. }
  intros position rotation scale p; unfold config_transform.
  rewrite !compose_point by repeat first [apply AX | apply AY | apply AZ | apply AS | apply AT | apply mul_affine].
  rewrite (LIN (m_scale scale)), (LIN (m_rotate_x _)), (LIN (m_rotate_y _)), (LIN (m_rotate_z _))
    by first [apply AX | apply AY | apply AZ | apply AS | reflexivity].
  replace (m_vec (m_scale scale) p) with (RV (rx scale * rx p) (ry scale * ry p) (rz scale * rz p)).
  2: { unfold m_vec, m_scale; cbn [m00 m01 m02 m10 m11 m12 m20 m21 m22]; apply rv_eq; cbn [rx ry rz]; ring. }
  generalize (m_vec (m_rotate_z (rz rotation)) (m_vec (m_rotate_y (ry rotation)) (m_vec (m_rotate_x (rx rotation))
         (RV (rx scale * rx p) (ry scale * ry p) (rz scale * rz p))))); intro v.
  rewrite point_affine by apply AT; unfold radd, m_translation; cbn [m00 m01 m02 m03 m10 m11 m12 m13 m20 m21 m22 m23].
  apply rv_eq; cbn [rx ry rz]; ring.
Qed.
Print Assumptions config_order.

Lemma sc1 : forall a, sin a * sin a = 1 - cos a * cos a.
Proof. intro a; pose proof (sin2_cos2 a) as H; unfold Rsqr in H; lra. Qed.

Theorem rotations_keep_dot : forall a,
  keeps_dot (m_vec (m_rotate_x a)) /\ keeps_dot (m_vec (m_rotate_y a)) /\ keeps_dot (m_vec (m_rotate_z a)).
Proof.
  intro a; pose proof (sc1 a) as H; split; [| split]; intros v w; unfold rdot, m_vec, m_rotate_x, m_rotate_y, m_rotate_z;
    cbn [m00 m01 m02 m10 m11 m12 m20 m21 m22 rx ry rz]; revert H; generalize (sin a), (cos a); intros s c H.
  - transitivity (rx v * rx w + (s * s + c * c) * (ry v * ry w + rz v * rz w)); [ring | rewrite H; ring].
  - transitivity (ry v * ry w + (s * s + c * c) * (rx v * rx w + rz v * rz w)); [ring | rewrite H; ring].
  - transitivity (rz v * rz w + (s * s + c * c) * (rx v * rx w + ry v * ry w)); [ring | rewrite H; ring].
Qed.
Print Assumptions rotations_keep_dot.

Lemma config_vec : forall position rotation scale v,
  m_vec (config_transform position rotation scale) v =
  m_vec (m_rotate_z (rz rotation)) (m_vec (m_rotate_y (ry rotation)) (m_vec (m_rotate_x (rx rotation))
         (RV (rx scale * rx v) (ry scale * ry v) (rz scale * rz v)))).
Proof.
  assert (AX : forall a, affine (m_rotate_x a)) by (intro; unfold affine; cbn; repeat split; ring).
  assert (AY : forall a, affine (m_rotate_y a)) by (intro; unfold affine; cbn; repeat split; ring).
  assert (AZ : forall a, affine (m_rotate_z a)) by (intro; unfold affine; cbn; repeat split; ring).
  assert (AS : forall a, affine (m_scale a)) by (intro; unfold affine; cbn; repeat split; ring).
  intros position rotation scale v; unfold config_transform.
  rewrite !compose_vec by repeat first [apply AX | apply AY | apply AZ | apply AS | apply mul_affine].
  replace (m_vec (m_scale scale) v) with (RV (rx scale * rx v) (ry scale * ry v) (rz scale * rz v)).
  2: { unfold m_vec, m_scale; cbn [m00 m01 m02 m10 m11 m12 m20 m21 m22]; apply rv_eq; cbn [rx ry rz]; ring. }
  generalize (m_vec (m_rotate_z (rz rotation)) (m_vec (m_rotate_y (ry rotation)) (m_vec (m_rotate_x (rx rotation))
         (RV (rx scale * rx v) (ry scale * ry v) (rz scale * rz v))))); intro w.
  unfold m_vec, m_translation; cbn [m00 m01 m02 m03 m10 m11 m12 m13 m20 m21 m22 m23].
  apply rv_eq; cbn [rx ry rz]; ring.
Qed.

Theorem config_scale : forall position rotation scale,
  m_get_scale (config_transform position rotation scale) = RV (Rabs (rx scale)) (Rabs (ry scale)) (Rabs (rz scale)) /\
  m_get_translation (config_transform position rotation scale) = position.
Proof.
  intros p r s; set (m := config_transform p r s).
  assert (COL : forall v, rlength (m_vec m v) = rlength (RV (rx s * rx v) (ry s * ry v) (rz s * rz v))).
  { intro v; unfold m; rewrite config_vec; unfold rlength.
    rewrite (proj2 (proj2 (rotations_keep_dot _))), (proj1 (proj2 (rotations_keep_dot _))), (proj1 (rotations_keep_dot _)); reflexivity. }
  assert (SQ : forall k a, rdot a a = k * k -> rlength a = Rabs k).
  { intros k a E; unfold rlength; rewrite E; replace (k * k) with (Rsqr k) by reflexivity; apply sqrt_Rsqr_abs. }
  assert (C0 : RV (m00 m) (m10 m) (m20 m) = m_vec m (RV 1 0 0)) by (apply rv_eq; unfold m_vec; cbn [rx ry rz]; ring).
  assert (C1 : RV (m01 m) (m11 m) (m21 m) = m_vec m (RV 0 1 0)) by (apply rv_eq; unfold m_vec; cbn [rx ry rz]; ring).
  assert (C2 : RV (m02 m) (m12 m) (m22 m) = m_vec m (RV 0 0 1)) by (apply rv_eq; unfold m_vec; cbn [rx ry rz]; ring).
  split.
  - unfold m_get_scale; rewrite C0, C1, C2, !COL; apply rv_eq; cbn [rx ry rz]; apply SQ; unfold rdot; cbn [rx ry rz]; ring.
  - assert (T : m_get_translation m = m_point m (RV 0 0 0)).
    { rewrite point_affine by apply config_affine; unfold m_get_translation; apply rv_eq; cbn [rx ry rz]; ring. }
    rewrite T; unfold m; rewrite config_order; apply rv_eq; unfold radd, m_vec; cbn [rx ry rz];  ring.
Qed.
Print Assumptions config_scale.

(* ----- assets ----- *)

Lemma inverse_affine : forall m n, affine m -> m_inverse m = Some n -> affine n.
Proof.
  intros m n (A0 & A1 & A2 & A3); unfold m_inverse, flt_equal.
  destruct (Rle_dec (Rabs (m_det m - 0)) (/ 100000)) as [L | G]; [discriminate |].
  intro E; injection E as <-.
  assert (D : m_det m <> 0) by (intro Z; apply G; rewrite Z, Rminus_0_r, Rabs_R0; lra).
  assert (D1 : m33 (m_adj m) = m_det m).
  { unfold m_det, m_adj; cbn [m00 m10 m20 m30 m33]; rewrite A0, A1, A2, A3; ring. }
  assert (E0 : m30 (m_adj m) = 0) by (unfold m_adj; cbn [m30]; rewrite A0, A1, A2; ring).
  assert (E1 : m31 (m_adj m) = 0) by (unfold m_adj; cbn [m31]; rewrite A0, A1, A2; ring).
  assert (E2 : m32 (m_adj m) = 0) by (unfold m_adj; cbn [m32]; rewrite A0, A1, A2; ring).
  unfold affine, m_times; cbn [m30 m31 m32 m33]; rewrite E0, E1, E2, D1; repeat split; field; exact D.
Qed.

Lemma identity_point : forall p, m_point m_identity p = p.
Proof. intro p; rewrite point_affine by (unfold affine; cbn; repeat split; ring); destruct p; apply rv_eq; cbn; ring. Qed.
Lemma identity_vec : forall p, m_vec m_identity p = p.
Proof. intro p; destruct p; apply rv_eq; cbn; ring. Qed.

Lemma inverse_undoes : forall m n, affine m -> m_inverse m = Some n ->
  (forall p, m_point m (m_point n p) = p) /\ (forall p, m_point n (m_point m p) = p) /\
  (forall v, m_vec m (m_vec n v) = v) /\ (forall v, m_vec n (m_vec m v) = v).
Proof.
  intros m n A E; pose proof (inverse_affine m n A E) as B.
  destruct (inverse_correct m n E) as (e & I & P & Q).
  apply product_mul in P; apply product_mul in Q; apply is_identity_eq in I; subst e.
  split; [| split; [| split]]; intro p.
  - rewrite <- compose_point, <- P, identity_point by assumption; reflexivity.
  - rewrite <- compose_point, <- Q, identity_point by assumption; reflexivity.
  - rewrite <- compose_vec, <- P, identity_vec by assumption; reflexivity.
  - rewrite <- compose_vec, <- Q, identity_vec by assumption; reflexivity.
Qed.

(* C99.  An asset reports the hit of its shape: in world space the point lies on the ray at
   the reported distance times the direction, and the normal is perpendicular to the image of
   every direction perpendicular to the normal of the shape. *)
Theorem asset_hit_world : forall m n shape r h,
  affine m -> m_inverse m = Some n ->
  (forall q k, shape q = Some k -> rh_point k = rr_apply q (rh_dist k)) ->
  asset_hit m n shape r = Some h ->
  exists k, shape (m_ray n r) = Some k /\ rh_dist h = rh_dist k /\ rh_point h = rr_apply r (rh_dist h) /\
    m_point n (rh_point h) = rh_point k /\
    forall v, rdot (rh_normal k) v = 0 -> rdot (rh_normal h) (m_vec m v) = 0.
Proof.
  intros m n shape r h A I S H; unfold asset_hit in H.
  destruct (shape (m_ray n r)) as [k |] eqn:E; [| discriminate]; injection H as <-.
  pose proof (inverse_affine m n A I) as B.
  destruct (inverse_undoes m n A I) as (P1 & P2 & V1 & V2).
  exists k; cbn [rh_dist rh_point rh_normal]; split; [reflexivity | split; [reflexivity |]].
  split; [| split].
  - rewrite (S _ _ E), <- transform_ray_parameter by exact B; apply P1.
  - apply P2.
  - intros v O.
    assert (T : rdot (transform_normal (rh_normal k) n) (m_vec m v) = rdot (rh_normal k) (m_vec n (m_vec m v))).
    { generalize (m_vec m v); intro w; unfold transform_normal, m_vec, rdot; cbn [rx ry rz]; ring. }
    rewrite V2, O in T.
    assert (SC : forall a w, rdot a w = 0 -> rdot (rnormalize a) w = 0).
    { intros a w Z; unfold rnormalize; destruct (Rlt_dec _ _); [destruct (Rlt_dec _ _); [exact Z |] |];
        rewrite rdot_scale_l, Z; ring. }
    apply SC, T.
Qed.
Print Assumptions asset_hit_world.
(* a mirrored plane z = 0 in its own space, scaled and moved *)
Example asset_hit_ex :
  let m := RM 2 0 0 0 0 3 0 0 0 0 4 5 0 0 0 1 in
  let shape := fun q => Some (mk_rhit 1 (rr_apply q 1) (RV 0 0 1) (RV 1 0 0) (RV 0 1 0)) in
  affine m /\ (exists n, m_inverse m = Some n) /\
  (forall q k, shape q = Some k -> rh_point k = rr_apply q (rh_dist k)).
Proof.
  cbn zeta; split; [unfold affine; cbn; repeat split; ring | split].
  - destruct (m_inverse (RM 2 0 0 0 0 3 0 0 0 0 4 5 0 0 0 1)) as [n |] eqn:E; [exists n; reflexivity |].
    apply inverse_fails in E; rewrite <- det_is_determinant in E.
    replace (m_det (RM 2 0 0 0 0 3 0 0 0 0 4 5 0 0 0 1)) with 24 in E by (unfold m_det, m_adj; cbn; ring).
    rewrite Rabs_right in E by lra; lra.
  - intros q k E; injection E as <-; reflexivity.
Qed.

(* C100.  mul with its output on the first input does not compute the product: with the
   first input the identity it already goes wrong, for every matrix with a non-zero m00-1
   and m01. *)
Theorem mul_onto_first_refuted : forall b, (m00 b - 1) * m01 b <> 0 ->
  mul_onto_first m_identity b <> m_mul m_identity b.
Proof.
  intros b N E.
  assert (E1 : m01 (mul_onto_first m_identity b) = m01 (m_mul m_identity b)) by (rewrite E; reflexivity).
  unfold mul_onto_first, mul_row, m_mul, m_identity in E1; cbn [m00 m01 m02 m03 m10 m11 m12 m13 m20 m21 m22 m23 m30 m31 m32 m33] in E1.
  apply N; lra.
Qed.
Print Assumptions mul_onto_first_refuted.
Example mul_onto_first_ex : (m00 (m_rotate_z (PI / 2)) - 1) * m01 (m_rotate_z (PI / 2)) <> 0.
Proof. cbn; rewrite cos_PI2, sin_PI2; lra. Qed.

(* C101.  transform_normal keeps normals normal; transforming them as vectors does not. *)
Theorem transform_normal_perpendicular : forall m n nor v, affine m -> m_inverse m = Some n ->
  rdot nor v = 0 <-> rdot (transform_normal nor n) (m_vec m v) = 0.
Proof.
  intros m n nor v A I; destruct (inverse_undoes m n A I) as (_ & _ & _ & V2).
  assert (T : rdot (transform_normal nor n) (m_vec m v) = rdot nor (m_vec n (m_vec m v))).
  { generalize (m_vec m v); intro w; unfold transform_normal, m_vec, rdot; cbn [rx ry rz]; ring. }
  rewrite T, V2; tauto.
Qed.
Print Assumptions transform_normal_perpendicular.
Example transform_normal_ex : affine (m_scale (RV 1 2 1)) /\ rdot (RV 1 1 0) (RV 1 (-1) 0) = 0 /\
  rdot (m_vec (m_scale (RV 1 2 1)) (RV 1 1 0)) (m_vec (m_scale (RV 1 2 1)) (RV 1 (-1) 0)) <> 0.
Proof. unfold affine, rdot, m_vec, m_scale; cbn; repeat split; lra. Qed.
