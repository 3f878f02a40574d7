(* C52, C113-C120: cameras. *)
From Coq Require Import Reals Lra List Lia.
From Verif Require Import RVecModel RVecProps MatModel MatSpec MatProps CamModel CamSpec.
Import ListNotations.
Local Open Scope R_scope.

Lemma dot_pos : forall a, a <> RV 0 0 0 -> 0 < rdot a a.
Proof.
  intros [x y z] N; unfold rdot; cbn [rx ry rz].
  pose proof (Rle_0_sqr x); pose proof (Rle_0_sqr y); pose proof (Rle_0_sqr z); unfold Rsqr in *.
  destruct (Req_dec (x * x + y * y + z * z) 0) as [E | E]; [| lra].
  exfalso; apply N.
  assert (X : x * x = 0) by lra; assert (Y : y * y = 0) by lra; assert (Z : z * z = 0) by lra.
  apply Rmult_integral in X; apply Rmult_integral in Y; apply Rmult_integral in Z.
  apply rv_eq; cbn; tauto.
Qed.

Lemma normalize_dir : forall a, a <> RV 0 0 0 ->
  exists k, 0 < k /\ rnormalize a = rscale k a /\ close1 (/ 100000) (k * k * rdot a a).
Proof.
  intros a N; pose proof (dot_pos a N) as P; unfold rnormalize, close1.
  assert (S : 0 < sqrt (rdot a a)) by (apply sqrt_lt_R0; exact P).
  assert (ID : a = rscale 1 a) by (destruct a; apply rv_eq; cbn; ring).
  assert (G : exists k, 0 < k /\ rscale (/ sqrt (rdot a a)) a = rscale k a /\
     1 - / 100000 <= k * k * rdot a a <= 1 + / 100000).
  { exists (/ sqrt (rdot a a)); split; [apply Rinv_0_lt_compat; exact S |]; split; [reflexivity |].
    assert (E : / sqrt (rdot a a) * / sqrt (rdot a a) * rdot a a = 1).
    { rewrite <- (sqrt_sqrt (rdot a a)) at 3 by lra; field; lra. }
    rewrite E; lra. }
  destruct (Rlt_dec (1 - / 100000) (rdot a a)) as [L | L]; [| exact G].
  destruct (Rlt_dec (rdot a a) (1 + / 100000)) as [M | M]; [| exact G].
  exists 1; split; [lra |]; split; [exact ID |]; rewrite !Rmult_1_l; lra.
Qed.

(* C52.  The camera frame: the camera looks from the position towards the target, its three
   axes are perpendicular and of length one up to the 1e-5 that normalize tolerates, the image
   is upright with respect to the up vector and not mirrored (positive determinant). *)
Theorem camera_frame : forall pos eye up, eye <> pos -> rcross up (rsub eye pos) <> RV 0 0 0 ->
  let m := look_at pos eye up in
  affine m /\ m_point m (RV 0 0 0) = pos /\
  same_direction (axis_away m) (rsub eye pos) /\
  same_direction (axis_right m) (rcross up (rsub eye pos)) /\
  0 < rdot (axis_up m) up /\
  rdot (axis_right m) (axis_up m) = 0 /\ rdot (axis_right m) (axis_away m) = 0 /\ rdot (axis_up m) (axis_away m) = 0 /\
  close1 (/ 100000) (rdot (axis_away m) (axis_away m)) /\
  close1 (/ 100000) (rdot (axis_right m) (axis_right m)) /\
  close1 (/ 40000) (rdot (axis_up m) (axis_up m)) /\
  0 < rdot (rcross (axis_right m) (axis_up m)) (axis_away m).
Proof.
  intros pos eye up NE NU m.
  assert (ND : rsub eye pos <> RV 0 0 0).
  { intro E; apply NE; destruct eye, pos; unfold rsub in E; cbn in E; injection E; intros; apply rv_eq; cbn; lra. }
  assert (NUP : up <> RV 0 0 0).
  { intro E; apply NU; rewrite E; unfold rcross; cbn; apply rv_eq; cbn; ring. }
  set (D := rsub eye pos) in *.
  destruct (normalize_dir up NUP) as (ku & KU & EU & _).
  destruct (normalize_dir D ND) as (kd & KD & ED & CD).
  assert (CR : rcross (rnormalize up) (rnormalize D) = rscale (ku * kd) (rcross up D)).
  { rewrite EU, ED; unfold rcross, rscale; cbn; apply rv_eq; cbn; ring. }
  assert (KK : 0 < ku * kd) by (apply Rmult_lt_0_compat; assumption).
  assert (NL : rscale (ku * kd) (rcross up D) <> RV 0 0 0).
  { intro E; apply NU; destruct (rcross up D) as [x y z]; unfold rscale in E; cbn in E; injection E; intros Z Y X.
    apply rv_eq; cbn; apply (Rmult_eq_reg_l (ku * kd)); lra. }
  destruct (normalize_dir _ NL) as (kl & KL & EL & CL).
  set (C := rcross up D) in *.
  assert (M : m = RM (kl * (ku * kd) * rx C) (kd * kl * (ku * kd) * (ry D * rz C - rz D * ry C)) (kd * rx D) (rx pos)
                     (kl * (ku * kd) * ry C) (kd * kl * (ku * kd) * (rz D * rx C - rx D * rz C)) (kd * ry D) (ry pos)
                     (kl * (ku * kd) * rz C) (kd * kl * (ku * kd) * (rx D * ry C - ry D * rx C)) (kd * rz D) (rz pos)
                     0 0 0 1).
  { unfold m, look_at; fold D; rewrite CR, EL, ED.
    apply rmat_ext; intros [|[|[|[|i]]]] [|[|[|[|j]]]] I J; try (exfalso; lia);
      cbn [entry m00 m01 m02 m03 m10 m11 m12 m13 m20 m21 m22 m23 m30 m31 m32 m33 rscale rcross rx ry rz]; ring. }
  assert (R : axis_right m = rscale (kl * (ku * kd)) C) by (rewrite M; unfold axis_right, m_vec, rscale; cbn; apply rv_eq; cbn; ring).
  assert (A : axis_away m = rscale kd D) by (rewrite M; unfold axis_away, m_vec, rscale; cbn; apply rv_eq; cbn; ring).
  assert (U : axis_up m = rscale (kd * (kl * (ku * kd))) (rcross D C)) by (rewrite M; unfold axis_up, m_vec, rscale, rcross; cbn; apply rv_eq; cbn; ring).
  assert (SC : forall k v w, rdot (rscale k v) w = k * rdot v w) by (intros; unfold rdot, rscale; cbn; ring).
  assert (SC2 : forall k v w, rdot v (rscale k w) = k * rdot v w) by (intros; unfold rdot, rscale; cbn; ring).
  assert (CD0 : rdot C D = 0) by (unfold C, rdot, rcross; cbn; ring).
  assert (K1 : 0 < kl * (ku * kd)) by (apply Rmult_lt_0_compat; assumption).
  assert (K2 : 0 < kd * (kl * (ku * kd))) by (apply Rmult_lt_0_compat; assumption).
  assert (UL : rdot (axis_up m) (axis_up m) = (kd * kd * rdot D D) * (kl * kl * rdot (rscale (ku * kd) C) (rscale (ku * kd) C))).
  { rewrite U, !SC, !SC2.
    assert (LAG : rdot (rcross D C) (rcross D C) = rdot D D * rdot C C - rdot C D * rdot C D) by (unfold rdot, rcross; cbn; ring).
    rewrite LAG, CD0; ring. }
  split; [rewrite M; unfold affine; cbn; auto |].
  split; [rewrite point_affine by (rewrite M; unfold affine; cbn; auto); rewrite M; apply rv_eq; cbn [m00 m01 m02 m03 m10 m11 m12 m13 m20 m21 m22 m23 rx ry rz]; ring |].
  split; [exists kd; split; assumption |].
  split; [exists (kl * (ku * kd)); split; [assumption | exact R] |].
  split.
  { rewrite U, SC; apply Rmult_lt_0_compat; [exact K2 |].
    assert (E : rdot (rcross D C) up = rdot C C) by (unfold C, rdot, rcross; cbn; ring).
    rewrite E; apply dot_pos; exact NU. }
  split; [rewrite R, U, SC, SC2; replace (rdot C (rcross D C)) with 0 by (unfold rdot, rcross; cbn; ring); ring |].
  split; [rewrite R, A, SC, SC2, CD0; ring |].
  split; [rewrite U, A, SC, SC2; replace (rdot (rcross D C) D) with 0 by (unfold rdot, rcross; cbn; ring); ring |].
  split; [rewrite A, SC, SC2; replace (kd * (kd * rdot D D)) with (kd * kd * rdot D D) by ring; exact CD |].
  split.
  { rewrite R, SC, SC2. rewrite SC, SC2 in CL.
    replace (kl * (ku * kd) * (kl * (ku * kd) * rdot C C)) with (kl * kl * (ku * kd * (ku * kd * rdot C C))) by ring; exact CL. }
  split.
  { rewrite UL; unfold close1 in *; set (p := kd * kd * rdot D D) in *; set (q := kl * kl * rdot _ _) in *; clearbody p q.
    clear - CD CL; split.
    - assert ((1 - / 100000) * (1 - / 100000) <= p * q) by (apply Rmult_le_compat; lra). lra.
    - assert (p * q <= (1 + / 100000) * (1 + / 100000)) by (apply Rmult_le_compat; lra). lra. }
  rewrite R, U, A.
  assert (E : rdot (rcross (rscale (kl * (ku * kd)) C) (rscale (kd * (kl * (ku * kd))) (rcross D C))) (rscale kd D) =
     kl * (ku * kd) * (kd * (kl * (ku * kd))) * kd * (rdot C C * rdot D D - rdot C D * rdot C D)) by (unfold rdot, rcross, rscale; cbn; ring).
  rewrite E, CD0.
  pose proof (dot_pos C NU); pose proof (dot_pos D ND).
  apply Rmult_lt_0_compat; [apply Rmult_lt_0_compat; [apply Rmult_lt_0_compat |] |]; try assumption.
  assert (0 < rdot C C * rdot D D) by (apply Rmult_lt_0_compat; assumption); lra.
Qed.
Print Assumptions camera_frame.
Example camera_frame_ex : RV 1 2 3 <> RV 0 0 0 /\ rcross (RV 0 2 0) (rsub (RV 1 2 3) (RV 0 0 0)) <> RV 0 0 0.
Proof. split; intro H; unfold rcross, rsub in H; cbn in H; injection H; intros; lra. Qed.

(* ----- perspective ----- *)

Lemma screen_ok : forall w h x y, 0 < w -> 0 < h ->
  let b := bounds_of w h in
  (b_x1 b - b_x0 b) / w * x + b_x0 b = screen_x w h x /\
  (b_y0 b - b_y1 b) / h * y + b_y1 b = screen_y w h y.
Proof.
  intros w h x y W H; unfold bounds_of, screen_x, screen_y.
  destruct (Rlt_dec 1 (w / h)) as [L | L]; cbn [b_x0 b_x1 b_y0 b_y1].
  - assert (HW : h < w).
    { apply (Rmult_lt_compat_r h) in L; [| exact H]. replace (w / h * h) with w in L by (field; lra). lra. }
    rewrite Rmin_right by lra; split; field; lra.
  - assert (HW : w <= h).
    { apply Rnot_lt_le; intro C; apply L; apply (Rmult_lt_reg_r h); [exact H |].
      replace (w / h * h) with w by (field; lra); lra. }
    rewrite Rmin_left by lra; split; field; lra.
Qed.

Lemma frustum_det : forall a A B, m_det (RM a 0 0 0 0 a 0 0 0 0 A B 0 0 1 0) = - (a * a * B).
Proof. intros; unfold m_det, m_adj; cbn [m00 m01 m02 m03 m10 m11 m12 m13 m20 m21 m22 m23 m30 m31 m32 m33]; ring. Qed.
Lemma frustum_inverse : forall a A B, a <> 0 -> B <> 0 -> / 100000 < Rabs (- (a * a * B)) ->
  m_inverse (RM a 0 0 0 0 a 0 0 0 0 A B 0 0 1 0) = Some (RM (1 / a) 0 0 0 0 (1 / a) 0 0 0 0 0 1 0 0 (1 / B) (- (A / B))).
Proof.
  intros a A B A0 B0 D; unfold m_inverse, flt_equal; rewrite frustum_det, Rminus_0_r.
  destruct (Rle_dec (Rabs _) _) as [C | C]; [lra |]; clear C D.
  apply f_equal; apply rmat_ext; intros [|[|[|[|i]]]] [|[|[|[|j]]]] I J; try (exfalso; lia);
    unfold m_times, m_adj;
    cbn [entry m00 m01 m02 m03 m10 m11 m12 m13 m20 m21 m22 m23 m30 m31 m32 m33]; field; auto.
Qed.
Lemma plane_ratio : - far_plane * near_plane / (far_plane - near_plane) = - (1000 / 99999) /\
  - (far_plane / (far_plane - near_plane) / (- far_plane * near_plane / (far_plane - near_plane))) = 100.
Proof. unfold far_plane, near_plane; split; field; lra. Qed.

Lemma persp_matrix : forall fov, tan (fov / 2) <> 0 -> tan (fov / 2) * tan (fov / 2) < 1000 ->
  exists q, m_inverse (camera2screen fov) =
    Some (RM (tan (fov / 2)) 0 0 0
             0 (tan (fov / 2)) 0 0
             0 0 0 1
             0 0 q 100).
Proof.
  intros fov T0 T1; unfold camera2screen; set (T := tan (fov / 2)) in *; clearbody T; cbn zeta.
  destruct plane_ratio as (PB & PAB).
  set (A := far_plane / (far_plane - near_plane)) in *; set (B := - far_plane * near_plane / (far_plane - near_plane)) in *.
  clearbody A B; exists (1 / B).
  assert (TT : 0 < T * T) by (pose proof (Rsqr_pos_lt T T0) as S; unfold Rsqr in S; exact S).
  rewrite frustum_inverse.
  - rewrite PAB; replace (1 / (1 / T)) with T by (field; exact T0); reflexivity.
  - unfold Rdiv; rewrite Rmult_1_l; apply Rinv_neq_0_compat; exact T0.
  - lra.
  - replace (- (1 / T * (1 / T) * B)) with ((- B) * / (T * T)) by (field; exact T0).
    assert (I : / 1000 < / (T * T)) by (apply Rinv_lt_contravar; [apply Rmult_lt_0_compat; lra | exact T1]).
    assert (J : 1000 / 99999 * / 1000 < - B * / (T * T)) by (rewrite PB, Ropp_involutive; apply Rmult_lt_compat_l; lra).
    set (v := / (T * T)) in *; clearbody v; assert (P : 0 < - B * v) by lra.
    rewrite Rabs_right by (apply Rle_ge, Rlt_le, P); lra.
Qed.

Lemma frustum_point : forall T q c k x0 l y0 x y, c <> 0 -> c <> 1 ->
  m_point (m_mul (m_mul m_identity (RM T 0 0 0 0 T 0 0 0 0 0 1 0 0 q c)) (RM k 0 0 x0 0 l 0 y0 0 0 1 0 0 0 0 1)) (RV x y 0) =
  RV (/ c * ((k * x + x0) * T)) (/ c * ((l * y + y0) * T)) (/ c).
Proof.
  intros T q c k x0 l y0 x y C0 C1; rewrite (proj2 (mul_identity _)); unfold m_point.
  unfold m_mul; cbn [m00 m01 m02 m03 m10 m11 m12 m13 m20 m21 m22 m23 m30 m31 m32 m33 rx ry rz].
  match goal with |- context [Req_EM_T ?d 1] => replace d with c by ring end.
  destruct (Req_EM_T c 1) as [C | C]; [contradiction |].
  apply rv_eq; cbn [rx ry rz]; field; exact C0.
Qed.

Lemma persp_point : forall w h fov r2c x y, 0 < w -> 0 < h ->
  tan (fov / 2) <> 0 -> tan (fov / 2) * tan (fov / 2) < 1000 -> perspective w h fov = Some r2c ->
  m_point r2c (RV x y 0) =
  RV (/ 100 * (screen_x w h x * tan (fov / 2))) (/ 100 * (screen_y w h y * tan (fov / 2))) (/ 100).
Proof.
  intros w h fov r2c x y W H T0 T1 E; destruct (persp_matrix fov T0 T1) as (q & I).
  unfold perspective in E; rewrite I in E; injection E as <-.
  destruct (screen_ok w h x y W H) as (SX & SY).
  rewrite <- SX, <- SY; unfold raster2screen; cbn zeta; rewrite frustum_point by lra; reflexivity.
Qed.

Lemma persp_some : forall w h fov, tan (fov / 2) <> 0 -> tan (fov / 2) * tan (fov / 2) < 1000 ->
  exists r2c, perspective w h fov = Some r2c.
Proof.
  intros w h fov T0 T1; destruct (persp_matrix fov T0 T1) as (q & I); unfold perspective; rewrite I; eexists; reflexivity.
Qed.

(* C113.  Every raster position of a perspective camera sees along the ray through its place
   on the screen at distance one, with the shorter side of the image spanning fov (in
   radians). *)
Theorem perspective_ray : forall w h fov c2w, 0 < w -> 0 < h ->
  tan (fov / 2) <> 0 -> tan (fov / 2) * tan (fov / 2) < 1000 ->
  exists r2c, perspective w h fov = Some r2c /\ forall x y,
  r_org (persp_ray c2w r2c x y) = m_point c2w (RV 0 0 0) /\
  let d := RV (screen_x w h x * tan (fov / 2)) (screen_y w h y * tan (fov / 2)) 1 in
  exists k, 0 < k /\ r_dir (persp_ray c2w r2c x y) = m_vec c2w (rscale k d) /\
    close1 (/ 100000) (rdot (rscale k d) (rscale k d)).
Proof.
  intros w h fov c2w W H T0 T1; destruct (persp_some w h fov T0 T1) as (r2c & E); exists r2c; split; [exact E |].
  intros x y; split; [reflexivity |]; cbn zeta.
  set (d := RV _ _ 1).
  assert (P : m_point r2c (RV x y 0) = rscale (/ 100) d).
  { rewrite (persp_point w h fov r2c x y W H T0 T1 E); unfold rscale, d; apply rv_eq; cbn [rx ry rz]; ring. }
  assert (NZ : rscale (/ 100) d <> RV 0 0 0) by (unfold rscale, d; cbn; intro C; injection C; intros; lra).
  destruct (normalize_dir _ NZ) as (k & K & EK & CK).
  exists (k * / 100); split; [apply Rmult_lt_0_compat; lra |]; split.
  - unfold persp_ray; cbn [r_dir]; rewrite P, EK; f_equal; unfold rscale; apply rv_eq; cbn [rx ry rz]; ring.
  - replace (rdot (rscale (k * / 100) d) (rscale (k * / 100) d)) with (k * k * rdot (rscale (/ 100) d) (rscale (/ 100) d)); [exact CK |].
    unfold rdot, rscale; cbn [rx ry rz]; ring.
Qed.
Print Assumptions perspective_ray.
Example perspective_ray_ex : tan (PI / 2 / 2) <> 0 /\ tan (PI / 2 / 2) * tan (PI / 2 / 2) < 1000.
Proof. replace (PI / 2 / 2) with (PI / 4) by field; rewrite tan_PI4; lra. Qed.

(* the centre of the image shows the target *)
Theorem perspective_centre : forall w h fov pos eye up, 0 < w -> 0 < h ->
  tan (fov / 2) <> 0 -> tan (fov / 2) * tan (fov / 2) < 1000 ->
  eye <> pos -> rcross up (rsub eye pos) <> RV 0 0 0 ->
  exists r2c, perspective w h fov = Some r2c /\
  r_org (persp_ray (look_at pos eye up) r2c (w / 2) (h / 2)) = pos /\
  same_direction (r_dir (persp_ray (look_at pos eye up) r2c (w / 2) (h / 2))) (rsub eye pos).
Proof.
  intros w h fov pos eye up W H T0 T1 NE NU.
  destruct (perspective_ray w h fov (look_at pos eye up) W H T0 T1) as (r2c & E & R); exists r2c; split; [exact E |].
  destruct (R (w / 2) (h / 2)) as (O & k & K & D & _).
  destruct (camera_frame pos eye up NE NU) as (_ & P & (a & A & DA) & _).
  split; [rewrite O; exact P |].
  exists (k * a); split; [apply Rmult_lt_0_compat; assumption |].
  rewrite D.
  replace (screen_x w h (w / 2)) with 0 by (unfold screen_x, Rdiv; replace (2 * (w * / 2) - w) with 0 by field; ring).
  replace (screen_y w h (h / 2)) with 0 by (unfold screen_y, Rdiv; replace (h - 2 * (h * / 2)) with 0 by field; ring).
  transitivity (rscale k (axis_away (look_at pos eye up))).
  - unfold axis_away, m_vec, rscale; apply rv_eq; cbn [rx ry rz]; ring.
  - rewrite DA; unfold rscale; apply rv_eq; cbn [rx ry rz]; ring.
Qed.
Print Assumptions perspective_centre.

(* the edge of the shorter side is seen at half the field of view *)
Theorem perspective_fov : forall w h fov c2w, 0 < w -> w <= h -> 0 < fov -> fov < PI ->
  tan (fov / 2) * tan (fov / 2) < 1000 ->
  exists r2c, perspective w h fov = Some r2c /\
  exists k, 0 < k /\ r_dir (persp_ray c2w r2c w (h / 2)) = m_vec c2w (rscale k (RV (sin (fov / 2)) 0 (cos (fov / 2)))).
Proof.
  intros w h fov c2w W H F0 F1 T1.
  assert (T0 : 0 < tan (fov / 2)) by (apply tan_gt_0; lra).
  assert (C0 : 0 < cos (fov / 2)) by (apply cos_gt_0; lra).
  destruct (perspective_ray w h fov c2w W ltac:(lra) ltac:(lra) T1) as (r2c & E & R); exists r2c; split; [exact E |].
  destruct (R w (h / 2)) as (_ & k & K & D & _).
  exists (k / cos (fov / 2)); split; [apply Rdiv_lt_0_compat; assumption |].
  rewrite D; f_equal; unfold screen_x, screen_y; rewrite Rmin_left by exact H; unfold rscale, tan; apply rv_eq; cbn [rx ry rz]; field; lra.
Qed.
Print Assumptions perspective_fov.

(* C114.  The ray differentials of a perspective camera are the rays of the neighbouring
   pixels, as the general method of the base class gives them. *)
Theorem perspective_differentials : forall w h fov c2w r2c x y, 0 < w -> 0 < h ->
  tan (fov / 2) <> 0 -> tan (fov / 2) * tan (fov / 2) < 1000 -> perspective w h fov = Some r2c ->
  persp_rays c2w r2c x y = default_rays (persp_ray c2w r2c) x y.
Proof.
  intros w h fov c2w r2c x y W H T0 T1 E.
  pose proof (fun x y => persp_point w h fov r2c x y W H T0 T1 E) as P.
  unfold persp_rays, default_rays, persp_ray, persp_dx, persp_dy; rewrite !P.
  assert (M : Rmin w h <> 0) by (unfold Rmin; destruct (Rle_dec w h); lra).
  f_equal; [f_equal |]; f_equal; f_equal; f_equal; unfold radd, rsub, screen_x, screen_y; apply rv_eq; cbn [rx ry rz]; field; exact M.
Qed.
Print Assumptions perspective_differentials.

(* C115.  A wide field of view cannot be built: the inversion fails from tan(fov/2)^2 = 1001
   on (about 176.4 degrees) and an uninitialised matrix is used. *)
Theorem perspective_wide_refuted : forall w h T, 32 <= T ->
  let fov := 2 * atan T in
  0 < fov < PI /\ perspective w h fov = None.
Proof.
  intros w h T L fov.
  pose proof (atan_bound T) as B.
  assert (P : 0 < atan T) by (rewrite <- atan_0; apply atan_increasing; lra).
  split; [unfold fov; lra |].
  assert (TT : tan (fov / 2) = T) by (unfold fov; replace (2 * atan T / 2) with (atan T) by field; apply tan_atan).
  unfold perspective, m_inverse, flt_equal.
  unfold camera2screen; cbn zeta; rewrite frustum_det, TT, (proj1 plane_ratio), Rminus_0_r.
  assert (T2 : 1024 <= T * T) by (replace 1024 with (32 * 32) by ring; apply Rmult_le_compat; lra).
  assert (E : - (1 / T * (1 / T) * - (1000 / 99999)) = (1000 / 99999) * / (T * T)) by (field; lra).
  assert (I : / (T * T) <= / 1024) by (apply Rinv_le_contravar; lra).
  assert (I0 : 0 < / (T * T)) by (apply Rinv_0_lt_compat; lra).
  destruct (Rle_dec (Rabs _) _) as [C | C]; [reflexivity | exfalso; apply C].
  rewrite E, Rabs_right; [lra |]; lra.
Qed.
Print Assumptions perspective_wide_refuted.

(* C116.  The field of view of the configuration is documented in degrees (default 55) and
   handed over as radians: the default camera shows the scene upside down and mirrored. *)
Lemma pi_bounds : 31 / 10 < PI < 317 / 100.
Proof.
  pose proof (PI_2_3_7_ineq 1) as (L & H); unfold sum_f_R0, tg_alt, PI_2_3_7_tg, Ratan_seq in L, H.
  cbn in L, H; lra.
Qed.

Lemma tan_default : - sqrt 3 < tan (55 / 2) < 0.
Proof.
  pose proof pi_bounds as (L & H).
  set (d := 9 * PI - 55 / 2).
  assert (D0 : 0 < d < PI / 3) by (unfold d; lra).
  assert (T : tan (55 / 2) = - tan d).
  { unfold tan; replace (55 / 2) with (PI - d + 2 * INR 4 * PI) by (unfold d; cbn [INR]; field).
    rewrite sin_period, cos_period, sin_PI_x, Rtrigo_facts.cos_pi_minus.
    assert (0 < cos d) by (apply cos_gt_0; lra). field; lra. }
  assert (P : 0 < tan d) by (apply tan_gt_0; lra).
  assert (Q : tan d < tan (PI / 3)) by (apply tan_increasing; lra).
  rewrite tan_PI3 in Q; rewrite T; lra.
Qed.

Theorem default_fov_refuted : forall w h pos eye up, 0 < w -> 0 < h ->
  eye <> pos -> rcross up (rsub eye pos) <> RV 0 0 0 ->
  let c2w := look_at pos eye up in
  exists r2c, perspective w h 55 = Some r2c /\ forall x y,
    (w / 2 < x -> rdot (r_dir (persp_ray c2w r2c x y)) (axis_right c2w) < 0) /\
    (y < h / 2 -> rdot (r_dir (persp_ray c2w r2c x y)) (axis_up c2w) < 0).
Proof.
  intros w h pos eye up W H NE NU c2w; pose proof tan_default as (T0 & T1).
  assert (TT : tan (55 / 2) * tan (55 / 2) < 1000).
  { assert (S3 : sqrt 3 * sqrt 3 = 3) by (apply sqrt_sqrt; lra).
    assert (X : - tan (55 / 2) * - tan (55 / 2) <= sqrt 3 * sqrt 3) by (apply Rmult_le_compat; lra). lra. }
  destruct (perspective_ray w h 55 c2w W H ltac:(lra) TT) as (r2c & E & R); exists r2c; split; [exact E |].
  intros x y; destruct (R x y) as (_ & k & K & D & _).
  destruct (camera_frame pos eye up NE NU) as (_ & _ & _ & _ & _ & RU & RA & UA & _ & RR & UU & _); fold c2w in RU, RA, UA, RR, UU.
  assert (M : 0 < Rmin w h) by (apply Rmin_pos; assumption).
  assert (DEC : forall a b c, m_vec c2w (RV a b c) = radd (rscale a (axis_right c2w)) (radd (rscale b (axis_up c2w)) (rscale c (axis_away c2w)))).
  { intros; unfold axis_right, axis_up, axis_away, m_vec, radd, rscale; apply rv_eq; cbn [rx ry rz]; ring. }
  assert (LIN : forall a b c v, rdot (m_vec c2w (RV a b c)) v = a * rdot (axis_right c2w) v + b * rdot (axis_up c2w) v + c * rdot (axis_away c2w) v).
  { intros a b c v; rewrite DEC; unfold rdot, radd, rscale; cbn [rx ry rz]; ring. }
  rewrite D; unfold rscale; cbn [rx ry rz]; rewrite !LIN.
  rewrite (rdot_comm (axis_up c2w) (axis_right c2w)), (rdot_comm (axis_away c2w) (axis_right c2w)), (rdot_comm (axis_away c2w) (axis_up c2w)), RU, RA, UA.
  unfold close1 in *; assert (IM : 0 < / Rmin w h) by (apply Rinv_0_lt_compat; exact M).
  assert (NEG : forall s r, 0 < s -> 0 < r -> k * (s * / Rmin w h * tan (55 / 2)) * r < 0).
  { intros s r S0 R0.
    assert (0 < k * (s * / Rmin w h) * r) by (apply Rmult_lt_0_compat; [apply Rmult_lt_0_compat; [exact K | apply Rmult_lt_0_compat; assumption] | exact R0]).
    replace (k * (s * / Rmin w h * tan (55 / 2)) * r) with (- (k * (s * / Rmin w h) * r * - tan (55 / 2))) by ring.
    assert (0 < k * (s * / Rmin w h) * r * - tan (55 / 2)) by (apply Rmult_lt_0_compat; lra). lra. }
  split; intro P.
  - pose proof (NEG (2 * x - w) (rdot (axis_right c2w) (axis_right c2w)) ltac:(lra) ltac:(lra)); unfold screen_x, Rdiv in *; lra.
  - pose proof (NEG (h - 2 * y) (rdot (axis_up c2w) (axis_up c2w)) ltac:(lra) ltac:(lra)); unfold screen_y, Rdiv in *; lra.
Qed.
Print Assumptions default_fov_refuted.

(* ----- orthographic ----- *)

Lemma raster_affine : forall w h, affine (raster2screen w h).
Proof. intros; unfold affine, raster2screen; cbn; auto. Qed.
Lemma ortho_affine : affine ortho_screen2camera.
Proof. unfold affine, ortho_screen2camera; cbn; auto. Qed.

Lemma ortho_origin : forall c2w w h x y z, affine c2w -> 0 < w -> 0 < h ->
  m_point (ortho_r2w c2w w h) (RV x y z) = m_point c2w (RV (screen_x w h x) (screen_y w h y) z).
Proof.
  intros c2w w h x y z A W H; unfold ortho_r2w.
  rewrite !compose_point by (auto using raster_affine, ortho_affine, mul_affine).
  f_equal; rewrite !point_affine by (auto using raster_affine, ortho_affine).
  destruct (screen_ok w h x y W H) as (SX & SY); rewrite <- SX, <- SY.
  unfold raster2screen, ortho_screen2camera; apply rv_eq; cbn [m00 m01 m02 m03 m10 m11 m12 m13 m20 m21 m22 m23 rx ry rz]; ring.
Qed.

(* C117.  An orthographic camera looks along parallel rays, from a plane through its position
   on which the raster is a regular grid. *)
Theorem orthographic_ray : forall w h pos eye up x y, 0 < w -> 0 < h ->
  eye <> pos -> rcross up (rsub eye pos) <> RV 0 0 0 ->
  let c2w := look_at pos eye up in
  let r := ortho_ray c2w w h x y in
  same_direction (r_dir r) (rsub eye pos) /\
  r_org r = radd pos (radd (rscale (screen_x w h x) (axis_right c2w)) (rscale (screen_y w h y) (axis_up c2w))).
Proof.
  intros w h pos eye up x y W H NE NU c2w r.
  destruct (camera_frame pos eye up NE NU) as (A & P & D & _); fold c2w in A, P, D.
  split; [exact D |].
  unfold r, ortho_ray; cbn [r_org]; rewrite ortho_origin by assumption.
  rewrite <- P, !point_affine by exact A; unfold axis_right, axis_up, m_vec, radd, rscale; apply rv_eq; cbn [rx ry rz]; ring.
Qed.
Print Assumptions orthographic_ray.

(* C118.  The differentials of an orthographic camera are not the neighbouring rays: the step
   in camera space is added in raster space.  For every image whose shorter side is not two
   pixels the origin of the x differential differs from that of the next pixel. *)
Theorem orthographic_differentials_refuted : forall w h pos eye up x y, 0 < w -> 0 < h -> Rmin w h <> 2 ->
  eye <> pos -> rcross up (rsub eye pos) <> RV 0 0 0 ->
  let c2w := look_at pos eye up in
  ortho_rays c2w w h x y <> default_rays (ortho_ray c2w w h) x y.
Proof.
  intros w h pos eye up x y W H M NE NU c2w E.
  destruct (camera_frame pos eye up NE NU) as (A & _ & _ & _ & _ & _ & _ & _ & _ & RR & _); fold c2w in A, RR; clearbody c2w.
  unfold ortho_rays, default_rays, ortho_ray in E.
  assert (E2 : m_point (ortho_r2w c2w w h) (RV (x + rx (ortho_dx w h)) (y + ry (ortho_dx w h)) (rz (ortho_dx w h))) =
               m_point (ortho_r2w c2w w h) (RV (x + 1) y 0)).
  { apply (f_equal (fun p => r_org (snd (fst p)))) in E; cbn [fst snd r_org] in E; exact E. }
  assert (MP : 0 < Rmin w h) by (apply Rmin_pos; assumption).
  assert (DX : ortho_dx w h = RV (2 / Rmin w h) 0 0).
  { unfold ortho_dx, ortho_r2c; rewrite (proj2 (mul_identity _)), compose_vec by apply raster_affine.
    pose proof (proj1 (screen_ok w h 1 0 W H)) as S1; pose proof (proj1 (screen_ok w h 0 0 W H)) as S0.
    unfold screen_x in S1, S0.
    assert (S : (b_x1 (bounds_of w h) - b_x0 (bounds_of w h)) / w = 2 / Rmin w h) by (unfold Rdiv in *; lra).
    unfold m_vec, raster2screen, ortho_screen2camera; cbn zeta; rewrite S; apply rv_eq; cbn [m00 m01 m02 m03 m10 m11 m12 m13 m20 m21 m22 m23 rx ry rz]; ring. }
  rewrite DX, !ortho_origin in E2 by assumption; cbn [rx ry rz] in E2; rewrite Rplus_0_r in E2.
  rewrite !point_affine in E2 by exact A; cbn [rx ry rz] in E2; injection E2; intros Z Y X.
  assert (S : screen_x w h (x + 2 / Rmin w h) - screen_x w h (x + 1) = (2 / Rmin w h - 1) * (2 / Rmin w h)) by (unfold screen_x; field; lra).
  assert (N : (2 / Rmin w h - 1) * (2 / Rmin w h) <> 0).
  { apply Rmult_integral_contrapositive_currified.
    - intro C; apply M; assert (Q : 2 / Rmin w h * Rmin w h = 1 * Rmin w h) by (f_equal; lra).
      replace (2 / Rmin w h * Rmin w h) with 2 in Q by (field; lra); lra.
    - unfold Rdiv; apply Rmult_integral_contrapositive_currified; [lra | apply Rinv_neq_0_compat; lra]. }
  set (s := screen_x w h (x + 2 / Rmin w h)) in *; set (s' := screen_x w h (x + 1)) in *; set (sy := screen_y w h y) in *.
  assert (Z0 : forall m, m * s = m * s' -> m = 0).
  { intros m Q; assert (Q2 : m * (s - s') = 0) by lra; apply Rmult_integral in Q2; destruct Q2 as [Q2 | Q2]; [exact Q2 | lra]. }
  assert (m00 c2w = 0) by (apply Z0; lra); assert (m10 c2w = 0) by (apply Z0; lra); assert (m20 c2w = 0) by (apply Z0; lra).
  unfold close1, axis_right, rdot, m_vec in RR; cbn [rx ry rz] in RR; rewrite !H0, !H1, !H2 in RR; lra.
Qed.
Print Assumptions orthographic_differentials_refuted.
Example orthographic_ex : Rmin 800 600 <> 2 /\ RV 1 2 3 <> RV 0 0 0 /\ rcross (RV 0 1 0) (rsub (RV 1 2 3) (RV 0 0 0)) <> RV 0 0 0.
Proof.
  split; [rewrite Rmin_right; lra |]; split; intro H; unfold rcross, rsub in H; cbn in H; injection H; intros; lra.
Qed.

(* ----- panorama ----- *)

(* C119.  The panorama covers every direction. *)
Theorem panorama_covers : forall w h c2w d, 0 < w -> 0 < h -> rdot d d = 1 ->
  exists x y, 0 <= x <= w /\ 0 <= y <= h /\
    pano_ray c2w w h x y = RRay (m_point c2w (RV 0 0 0)) (rnormalize (m_vec c2w d)).
Proof.
  intros w h c2w [a b c] W H U; unfold rdot in U; cbn [rx ry rz] in U.
  pose proof (Rle_0_sqr a) as SA; pose proof (Rle_0_sqr b) as SB; pose proof (Rle_0_sqr c) as SC; unfold Rsqr in *.
  assert (B : -1 <= b <= 1) by (split; nra).
  set (th := acos b); pose proof (acos_bound b) as TB; fold th in TB.
  assert (CT : cos th = b) by (apply cos_acos; exact B).
  assert (ST : sin th * sin th = a * a + c * c) by (rewrite sc1, CT; lra).
  assert (S0 : 0 <= sin th) by (apply sin_ge_0; lra).
  assert (PH : exists ph, 0 <= ph <= 2 * PI /\ sin th * cos ph = a /\ sin th * sin ph = c).
  { destruct (Req_dec (sin th) 0) as [Z | Z].
    - rewrite Z in ST. assert (a * a = 0) by lra; assert (c * c = 0) by lra.
      assert (a = 0) by (destruct (Rmult_integral a a); auto); assert (c = 0) by (destruct (Rmult_integral c c); auto).
      exists 0; rewrite Z; pose proof PI_RGT_0; repeat split; try lra.
    - set (s := sin th) in *. assert (SP : 0 < s) by lra.
      set (u := a / s); set (v := c / s).
      assert (UV : u * u + v * v = 1).
      { unfold u, v; replace (a / s * (a / s) + c / s * (c / s)) with ((a * a + c * c) / (s * s)) by (field; lra).
        rewrite <- ST; field; lra. }
      pose proof (Rle_0_sqr u); pose proof (Rle_0_sqr v); unfold Rsqr in *.
      assert (UB : -1 <= u <= 1) by (split; nra).
      pose proof (acos_bound u) as AB; pose proof (cos_acos u UB) as CU; pose proof (sin_acos u UB) as SU.
      assert (SV : Rabs v = sin (acos u)).
      { rewrite SU, <- sqrt_Rsqr_abs; f_equal; unfold Rsqr; lra. }
      assert (EA : s * u = a) by (unfold u; field; lra); assert (EC : s * v = c) by (unfold v; field; lra).
      destruct (Rle_dec 0 v) as [V | V].
      + exists (acos u); split; [lra |]; rewrite CU, <- SV, Rabs_right by lra; auto.
      + exists (2 * PI - acos u); split; [lra |].
        replace (2 * PI - acos u) with (- acos u + 2 * INR 1 * PI) by (cbn [INR]; ring).
        rewrite cos_period, sin_period, cos_neg, sin_neg, CU, <- SV, Rabs_left by lra; split; [exact EA | rewrite <- EC; ring]. }
  destruct PH as (ph & PB & EA & EC); pose proof PI_RGT_0 as PP.
  exists (ph / (2 * PI) * w), (th / PI * h).
  assert (F1 : 0 <= ph / (2 * PI) <= 1).
  { split; [apply Rle_mult_inv_pos; lra |]; apply (Rmult_le_reg_r (2 * PI)); [lra |].
    replace (ph / (2 * PI) * (2 * PI)) with ph by (field; lra); lra. }
  assert (F2 : 0 <= th / PI <= 1).
  { split; [apply Rle_mult_inv_pos; lra |]; apply (Rmult_le_reg_r PI); [lra |].
    replace (th / PI * PI) with th by (field; lra); lra. }
  split; [split; [apply Rmult_le_pos; lra | rewrite <- (Rmult_1_l w) at 2; apply Rmult_le_compat_r; lra] |].
  split; [split; [apply Rmult_le_pos; lra | rewrite <- (Rmult_1_l h) at 2; apply Rmult_le_compat_r; lra] |].
  unfold pano_ray.
  replace (PI * (th / PI * h) * (1 / h)) with th by (field; lra).
  replace (2 * PI * (ph / (2 * PI) * w) * (1 / w)) with ph by (field; lra).
  rewrite CT, EA, EC; reflexivity.
Qed.
Print Assumptions panorama_covers.
Example panorama_ex : rdot (RV (3 / 5) 0 (- (4 / 5))) (RV (3 / 5) 0 (- (4 / 5))) = 1.
Proof. unfold rdot; cbn; lra. Qed.

(* C120.  The panorama is mirrored: the perspective and the orthographic cameras put what is
   on the side of the first axis of the camera on the right of the image; in the panorama the
   right of the picture of the target (a quarter of the width) shows the opposite side, and the
   target is not in the centre. *)
Theorem panorama_mirrored_refuted : forall w h x c2w, 0 < w -> 0 < h ->
  pano_ray c2w w h (w / 4) (h / 2) = RRay (m_point c2w (RV 0 0 0)) (rnormalize (m_vec c2w (RV 0 0 1))) /\
  pano_ray c2w w h (w / 2) (h / 2) = RRay (m_point c2w (RV 0 0 0)) (rnormalize (m_vec c2w (RV (-1) 0 0))) /\
  (w / 4 < x < w * 3 / 4 -> exists a b, a < 0 /\
     pano_ray c2w w h x (h / 2) = RRay (m_point c2w (RV 0 0 0)) (rnormalize (m_vec c2w (RV a 0 b)))).
Proof.
  intros w h x c2w W H; pose proof PI_RGT_0 as PP; unfold pano_ray.
  replace (PI * (h / 2) * (1 / h)) with (PI / 2) by (field; lra).
  rewrite sin_PI2, cos_PI2, !Rmult_1_l.
  replace (2 * PI * (w / 4) * (1 / w)) with (PI / 2) by (field; lra).
  replace (2 * PI * (w / 2) * (1 / w)) with PI by (field; lra).
  rewrite sin_PI2, cos_PI2, cos_PI, sin_PI; split; [reflexivity |]; split; [reflexivity |].
  intro X; exists (cos (2 * PI * x * (1 / w))), (sin (2 * PI * x * (1 / w))); split.
  - assert (F : / 4 < x / w < 3 / 4).
    { split; apply (Rmult_lt_reg_r w); try lra; replace (x / w * w) with x by (field; lra); lra. }
    replace (2 * PI * x * (1 / w)) with (2 * PI * (x / w)) by (field; lra).
    apply cos_lt_0.
    + assert (2 * PI * / 4 < 2 * PI * (x / w)) by (apply Rmult_lt_compat_l; lra). lra.
    + assert (2 * PI * (x / w) < 2 * PI * (3 / 4)) by (apply Rmult_lt_compat_l; lra). lra.
  - reflexivity.
Qed.
Print Assumptions panorama_mirrored_refuted.
