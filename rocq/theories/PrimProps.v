(* C43, C102-C108: spheres, boxes of transformed shapes, sampling of points. *)
From Coq Require Import Reals Lra List Lia.
From Verif Require Import RVecModel RVecProps MatModel MatSpec MatProps PrimModel PrimSpec.
Import ListNotations.
Local Open Scope R_scope.

Lemma equation2_ok : forall a b c, 0 < a -> 0 <= b * b - 4 * a * c ->
  exists s1 s2, equation2 a b c = Some (s1, s2) /\ forall t, a * t * t + b * t + c = a * (t - s1) * (t - s2).
Proof.
  intros a b c A D; unfold equation2; set (d := b * b - 4 * a * c) in *.
  assert (G : 0 < d -> exists s1 s2,
     (let q := if Rlt_dec b 0 then - (1 / 2) * (b - sqrt d) else - (1 / 2) * (b + sqrt d) in Some (q / a, c / q)) = Some (s1, s2) /\
     forall t, a * t * t + b * t + c = a * (t - s1) * (t - s2)).
  { intro P; pose proof (sqrt_sqrt d D) as S; pose proof (sqrt_lt_R0 d P) as S0.
    cbn zeta; set (q := if Rlt_dec b 0 then - (1 / 2) * (b - sqrt d) else - (1 / 2) * (b + sqrt d)).
    assert (Q : q <> 0 /\ q * q + b * q + a * c = 0).
    { unfold q; destruct (Rlt_dec b 0) as [B | B]; (split; [lra |]).
      - transitivity ((sqrt d * sqrt d - b * b) / 4 + a * c); [field | rewrite S; unfold d; field].
      - transitivity ((sqrt d * sqrt d - b * b) / 4 + a * c); [field | rewrite S; unfold d; field]. }
    destruct Q as [Q0 Q]; exists (q / a), (c / q); split; [reflexivity |].
    intro t; apply Rmult_eq_reg_l with q; [| exact Q0].
    replace (q * (a * (t - q / a) * (t - c / q))) with (a * t * t * q - (q * q + a * c) * t + q * c) by (field; lra).
    replace (q * q + a * c) with (- b * q) by lra; ring. }
  destruct (Rle_dec d 0) as [L | L].
  - destruct (Rle_dec 0 (d + / 10000)) as [M | M].
    + exists (- b / (a * 2)), (- b / (a * 2)); split; [reflexivity |].
      assert (Z : c = b * b / (4 * a)) by (unfold d in *; apply Rmult_eq_reg_l with (4 * a); [field_simplify; lra | lra]).
      intro t; rewrite Z; field; lra.
    + exfalso; lra.
  - apply G; lra.
Qed.

Lemma sphere_poly : forall r t,
  on_sphere (rr_apply r t) <->
  rdot (r_dir r) (r_dir r) * t * t + 2 * rdot (r_dir r) (r_org r) * t + (rdot (r_org r) (r_org r) - 1) = 0.
Proof.
  intros r t; unfold on_sphere, rr_apply, rdot; cbn [rx ry rz].
  split; intro H; lra.
Qed.

Lemma quad_root : forall a s1 s2 t, 0 < a -> a * (t - s1) * (t - s2) = 0 <-> t = s1 \/ t = s2.
Proof.
  intros a s1 s2 t A; split.
  - intro H; apply Rmult_integral in H; destruct H as [H | H]; [| right; lra].
    apply Rmult_integral in H; destruct H; [lra | left; lra].
  - intros [-> | ->]; ring.
Qed.

Lemma off_axis_hit : forall masked r t, masked (off_axis (rr_apply r t)) = false ->
  sphere_try masked r t = Some (t, off_axis (rr_apply r t), rr_apply r t).
Proof. intros masked r t M; unfold sphere_try; rewrite M; reflexivity. Qed.

(* C43.  The sphere test without a mask: a line that does not graze the sphere (no negative
   discriminant within 1e-4 of zero) is hit at the first point from 1e-2 on, and only if that
   is not beyond the given distance; the normal is the point. *)
Theorem sphere_exact : forall r distance, 0 < rdot (r_dir r) (r_dir r) ->
  (0 <= discriminant r \/ discriminant r < - / 10000) ->
  match sphere_intersect (fun _ => false) r distance with
  | Some (t, p, n) => first_hit on_sphere r (/ 100) t /\ t <= distance /\ n = rr_apply r t /\
      ((rx n <> 0 \/ ry n <> 0) -> p = n)
  | None => forall t, / 100 <= t -> t <= distance -> ~ on_sphere (rr_apply r t)
  end.
Proof.
  intros r distance A D; unfold sphere_intersect.
  set (a := rdot (r_dir r) (r_dir r)) in *; set (b := 2 * rdot (r_dir r) (r_org r)); set (c := rdot (r_org r) (r_org r) - 1).
  assert (DE : b * b - 4 * a * c = discriminant r) by (unfold discriminant; fold a; unfold b, c; ring).
  assert (POLY : forall t, on_sphere (rr_apply r t) <-> a * t * t + b * t + c = 0) by (intro t; apply sphere_poly).
  assert (OA : forall t, let n := rr_apply r t in rx n <> 0 \/ ry n <> 0 -> off_axis n = n).
  { intros t n H; unfold off_axis; destruct (Req_EM_T (rx n) 0); [destruct (Req_EM_T (ry n) 0); [exfalso; tauto | reflexivity] | reflexivity]. }
  destruct D as [D | D].
  - destruct (equation2_ok a b c A ltac:(lra)) as (s1 & s2 & E & F); rewrite E.
    assert (ROOT : forall t, on_sphere (rr_apply r t) <-> t = s1 \/ t = s2).
    { intro t; rewrite POLY, F; apply quad_root, A. }
    assert (ORD : exists u1 u2, (if Rlt_dec s2 s1 then (s2, s1) else (s1, s2)) = (u1, u2) /\ u1 <= u2 /\
                  forall t, on_sphere (rr_apply r t) <-> t = u1 \/ t = u2).
    { destruct (Rlt_dec s2 s1); [exists s2, s1 | exists s1, s2]; (split; [reflexivity | split; [lra |]]); intro t; rewrite ROOT; tauto. }
    destruct ORD as (u1 & u2 & -> & O & R1); unfold self_error.
    destruct (Rlt_dec distance u1) as [L | L].
    { intros t T0 T1 H; apply R1 in H; destruct H; lra. }
    destruct (Rlt_dec u1 (/ 100)) as [B | B].
    + destruct (Rlt_dec u2 (/ 100)) as [B2 | B2]; [intros t T0 T1 H; apply R1 in H; destruct H; lra |].
      destruct (Rlt_dec distance u2) as [L2 | L2]; [intros t T0 T1 H; apply R1 in H; destruct H; lra |].
      rewrite off_axis_hit by reflexivity.
      split; [split; [lra | split; [apply R1; right; reflexivity |]] | split; [lra | split; [reflexivity | apply OA]]].
      intros u U0 U1 H; apply R1 in H; destruct H; lra.
    + rewrite off_axis_hit by reflexivity.
      split; [split; [lra | split; [apply R1; left; reflexivity |]] | split; [lra | split; [reflexivity | apply OA]]].
      intros u U0 U1 H; apply R1 in H; destruct H; lra.
  - assert (N : equation2 a b c = None).
    { unfold equation2; rewrite DE; destruct (Rle_dec (discriminant r) 0); [| lra].
      destruct (Rle_dec 0 (discriminant r + / 10000)); [lra |]; destruct (Rle_dec 0 (discriminant r)); [lra | reflexivity]. }
    rewrite N; intros t _ _ H; apply POLY in H.
    assert (S : (2 * a * t + b) * (2 * a * t + b) = b * b - 4 * a * c + 4 * a * (a * t * t + b * t + c)) by ring.
    rewrite H, DE in S; pose proof (Rle_0_sqr (2 * a * t + b)) as Q; unfold Rsqr in Q; lra.
Qed.
Print Assumptions sphere_exact.
Example sphere_exact_ex : let r := RRay (RV 0 0 (-3)) (RV 0 (1 / 10) 1) in
  0 < rdot (r_dir r) (r_dir r) /\ 0 <= discriminant r.
Proof. unfold discriminant, rdot; cbn; lra. Qed.

(* C102.  A line that misses the sphere by little is reported to hit it. *)
Theorem sphere_graze_refuted : forall r distance, 0 < rdot (r_dir r) (r_dir r) ->
  - / 10000 <= discriminant r -> discriminant r < 0 ->
  let t := - rdot (r_dir r) (r_org r) / rdot (r_dir r) (r_dir r) in
  / 100 <= t -> t <= distance ->
  (forall u, ~ on_sphere (rr_apply r u)) /\
  exists p n, sphere_intersect (fun _ => false) r distance = Some (t, p, n).
Proof.
  intros r distance A D0 D1 t T0 T1.
  set (a := rdot (r_dir r) (r_dir r)) in *; set (b := 2 * rdot (r_dir r) (r_org r)); set (c := rdot (r_org r) (r_org r) - 1).
  assert (DE : b * b - 4 * a * c = discriminant r) by (unfold discriminant; fold a; unfold b, c; ring).
  split.
  - intros u H; apply sphere_poly in H; fold a b c in H.
    assert (S : (2 * a * u + b) * (2 * a * u + b) = b * b - 4 * a * c + 4 * a * (a * u * u + b * u + c)) by ring.
    rewrite H, DE in S; pose proof (Rle_0_sqr (2 * a * u + b)) as Q; unfold Rsqr in Q; lra.
  - assert (E : equation2 a b c = Some (t, t)).
    { unfold equation2; rewrite DE; destruct (Rle_dec (discriminant r) 0); [| lra].
      destruct (Rle_dec 0 (discriminant r + / 10000)); [| lra]; replace (- b / (a * 2)) with t; [reflexivity |].
      unfold t, b; field; lra. }
    unfold sphere_intersect; fold a b c; rewrite E.
    destruct (Rlt_dec t t); [lra |]; destruct (Rlt_dec distance t); [lra |].
    unfold self_error; destruct (Rlt_dec t (/ 100)); [lra |]; rewrite off_axis_hit by reflexivity; eauto.
Qed.
Print Assumptions sphere_graze_refuted.

(* the same in the world: a sphere of radius s placed at the origin is hit by rays that pass
   at a distance of up to s * sqrt (1 + s^2/40000) from its centre, for a radius of 200 that
   is 1.41 times the radius *)
Theorem large_sphere_refuted : forall s h distance, 1 <= s -> 1 < h -> h * h <= 1 + s * s / 40000 -> 2 * s <= distance ->
  let r := RRay (RV (h * s) 0 (- (2 * s))) (RV 0 0 1) in
  let shape := fun q => match sphere_intersect (fun _ => false) q distance with
                        | Some (t, p, n) => Some (mk_rhit t p n (RV 1 0 0) (RV 0 1 0)) | None => None end in
  exists to_obj k, m_inverse (m_scale (RV s s s)) = Some to_obj /\
    (forall t, rdot (rr_apply r t) (rr_apply r t) > s * s) /\
    asset_hit (m_scale (RV s s s)) to_obj shape r = Some k.
Proof.
  intros s h distance S H HB T r shape.
  assert (SP : 0 < s * s) by nra.
  assert (DET : m_det (m_scale (RV s s s)) = s * s * s) by (unfold m_det, m_adj, m_scale; cbn; ring).
  assert (S3 : 1 <= s * s * s) by nra.
  destruct (m_inverse (m_scale (RV s s s))) as [n |] eqn:E.
  2: { apply inverse_fails in E; rewrite <- det_is_determinant, DET, Rabs_right in E by lra; lra. }
  assert (A : affine (m_scale (RV s s s))) by (unfold affine; cbn; repeat split; ring).
  destruct (inverse_undoes _ _ A E) as (_ & P2 & _ & V2).
  assert (RAY : m_ray n r = RRay (RV h 0 (-2)) (RV 0 0 (/ s))).
  { unfold m_ray; f_equal; unfold r; cbn [r_org r_dir].
    - rewrite <- (P2 (RV h 0 (-2))); f_equal; rewrite point_affine by exact A; unfold m_scale; apply rv_eq; cbn; ring.
    - rewrite <- (V2 (RV 0 0 (/ s))); f_equal; unfold m_vec, m_scale; apply rv_eq; cbn; field; lra. }
  exists n.
  assert (ISP : 0 < / s) by (apply Rinv_0_lt_compat; lra).
  assert (AA : rdot (RV 0 0 (/ s)) (RV 0 0 (/ s)) = / s * / s) by (unfold rdot; cbn; ring).
  assert (DD : discriminant (RRay (RV h 0 (-2)) (RV 0 0 (/ s))) = - (4 * (/ s * / s) * (h * h - 1))).
  { unfold discriminant, rdot; cbn; ring. }
  assert (HS : (/ s * / s) * (h * h - 1) <= / 40000).
  { apply Rmult_le_reg_l with (s * s); [exact SP |].
    replace (s * s * (/ s * / s * (h * h - 1))) with (h * h - 1) by (field; lra); lra. }
  assert (HP : 0 < h * h - 1) by nra.
  assert (IP : 0 < / s * / s) by nra.
  assert (PP : 0 < (/ s * / s) * (h * h - 1)) by (apply Rmult_lt_0_compat; lra).
  assert (TT : - rdot (RV 0 0 (/ s)) (RV h 0 (-2)) / rdot (RV 0 0 (/ s)) (RV 0 0 (/ s)) = 2 * s).
  { unfold rdot; cbn; field; lra. }
  destruct (sphere_graze_refuted (RRay (RV h 0 (-2)) (RV 0 0 (/ s))) distance) as (_ & p & k & HIT); cbn [r_org r_dir].
  - rewrite AA; exact IP.
  - rewrite DD; lra.
  - rewrite DD; lra.
  - rewrite TT; lra.
  - rewrite TT; exact T.
  - eexists; split; [reflexivity | split].
    + intro t; unfold r, rdot; cbn.
      assert (h * s * (h * s) = h * h * (s * s)) by ring.
      assert (1 * (s * s) < h * h * (s * s)) by (apply Rmult_lt_compat_r; lra).
      pose proof (Rle_0_sqr (- (2 * s) + 1 * t)) as Q; unfold Rsqr in Q.
      pose proof (Rle_0_sqr (0 + 0 * t)) as Q0; unfold Rsqr in Q0; lra.
    + unfold asset_hit; rewrite RAY; unfold shape; rewrite HIT; reflexivity.
Qed.
Print Assumptions large_sphere_refuted.
Example large_sphere_ex : 1 <= 200 /\ 1 < 14 / 10 /\ 14 / 10 * (14 / 10) <= 1 + 200 * 200 / 40000.
Proof. lra. Qed.

(* C103.  With a mask, the second hit is taken without comparing it to the distance of the
   best hit so far. *)
Theorem sphere_mask_refuted : forall masked r distance t1 t2, 0 < rdot (r_dir r) (r_dir r) ->
  on_sphere (rr_apply r t1) -> on_sphere (rr_apply r t2) -> / 100 <= t1 -> t1 <= distance -> distance < t2 ->
  masked (off_axis (rr_apply r t1)) = true -> masked (off_axis (rr_apply r t2)) = false ->
  exists p n, sphere_intersect masked r distance = Some (t2, p, n) /\ distance < t2.
Proof.
  intros masked r distance t1 t2 A H1 H2 T0 T1 T2 M1 M2; unfold sphere_intersect.
  set (a := rdot (r_dir r) (r_dir r)) in *; set (b := 2 * rdot (r_dir r) (r_org r)); set (c := rdot (r_org r) (r_org r) - 1).
  assert (POLY : forall t, on_sphere (rr_apply r t) <-> a * t * t + b * t + c = 0) by (intro t; apply sphere_poly).
  apply POLY in H1; apply POLY in H2.
  assert (D : 0 <= b * b - 4 * a * c).
  { assert (S : (2 * a * t1 + b) * (2 * a * t1 + b) = b * b - 4 * a * c + 4 * a * (a * t1 * t1 + b * t1 + c)) by ring.
    rewrite H1 in S; pose proof (Rle_0_sqr (2 * a * t1 + b)) as Q; unfold Rsqr in Q; lra. }
  destruct (equation2_ok a b c A D) as (s1 & s2 & E & F); rewrite E.
  rewrite F in H1; rewrite F in H2; apply quad_root in H1; [| exact A]; apply quad_root in H2; [| exact A].
  assert (ORD : (if Rlt_dec s2 s1 then (s2, s1) else (s1, s2)) = (t1, t2)).
  { destruct (Rlt_dec s2 s1); destruct H1, H2; subst; f_equal; lra. }
  rewrite ORD; destruct (Rlt_dec distance t1); [lra |].
  unfold self_error; destruct (Rlt_dec t1 (/ 100)); [lra |].
  unfold sphere_try; rewrite M1, M2; eauto.
Qed.
Print Assumptions sphere_mask_refuted.
Example sphere_mask_ex : let r := RRay (RV 0 0 (-3)) (RV 0 0 1) in
  on_sphere (rr_apply r 2) /\ on_sphere (rr_apply r 4) /\ / 100 <= 2 /\ 2 <= 3 /\ 3 < 4.
Proof. unfold on_sphere; cbn; lra. Qed.

(* C104.  A hit on the axis of the sphere is reported at a point that is neither on the ray
   nor on the sphere. *)
Theorem sphere_pole_refuted : forall oz distance, oz < -2 -> - oz - 1 <= distance ->
  let r := RRay (RV 0 0 oz) (RV 0 0 1) in
  exists t p n, sphere_intersect (fun _ => false) r distance = Some (t, p, n) /\
    (forall u, p <> rr_apply r u) /\ ~ on_sphere p.
Proof.
  intros oz distance O D r.
  pose proof (sphere_exact r distance) as X.
  assert (A1 : 0 < rdot (r_dir r) (r_dir r)) by (unfold r, rdot; cbn; lra).
  assert (D1 : 0 <= discriminant r) by (unfold r, discriminant, rdot; cbn; lra).
  assert (SP : on_sphere (rr_apply r (- oz - 1))) by (unfold on_sphere, r; cbn; ring).
  specialize (X A1 (or_introl D1)).
  destruct (sphere_intersect (fun _ => false) r distance) as [[[t p] n] |] eqn:E.
  2: { exfalso; apply (X (- oz - 1)); [lra | lra | exact SP]. }
  exists t, p, n; split; [reflexivity |].
  assert (PN : p = off_axis (rr_apply r t)).
  { unfold sphere_intersect in E.
    destruct (equation2 _ _ _) as [[s1 s2] |]; [| discriminate].
    destruct (if Rlt_dec s2 s1 then (s2, s1) else (s1, s2)) as [u1 u2].
    destruct (Rlt_dec distance u1); [discriminate |].
    destruct (Rlt_dec u1 self_error).
    - destruct (Rlt_dec u2 self_error); [discriminate |]; destruct (Rlt_dec distance u2); [discriminate |].
      rewrite off_axis_hit in E by reflexivity; injection E as <- <- <-; reflexivity.
    - rewrite off_axis_hit in E by reflexivity; injection E as <- <- <-; reflexivity. }
  destruct X as ((_ & S & _) & _ & _ & _).
  assert (PE : p = RV (/ 100) 0 (oz + t)).
  { rewrite PN; unfold off_axis, r, rr_apply; cbn.
    destruct (Req_EM_T (0 + 0 * t) 0) as [e | e]; [| exfalso; apply e; ring].
    unfold self_error; apply rv_eq; cbn; ring. }
  split.
  - intros u U; rewrite PE in U; apply (f_equal rx) in U; unfold r in U; cbn in U; lra.
  - rewrite PE; unfold on_sphere, r in *; cbn in *; lra.
Qed.
Print Assumptions sphere_pole_refuted.
Example sphere_pole_ex : -3 < -2 /\ - (-3) - 1 <= 10. Proof. lra. Qed.

(* C105.  Two congruent ellipsoids, one the other with its axes exchanged, are given
   different surfaces; only a uniform scale is handled. *)
Theorem sphere_surface_uniform : forall position rotation s, 0 <= s ->
  sphere_surface (config_transform position rotation (RV s s s)) = 4 * PI * (s * s).
Proof.
  intros p r s S; unfold sphere_surface; rewrite (proj1 (config_scale p r (RV s s s))); cbn; rewrite Rabs_right by lra; ring.
Qed.
Print Assumptions sphere_surface_uniform.
Theorem sphere_surface_refuted : forall position rotation x y, 0 < x -> 0 < y -> x <> y ->
  sphere_surface (config_transform position rotation (RV x y y)) <>
  sphere_surface (config_transform position rotation (RV y x y)).
Proof.
  intros p r x y X Y N; unfold sphere_surface; rewrite !(proj1 (config_scale _ _ _)); cbn [rx]; rewrite !Rabs_right by lra.
  pose proof PI_RGT_0; intro E; apply N.
  assert (Q : 4 * PI * ((x - y) * (x + y)) = 0) by lra.
  apply Rmult_integral in Q; destruct Q as [Q | Q]; [lra |]; apply Rmult_integral in Q; destruct Q; lra.
Qed.
Print Assumptions sphere_surface_refuted.
Example sphere_surface_ex : 0 < 1 /\ 0 < 2 /\ 1 <> 2. Proof. lra. Qed.

(* ----- boxes of transformed shapes ----- *)

Lemma fold_min : forall l p q, In q (p :: l) ->
  rx (fold_left rpmin l p) <= rx q /\ ry (fold_left rpmin l p) <= ry q /\ rz (fold_left rpmin l p) <= rz q.
Proof.
  induction l as [| c l IH]; intros p q I.
  - destruct I as [<- | []]; cbn; lra.
  - cbn [fold_left]; destruct I as [<- | [<- | I]].
    + destruct (IH (rpmin p c) (rpmin p c) (or_introl eq_refl)) as (X & Y & Z); cbn in X, Y, Z.
      pose proof (Rmin_l (rx p) (rx c)); pose proof (Rmin_l (ry p) (ry c)); pose proof (Rmin_l (rz p) (rz c)); lra.
    + destruct (IH (rpmin p c) (rpmin p c) (or_introl eq_refl)) as (X & Y & Z); cbn in X, Y, Z.
      pose proof (Rmin_r (rx p) (rx c)); pose proof (Rmin_r (ry p) (ry c)); pose proof (Rmin_r (rz p) (rz c)); lra.
    + apply IH; right; exact I.
Qed.
Lemma fold_max : forall l p q, In q (p :: l) ->
  rx q <= rx (fold_left rpmax l p) /\ ry q <= ry (fold_left rpmax l p) /\ rz q <= rz (fold_left rpmax l p).
Proof.
  induction l as [| c l IH]; intros p q I.
  - destruct I as [<- | []]; cbn; lra.
  - cbn [fold_left]; destruct I as [<- | [<- | I]].
    + destruct (IH (rpmax p c) (rpmax p c) (or_introl eq_refl)) as (X & Y & Z); cbn in X, Y, Z.
      pose proof (Rmax_l (rx p) (rx c)); pose proof (Rmax_l (ry p) (ry c)); pose proof (Rmax_l (rz p) (rz c)); lra.
    + destruct (IH (rpmax p c) (rpmax p c) (or_introl eq_refl)) as (X & Y & Z); cbn in X, Y, Z.
      pose proof (Rmax_r (rx p) (rx c)); pose proof (Rmax_r (ry p) (ry c)); pose proof (Rmax_r (rz p) (rz c)); lra.
    + apply IH; right; exact I.
Qed.
(* every bound of the points bounds the box *)
Lemma fold_min_greatest : forall l p b, (forall q, In q (p :: l) -> rx b <= rx q /\ ry b <= ry q /\ rz b <= rz q) ->
  rx b <= rx (fold_left rpmin l p) /\ ry b <= ry (fold_left rpmin l p) /\ rz b <= rz (fold_left rpmin l p).
Proof.
  induction l as [| c l IH]; intros p b H; [apply H; left; reflexivity |].
  cbn [fold_left]; apply IH; intros q [<- | I]; [| apply H; right; right; exact I].
  destruct (H p (or_introl eq_refl)) as (X & Y & Z); destruct (H c (or_intror (or_introl eq_refl))) as (X' & Y' & Z').
  cbn; repeat split; apply Rmin_glb; assumption.
Qed.
Lemma fold_max_least : forall l p b, (forall q, In q (p :: l) -> rx q <= rx b /\ ry q <= ry b /\ rz q <= rz b) ->
  rx (fold_left rpmax l p) <= rx b /\ ry (fold_left rpmax l p) <= ry b /\ rz (fold_left rpmax l p) <= rz b.
Proof.
  induction l as [| c l IH]; intros p b H; [apply H; left; reflexivity |].
  cbn [fold_left]; apply IH; intros q [<- | I]; [| apply H; right; right; exact I].
  destruct (H p (or_introl eq_refl)) as (X & Y & Z); destruct (H c (or_intror (or_introl eq_refl))) as (X' & Y' & Z').
  cbn; repeat split; apply Rmax_lub; assumption.
Qed.

Lemma linear_low : forall k x lo hi, lo <= x <= hi -> exists e, (e = lo \/ e = hi) /\ k * e <= k * x.
Proof.
  intros k x lo hi H; destruct (Rle_dec 0 k).
  - exists lo; split; [left; reflexivity | apply Rmult_le_compat_l; lra].
  - exists hi; split; [right; reflexivity |].
    assert (- k * x <= - k * hi) by (apply Rmult_le_compat_l; lra); lra.
Qed.
Lemma linear_high : forall k x lo hi, lo <= x <= hi -> exists e, (e = lo \/ e = hi) /\ k * x <= k * e.
Proof.
  intros k x lo hi H; destruct (linear_low (- k) x lo hi H) as (e & E & L); exists e; split; [exact E | lra].
Qed.

Lemma corner_in : forall m lo hi x y z, (x = lo \/ x = hi) -> (y = lo \/ y = hi) -> (z = lo \/ z = hi) ->
  In (m_point m (RV x y z)) (corners m lo hi).
Proof. intros m lo hi x y z [-> | ->] [-> | ->] [-> | ->]; unfold corners; cbn [In]; tauto. Qed.

(* C106.  The box of a transformed shape contains the image of every point of the cube that
   encloses the shape, and no smaller box contains the images of the corners. *)
Theorem transformed_box_contains : forall m lo hi p, affine m -> in_cube lo hi p ->
  between (fst (transformed_box m lo hi)) (snd (transformed_box m lo hi)) (m_point m p).
Proof.
  intros m lo hi p A (X & Y & Z).
  assert (L : forall q, In q (corners m lo hi) ->
     between (fst (transformed_box m lo hi)) (snd (transformed_box m lo hi)) q).
  { intros q I; unfold transformed_box; unfold corners in *; cbn [fst snd].
    pose proof (fold_min _ _ _ I); pose proof (fold_max _ _ _ I); unfold between; tauto. }
  assert (C : forall k0 k1 k2,
    exists x y z, In (m_point m (RV x y z)) (corners m lo hi) /\
      k0 * x + k1 * y + k2 * z <= k0 * rx p + k1 * ry p + k2 * rz p).
  { intros k0 k1 k2.
    destruct (linear_low k0 _ lo hi X) as (x & Ex & Lx); destruct (linear_low k1 _ lo hi Y) as (y & Ey & Ly);
    destruct (linear_low k2 _ lo hi Z) as (z & Ez & Lz).
    exists x, y, z; split; [apply corner_in; assumption | lra]. }
  set (b := transformed_box m lo hi) in *; clearbody b.
  assert (PA : forall q, m_point m q = RV (m00 m * rx q + m01 m * ry q + m02 m * rz q + m03 m)
                   (m10 m * rx q + m11 m * ry q + m12 m * rz q + m13 m)
                   (m20 m * rx q + m21 m * ry q + m22 m * rz q + m23 m)) by (intro q; apply point_affine, A).
  unfold between; rewrite (PA p); cbn [rx ry rz].
  split; [split | split; split].
  - destruct (C (m00 m) (m01 m) (m02 m)) as (x & y & z & I & Q); apply L in I; rewrite PA in I; destruct I as (I & _); cbn in I; lra.
  - destruct (C (- m00 m) (- m01 m) (- m02 m)) as (x & y & z & I & Q); apply L in I; rewrite PA in I; destruct I as (I & _); cbn in I; lra.
  - destruct (C (m10 m) (m11 m) (m12 m)) as (x & y & z & I & Q); apply L in I; rewrite PA in I; destruct I as (_ & I & _); cbn in I; lra.
  - destruct (C (- m10 m) (- m11 m) (- m12 m)) as (x & y & z & I & Q); apply L in I; rewrite PA in I; destruct I as (_ & I & _); cbn in I; lra.
  - destruct (C (m20 m) (m21 m) (m22 m)) as (x & y & z & I & Q); apply L in I; rewrite PA in I; destruct I as (_ & _ & I); cbn in I; lra.
  - destruct (C (- m20 m) (- m21 m) (- m22 m)) as (x & y & z & I & Q); apply L in I; rewrite PA in I; destruct I as (_ & _ & I); cbn in I; lra.
Qed.
Print Assumptions transformed_box_contains.

Theorem transformed_box_smallest : forall m lo hi a b, lo <= hi ->
  (forall p, in_cube lo hi p -> between a b (m_point m p)) ->
  forall q, between (fst (transformed_box m lo hi)) (snd (transformed_box m lo hi)) q -> between a b q.
Proof.
  intros m lo hi a b LH H q Q.
  assert (C : forall c, In c (corners m lo hi) -> between a b c).
  { intros c I; unfold corners in I; cbn [In] in I.
    repeat (destruct I as [<- | I]; [apply H; unfold in_cube; cbn; lra |]); destruct I. }
  unfold transformed_box in Q; unfold corners in *; cbn [fst snd] in Q.
  match type of Q with between (fold_left rpmin ?l ?p) _ _ =>
    assert (L := fold_min_greatest l p a); assert (U := fold_max_least l p b) end.
  destruct L as (L1 & L2 & L3); [intros c I; destruct (C c I) as (? & ? & ?); lra |].
  destruct U as (U1 & U2 & U3); [intros c I; destruct (C c I) as (? & ? & ?); lra |].
  destruct Q as (Q1 & Q2 & Q3); unfold between; lra.
Qed.
Print Assumptions transformed_box_smallest.

Theorem sphere_box_contains : forall position rotation scale p, on_sphere p ->
  let m := config_transform position rotation scale in
  between (fst (sphere_box m)) (snd (sphere_box m)) (m_point m p).
Proof.
  intros po ro sc p S; pose proof (config_affine po ro sc) as A; revert A.
  generalize (config_transform po ro sc); intros m A; cbn zeta; unfold sphere_box.
  apply (transformed_box_contains m (-1) 1 p A).
  unfold on_sphere in S; pose proof (Rle_0_sqr (rx p)); pose proof (Rle_0_sqr (ry p)); pose proof (Rle_0_sqr (rz p)); unfold Rsqr in *.
  assert (SQ : forall x, x * x <= 1 -> -1 <= x <= 1) by (intros x X; split; nra).
  unfold in_cube; repeat split; apply SQ; lra.
Qed.
Print Assumptions sphere_box_contains.
Example sphere_box_ex : on_sphere (RV (3 / 5) 0 (- (4 / 5))). Proof. unfold on_sphere; cbn; lra. Qed.

(* ----- sampling ----- *)

(* C107.  Sampling a sphere gives points on it, all of them, with equal density: the area
   element is 4 pi everywhere. *)
Theorem sphere_sample_on : forall r0 r1, 0 <= r0 <= 1 -> on_sphere (sphere_sample r0 r1).
Proof.
  intros r0 r1 H; unfold on_sphere, sphere_sample; cbn.
  assert (P : 0 <= 1 - (1 - 2 * r0) * (1 - 2 * r0)) by nra.
  rewrite Rmax_right by exact P; pose proof (sqrt_sqrt _ P) as S.
  set (s := sqrt (1 - (1 - 2 * r0) * (1 - 2 * r0))) in *; pose proof (sc1 (2 * PI * r1)) as T.
  transitivity (s * s * (sin (2 * PI * r1) * sin (2 * PI * r1) + cos (2 * PI * r1) * cos (2 * PI * r1)) + (1 - 2 * r0) * (1 - 2 * r0)); [ring |].
  rewrite T, S; ring.
Qed.
Print Assumptions sphere_sample_on.

Theorem sphere_sample_uniform : forall r0 r1, 0 < r0 < 1 -> area_element sphere_sample r0 r1 (4 * PI).
Proof.
  intros r0 r1 H.
  set (z := 1 - 2 * r0).
  assert (P : 0 < 1 - z * z) by (unfold z; nra).
  set (w := sqrt (1 - z * z)).
  assert (W : 0 < w) by (apply sqrt_lt_R0, P).
  assert (WW : w * w = 1 - z * z) by (apply sqrt_sqrt; lra).
  set (ph := 2 * PI * r1).
  assert (DW : derivable_pt_lim (fun u => sqrt (Rmax 0 (1 - (1 - 2 * u) * (1 - 2 * u)))) r0 (2 * z / w)).
  { assert (D1 : derivable_pt_lim (fun u => sqrt (1 - (1 - 2 * u) * (1 - 2 * u))) r0 (/ (2 * sqrt (1 - z * z)) * (4 * z))).
    { apply (derivable_pt_lim_comp (fun u => 1 - (1 - 2 * u) * (1 - 2 * u)) sqrt).
      - replace (4 * z) with (0 - ((0 - 2 * 1) * (1 - 2 * r0) + (1 - 2 * r0) * (0 - 2 * 1))) by (unfold z; ring).
        apply (derivable_pt_lim_minus (fun _ => 1) (fun u => (1 - 2 * u) * (1 - 2 * u))); [apply derivable_pt_lim_const |].
        assert (L : derivable_pt_lim (fun u => 1 - 2 * u) r0 (0 - 2 * 1)).
        { apply (derivable_pt_lim_minus (fun _ => 1) (fun u => 2 * u)); [apply derivable_pt_lim_const |].
          apply (derivable_pt_lim_scal (fun u => u) 2 r0 1), derivable_pt_lim_id. }
        apply (derivable_pt_lim_mult (fun u => 1 - 2 * u) (fun u => 1 - 2 * u)); exact L.
      - apply derivable_pt_lim_sqrt; exact P. }
    fold w in D1; replace (/ (2 * w) * (4 * z)) with (2 * z / w) in D1 by (field; lra).
    intros eps E; destruct (D1 eps E) as (d & D); exists (mkposreal (Rmin d (Rmin r0 (1 - r0)))
      ltac:(apply Rmin_pos; [apply cond_pos | apply Rmin_pos; lra])).
    intros h H0 HD; cbn in HD.
    assert (B1 := Rmin_l d (Rmin r0 (1 - r0))); assert (B2 := Rmin_r d (Rmin r0 (1 - r0))).
    assert (B3 := Rmin_l r0 (1 - r0)); assert (B4 := Rmin_r r0 (1 - r0)).
    assert (HH : - r0 < h < 1 - r0) by (apply Rabs_def2 in HD; lra).
    rewrite !Rmax_right; [apply D; [exact H0 | lra] | nra | nra]. }
  exists (RV (2 * z / w * cos ph) (2 * z / w * sin ph) (-2)), (RV (- (2 * PI) * w * sin ph) (2 * PI * w * cos ph) 0).
  assert (SW : sqrt (Rmax 0 (1 - (1 - 2 * r0) * (1 - 2 * r0))) = w) by (fold z; rewrite Rmax_right by lra; reflexivity).
  assert (DPH : derivable_pt_lim (fun v => 2 * PI * v) r1 (2 * PI * 1)).
  { apply (derivable_pt_lim_scal (fun v => v) (2 * PI) r1 1), derivable_pt_lim_id. }
  unfold sphere_sample; cbn [rx ry rz]; rewrite SW.
  split; [| split; [| split; [| split; [| split; [| split]]]]].
  - replace (2 * z / w * cos ph) with (2 * z / w * cos ph + sqrt (Rmax 0 (1 - (1 - 2 * r0) * (1 - 2 * r0))) * 0) by ring.
    apply (derivable_pt_lim_mult (fun u => sqrt (Rmax 0 (1 - (1 - 2 * u) * (1 - 2 * u)))) (fun _ => cos ph)); [exact DW | apply derivable_pt_lim_const].
  - replace (2 * z / w * sin ph) with (2 * z / w * sin ph + sqrt (Rmax 0 (1 - (1 - 2 * r0) * (1 - 2 * r0))) * 0) by ring.
    apply (derivable_pt_lim_mult (fun u => sqrt (Rmax 0 (1 - (1 - 2 * u) * (1 - 2 * u)))) (fun _ => sin ph)); [exact DW | apply derivable_pt_lim_const].
  - replace (-2) with (0 - 2 * 1) by ring.
    apply (derivable_pt_lim_minus (fun _ => 1) (fun u => 2 * u)); [apply derivable_pt_lim_const |].
    apply (derivable_pt_lim_scal (fun u => u) 2 r0 1), derivable_pt_lim_id.
  - replace (- (2 * PI) * w * sin ph) with (w * (- sin ph * (2 * PI * 1))) by ring.
    apply (derivable_pt_lim_scal (fun v => cos (2 * PI * v)) w r1).
    apply (derivable_pt_lim_comp (fun v => 2 * PI * v) cos); [exact DPH | apply derivable_pt_lim_cos].
  - replace (2 * PI * w * cos ph) with (w * (cos ph * (2 * PI * 1))) by ring.
    apply (derivable_pt_lim_scal (fun v => sin (2 * PI * v)) w r1).
    apply (derivable_pt_lim_comp (fun v => 2 * PI * v) sin); [exact DPH | apply derivable_pt_lim_sin].
  - apply derivable_pt_lim_const.
  - unfold rlength.
    assert (E : rdot (rcross (RV (2 * z / w * cos ph) (2 * z / w * sin ph) (-2)) (RV (- (2 * PI) * w * sin ph) (2 * PI * w * cos ph) 0))
                     (rcross (RV (2 * z / w * cos ph) (2 * z / w * sin ph) (-2)) (RV (- (2 * PI) * w * sin ph) (2 * PI * w * cos ph) 0)) =
                 Rsqr (4 * PI)).
    { pose proof (sc1 ph) as T; unfold rdot, rcross, Rsqr; cbn [rx ry rz].
      generalize dependent (sin ph); intros sn T; generalize dependent (cos ph); intros cs T.
      transitivity (16 * PI * PI * (w * w) * (sn * sn + cs * cs) + 16 * PI * PI * z * z * ((sn * sn + cs * cs) * (sn * sn + cs * cs))).
      - field; lra.
      - rewrite T, WW; ring. }
    rewrite E; apply sqrt_Rsqr; pose proof PI_RGT_0; lra.
Qed.
Print Assumptions sphere_sample_uniform.
Example sphere_sample_ex : 0 < 1 / 3 < 1. Proof. lra. Qed.

(* C108.  Sampling a box. *)
Lemma lerp0 : forall u d, lerp u 0 d = u * d.
Proof. intros; unfold lerp; ring. Qed.
Lemma unlerp0 : forall x d, inverse_lerp x 0 d = x / d.
Proof. intros; unfold inverse_lerp; rewrite !Rminus_0_r; reflexivity. Qed.

Theorem box_sample_face : forall position rotation scale r0 r1,
  0 < rx scale -> 0 < ry scale -> 0 < rz scale -> 0 <= r0 <= 1 -> 0 <= r1 <= 1 ->
  let m := config_transform position rotation scale in
  face (fst (box_sample r0 r1 (box_densities m))) (snd (box_sample r0 r1 (box_densities m))).
Proof.
  intros po ro sc r0 r1 X Y Z R0 R1; pose proof (proj1 (config_scale po ro sc)) as G; revert G.
  generalize (config_transform po ro sc); intros m G; cbn zeta.
  unfold box_densities; rewrite G; cbn [rx ry rz]; rewrite !Rabs_right by lra.
  set (xy := rx sc * ry sc); set (xz := rx sc * rz sc); set (zy := rz sc * ry sc).
  assert (P1 : 0 < xy) by (apply Rmult_lt_0_compat; lra).
  assert (P2 : 0 < xz) by (apply Rmult_lt_0_compat; lra).
  assert (P3 : 0 < zy) by (apply Rmult_lt_0_compat; lra).
  clearbody xy xz zy.
  unfold box_sample; cbn [nth]; rewrite lerp0, !unlerp0.
  set (res := r0 * (xy * 2 + xz + xz + zy + zy)).
  assert (B0 : 0 <= res) by (apply Rmult_le_pos; lra).
  assert (B1 : res <= 1 * (xy * 2 + xz + xz + zy + zy)) by (apply Rmult_le_compat_r; lra).
  clearbody res.
  assert (FR : forall a b, 0 <= a -> a <= b -> 0 < b -> 0 <= a / b <= 1).
  { intros a b A AB Bp; split; [apply Rmult_le_pos; [exact A | left; apply Rinv_0_lt_compat, Bp] |].
    apply Rmult_le_reg_r with b; [exact Bp | unfold Rdiv; rewrite Rmult_assoc, Rinv_l by lra; lra]. }
  destruct (Rlt_dec res xy); [constructor; [apply FR; lra | lra] |].
  destruct (Rlt_dec res (xy * 2)); [constructor; [apply FR; lra | lra] |].
  destruct (Rlt_dec res (xy * 2 + xz)); [constructor; [apply FR; lra | lra] |].
  destruct (Rlt_dec res (xy * 2 + xz + xz)); [constructor; [apply FR; lra | lra] |].
  destruct (Rlt_dec res (xy * 2 + xz + xz + zy)); [constructor; [lra | apply FR; lra] |].
  constructor; [lra | apply FR; lra].
Qed.
Print Assumptions box_sample_face.

(* a function that is affine near a point *)
Lemma local_affine : forall f x e a b, 0 < e -> (forall u, Rabs (u - x) < e -> f u = a + b * u) -> derivable_pt_lim f x b.
Proof.
  intros f x e a b E H eps P; exists (mkposreal e E); intros h H0 HD; cbn in HD.
  rewrite (H (x + h)) by (replace (x + h - x) with h by ring; exact HD).
  rewrite (H x) by (replace (x - x) with 0 by ring; rewrite Rabs_R0; exact E).
  replace ((a + b * (x + h) - (a + b * x)) / h - b) with 0 by (field; exact H0); rewrite Rabs_R0; exact P.
Qed.

(* lengths of cross products survive a map that keeps scalar products *)
Lemma cross_length : forall f, keeps_dot f -> forall a b, rlength (rcross (f a) (f b)) = rlength (rcross a b).
Proof.
  intros f K a b; unfold rlength; f_equal.
  assert (L : forall a b, rdot (rcross a b) (rcross a b) = rdot a a * rdot b b - rdot a b * rdot a b).
  { intros c d; unfold rdot, rcross; cbn; ring. }
  rewrite !L, !K; reflexivity.
Qed.

(* the surface of the box is that of its six rectangles, and the densities sum up to it *)
Theorem box_surface_ok : forall position rotation scale, 0 < rx scale -> 0 < ry scale -> 0 < rz scale ->
  let m := config_transform position rotation scale in
  box_surface m = 2 * (rx scale * ry scale) + 2 * (rx scale * rz scale) + 2 * (ry scale * rz scale) /\
  nth 5 (box_densities m) 0 = box_surface m.
Proof.
  intros po ro sc X Y Z; pose proof (proj1 (config_scale po ro sc)) as G; revert G.
  generalize (config_transform po ro sc); intros m G; cbn zeta.
  unfold box_surface, box_densities; rewrite G; cbn [nth rx ry rz]; rewrite !Rabs_right by lra; split; ring.
Qed.
Print Assumptions box_surface_ok.

(* affine in both arguments near (r0, r1): the area element *)
Lemma affine_area : forall (m : rmat) f r0 r1 e o a b k, affine m -> 0 < e ->
  (forall u v, Rabs (u - r0) < e -> f u v = radd o (radd (rscale u a) (rscale v b))) ->
  rlength (rcross (m_vec m a) (m_vec m b)) = k ->
  area_element (fun u v => m_point m (f u v)) r0 r1 k.
Proof.
  intros m f r0 r1 e o a b k A E H K.
  assert (PT : forall u v, Rabs (u - r0) < e ->
    m_point m (f u v) = radd (m_point m o) (radd (rscale u (m_vec m a)) (rscale v (m_vec m b)))).
  { intros u v U; rewrite H, !point_affine by assumption; unfold radd, rscale, m_vec; apply rv_eq; cbn; ring. }
  exists (m_vec m a), (m_vec m b).
  assert (E0 : Rabs (r0 - r0) < e) by (replace (r0 - r0) with 0 by ring; rewrite Rabs_R0; exact E).
  split; [| split; [| split; [| split; [| split; [| split; [| exact K]]]]]].
  - apply local_affine with e (rx (m_point m o) + r1 * rx (m_vec m b)); [exact E | intros u U; rewrite PT by exact U; cbn; ring].
  - apply local_affine with e (ry (m_point m o) + r1 * ry (m_vec m b)); [exact E | intros u U; rewrite PT by exact U; cbn; ring].
  - apply local_affine with e (rz (m_point m o) + r1 * rz (m_vec m b)); [exact E | intros u U; rewrite PT by exact U; cbn; ring].
  - apply local_affine with e (rx (m_point m o) + r0 * rx (m_vec m a)); [exact E | intros u U; rewrite PT by exact E0; cbn; ring].
  - apply local_affine with e (ry (m_point m o) + r0 * ry (m_vec m a)); [exact E | intros u U; rewrite PT by exact E0; cbn; ring].
  - apply local_affine with e (rz (m_point m o) + r0 * rz (m_vec m a)); [exact E | intros u U; rewrite PT by exact E0; cbn; ring].
Qed.

Lemma nearby : forall r0 D lo hi, 0 < D -> lo < r0 * D < hi ->
  exists e, 0 < e /\ forall u, Rabs (u - r0) < e -> lo < u * D < hi.
Proof.
  intros r0 D lo hi DP (L & H).
  exists (Rmin (r0 * D - lo) (hi - r0 * D) / D).
  assert (M : 0 < Rmin (r0 * D - lo) (hi - r0 * D)) by (apply Rmin_pos; lra).
  split; [apply Rdiv_lt_0_compat; assumption |].
  intros u U; apply Rabs_def2 in U; destruct U as [U1 U2].
  pose proof (Rmin_l (r0 * D - lo) (hi - r0 * D)); pose proof (Rmin_r (r0 * D - lo) (hi - r0 * D)).
  set (w := Rmin (r0 * D - lo) (hi - r0 * D)) in *; clearbody w.
  assert (A1 : (u - r0) * D < w / D * D) by (apply Rmult_lt_compat_r; lra).
  assert (A2 : - (w / D) * D < (u - r0) * D) by (apply Rmult_lt_compat_r; lra).
  replace (w / D * D) with w in A1 by (field; lra); replace (- (w / D) * D) with (- w) in A2 by (field; lra).
  lra.
Qed.

(* In the world the density is the same everywhere off the edges: the area element is the
   whole surface. *)
Theorem box_sample_uniform : forall position rotation scale r0 r1,
  0 < rx scale -> 0 < ry scale -> 0 < rz scale -> 0 < r0 < 1 ->
  let m := config_transform position rotation scale in
  (forall k, (k < 6)%nat -> r0 * box_surface m <> nth k (box_densities m) 0) ->
  area_element (fun u v => m_point m (fst (box_sample u v (box_densities m)))) r0 r1 (box_surface m).
Proof.
  intros po ro sc r0 r1 X Y Z R0.
  pose proof (config_affine po ro sc) as A; pose proof (proj1 (config_scale po ro sc)) as G.
  pose proof (config_vec po ro sc) as CV; revert A G CV.
  generalize (config_transform po ro sc); intros m A G CV; cbn zeta; intro NE.
  assert (LEN : forall a b, rlength (rcross (m_vec m a) (m_vec m b)) =
     rlength (rcross (RV (rx sc * rx a) (ry sc * ry a) (rz sc * rz a)) (RV (rx sc * rx b) (ry sc * ry b) (rz sc * rz b)))).
  { intros a b; rewrite !CV.
    rewrite (cross_length _ (proj2 (proj2 (rotations_keep_dot (rz ro))))).
    rewrite (cross_length _ (proj1 (proj2 (rotations_keep_dot (ry ro))))).
    rewrite (cross_length _ (proj1 (rotations_keep_dot (rx ro)))); reflexivity. }
  clear CV.
  unfold box_densities, box_surface in *; rewrite G in *; cbn [rx ry rz] in *; rewrite !Rabs_right in * by lra.
  set (x := rx sc) in *; set (y := ry sc) in *; set (z := rz sc) in *.
  assert (P1 : 0 < x * y) by (apply Rmult_lt_0_compat; lra).
  assert (P2 : 0 < x * z) by (apply Rmult_lt_0_compat; lra).
  assert (P3 : 0 < z * y) by (apply Rmult_lt_0_compat; lra).
  set (D := x * y * 2 + x * z + x * z + z * y + z * y) in *.
  assert (DE : 2 * (x + z) * y + 2 * x * z = D) by (unfold D; ring).
  rewrite DE in *.
  assert (DP : 0 < D) by (unfold D; lra).
  pose proof (NE 0%nat ltac:(lia)) as N0; pose proof (NE 1%nat ltac:(lia)) as N1; pose proof (NE 2%nat ltac:(lia)) as N2.
  pose proof (NE 3%nat ltac:(lia)) as N3; pose proof (NE 4%nat ltac:(lia)) as N4; cbn [nth] in N0, N1, N2, N3, N4; clear NE.
  assert (B0 : 0 < r0 * D) by (apply Rmult_lt_0_compat; lra).
  assert (B1 : r0 * D < 1 * D) by (apply Rmult_lt_compat_r; lra).
  unfold box_sample; cbn [nth].
  assert (SQ : forall a k, 0 <= k -> rdot a a = k * k -> rlength a = k).
  { intros a k K E; unfold rlength; rewrite E; replace (k * k) with (Rsqr k) by reflexivity; apply sqrt_Rsqr, K. }
  assert (DL : 0 <= D) by lra.
  destruct (Rlt_dec (r0 * D) (x * y)) as [L | L].
  { destruct (nearby r0 D 0 (x * y) DP ltac:(lra)) as (e & E & H).
    apply affine_area with e (RV 0 0 1) (RV (D / (x * y)) 0 0) (RV 0 1 0); [exact A | exact E | |].
    - intros u v U; specialize (H u U); rewrite lerp0, !unlerp0.
      destruct (Rlt_dec (u * D) (x * y)); [| lra]; apply rv_eq; cbn; field; lra.
    - rewrite LEN; apply SQ; [exact DL |]; unfold rdot, rcross; cbn; field; lra. }
  destruct (Rlt_dec (r0 * D) (x * y * 2)) as [L1 | L1].
  { destruct (nearby r0 D (x * y) (x * y * 2) DP ltac:(lra)) as (e & E & H).
    apply affine_area with e (RV (-1) 0 0) (RV (D / (x * y)) 0 0) (RV 0 1 0); [exact A | exact E | |].
    - intros u v U; specialize (H u U); rewrite lerp0, !unlerp0.
      destruct (Rlt_dec (u * D) (x * y)); [lra |]; destruct (Rlt_dec (u * D) (x * y * 2)); [| lra]; apply rv_eq; cbn; field; lra.
    - rewrite LEN; apply SQ; [exact DL |]; unfold rdot, rcross; cbn; field; lra. }
  destruct (Rlt_dec (r0 * D) (x * y * 2 + x * z)) as [L2 | L2].
  { destruct (nearby r0 D (x * y * 2) (x * y * 2 + x * z) DP ltac:(lra)) as (e & E & H).
    apply affine_area with e (RV (- (x * y * 2) / (x * z)) 0 0) (RV (D / (x * z)) 0 0) (RV 0 0 1); [exact A | exact E | |].
    - intros u v U; specialize (H u U); rewrite lerp0, !unlerp0.
      destruct (Rlt_dec (u * D) (x * y)); [lra |]; destruct (Rlt_dec (u * D) (x * y * 2)); [lra |].
      destruct (Rlt_dec (u * D) (x * y * 2 + x * z)); [| lra]; apply rv_eq; cbn; field; lra.
    - rewrite LEN; apply SQ; [exact DL |]; unfold rdot, rcross; cbn; field; lra. }
  destruct (Rlt_dec (r0 * D) (x * y * 2 + x * z + x * z)) as [L3 | L3].
  { destruct (nearby r0 D (x * y * 2 + x * z) (x * y * 2 + x * z + x * z) DP ltac:(lra)) as (e & E & H).
    apply affine_area with e (RV (- (x * y * 2 + x * z) / (x * z)) 1 0) (RV (D / (x * z)) 0 0) (RV 0 0 1); [exact A | exact E | |].
    - intros u v U; specialize (H u U); rewrite lerp0, !unlerp0.
      destruct (Rlt_dec (u * D) (x * y)); [lra |]; destruct (Rlt_dec (u * D) (x * y * 2)); [lra |].
      destruct (Rlt_dec (u * D) (x * y * 2 + x * z)); [lra |].
      destruct (Rlt_dec (u * D) (x * y * 2 + x * z + x * z)); [| lra]; apply rv_eq; cbn; field; lra.
    - rewrite LEN; apply SQ; [exact DL |]; unfold rdot, rcross; cbn; field; lra. }
  destruct (Rlt_dec (r0 * D) (x * y * 2 + x * z + x * z + z * y)) as [L4 | L4].
  { destruct (nearby r0 D (x * y * 2 + x * z + x * z) (x * y * 2 + x * z + x * z + z * y) DP ltac:(lra)) as (e & E & H).
    apply affine_area with e (RV 0 0 (- (x * y * 2 + x * z + x * z) / (z * y))) (RV 0 0 (D / (z * y))) (RV 0 1 0); [exact A | exact E | |].
    - intros u v U; specialize (H u U); rewrite lerp0, !unlerp0.
      destruct (Rlt_dec (u * D) (x * y)); [lra |]; destruct (Rlt_dec (u * D) (x * y * 2)); [lra |].
      destruct (Rlt_dec (u * D) (x * y * 2 + x * z)); [lra |].
      destruct (Rlt_dec (u * D) (x * y * 2 + x * z + x * z)); [lra |].
      destruct (Rlt_dec (u * D) (x * y * 2 + x * z + x * z + z * y)); [| lra]; apply rv_eq; cbn; field; lra.
    - rewrite LEN; apply SQ; [exact DL |]; unfold rdot, rcross; cbn; field; lra. }
  { destruct (nearby r0 D (x * y * 2 + x * z + x * z + z * y) D DP ltac:(lra)) as (e & E & H).
    apply affine_area with e (RV 1 0 (- (x * y * 2 + x * z + x * z + z * y) / (z * y))) (RV 0 0 (D / (z * y))) (RV 0 1 0); [exact A | exact E | |].
    - intros u v U; specialize (H u U); rewrite lerp0, !unlerp0.
      destruct (Rlt_dec (u * D) (x * y)); [lra |]; destruct (Rlt_dec (u * D) (x * y * 2)); [lra |].
      destruct (Rlt_dec (u * D) (x * y * 2 + x * z)); [lra |].
      destruct (Rlt_dec (u * D) (x * y * 2 + x * z + x * z)); [lra |].
      destruct (Rlt_dec (u * D) (x * y * 2 + x * z + x * z + z * y)); [lra |].
      apply rv_eq; cbn; try ring; unfold D; field; lra.
    - rewrite LEN; apply SQ; [exact DL |]; unfold rdot, rcross; cbn; field; lra. }
Qed.
Print Assumptions box_sample_uniform.
Example box_sample_ex : 0 < 2 /\ 0 < 3 /\ 0 < 4 /\ 0 < 1 / 7 < 1 /\ 1 / 7 * 52 <> 6 /\ 1 / 7 * 52 <> 12.
Proof. lra. Qed.
