(* C121-C123: sampling of area lights. *)
From Coq Require Import Reals Lra Lia.
From Verif Require Import RVecModel RVecProps MatModel MatSpec MatProps LightModel LightSpec.
Local Open Scope R_scope.

Lemma dot_scale : forall k v, rdot (rscale k v) (rscale k v) = k * k * rdot v v.
Proof. intros; unfold rdot, rscale; cbn; ring. Qed.

Lemma length_unit_scale : forall v k, rdot v v = 1 -> 0 <= k -> rlength (rscale k v) = k.
Proof. intros v k U K; unfold rlength; rewrite dot_scale, U, Rmult_1_r, sqrt_square; auto. Qed.

Lemma normalize_multiple : forall k v, 0 < k -> rdot v v = 1 -> rdot (rnormalize (rscale k v)) (rnormalize (rscale k v)) = 1 ->
  rnormalize (rscale k v) = v.
Proof.
  intros k v K U; unfold rnormalize; rewrite dot_scale, U, Rmult_1_r.
  assert (S : rscale (/ sqrt (k * k)) (rscale k v) = v).
  { rewrite sqrt_square by lra; unfold rscale; apply rv_eq; cbn [rx ry rz]; field; lra. }
  destruct (Rlt_dec (1 - / 100000) (k * k)); [| intros _; exact S].
  destruct (Rlt_dec (k * k) (1 + / 100000)); [| intros _; exact S].
  rewrite dot_scale, U, Rmult_1_r; intro E.
  assert (K1 : k = 1).
  { assert (Q : (k - 1) * (k + 1) = 0) by lra; apply Rmult_integral in Q; destruct Q; lra. }
  rewrite K1; unfold rscale; apply rv_eq; cbn [rx ry rz]; ring.
Qed.

(* the hypotheses of the theorems: the transform scales by s, the light is hit at parameter t *)
Definition lit (l : light) (s : R) (point pos : rv) (t : R) (n : rv) : Prop :=
  let o := m_point (l_to_obj l) pos in
  let d := rnormalize (rsub point o) in
  affine (l_to_world l) /\ m_inverse (l_to_world l) = Some (l_to_obj l) /\ 0 < s /\ scales_by s (l_to_world l) /\
  0 < l_area l /\ rdot n n = 1 /\ 0 < t /\ l_shape l (RRay o d) = Some (t, n) /\ rdot n (rneg d) <> 0 /\
  (* normalize gives vectors of length one: true unless the length is within 1e-5 of one *)
  rdot d d = 1 /\
  let w := rnormalize (m_vec (l_to_world l) d) in rdot w w = 1.

(* the point of the light that is sampled, and its unit normal in world space *)
Definition lit_point (l : light) (point pos : rv) (t : R) : rv :=
  let o := m_point (l_to_obj l) pos in
  m_point (l_to_world l) (rr_apply (RRay o (rnormalize (rsub point o))) t).
Definition lit_normal (l : light) (s : R) (n : rv) : rv := rscale (/ s) (m_vec (l_to_world l) n).

(* what the code reports, in terms of world space *)
Lemma sample_visible_world : forall l s point pos t n, lit l s point pos t n ->
  let q := lit_point l point pos t in let nw := lit_normal l s n in
  exists r, sample_visible l point pos = Some r /\
    rsub q pos = rscale (s * t) (ls_wi r) /\ rdot (ls_wi r) (ls_wi r) = 1 /\
    rlength (rsub q pos) = s * t /\ ls_distance r = t /\
    rdot nw nw = 1 /\
    ls_pdf r * (s * s) = solid_angle_density (l_area l) pos q nw /\
    0 < ls_pdf r /\
    ls_power r = if Rlt_dec 0 (rdot nw (rneg (ls_wi r))) then l_emission l else 0.
Proof.
  intros l s point pos t n (A & I & S & SC & AR & N1 & T & H & ND & D1 & W1) q nw.
  set (o := m_point (l_to_obj l) pos) in *; set (d := rnormalize (rsub point o)) in *.
  set (m := l_to_world l) in *.
  destruct (inverse_undoes m (l_to_obj l) A I) as (P1 & _ & _ & _).
  assert (PO : m_point m o = pos) by (unfold o; apply P1).
  assert (MD : rdot (rscale (/ s) (m_vec m d)) (rscale (/ s) (m_vec m d)) = 1).
  { rewrite dot_scale, SC, D1; field; lra. }
  assert (WI : rnormalize (m_vec m d) = rscale (/ s) (m_vec m d)).
  { assert (EQ : m_vec m d = rscale s (rscale (/ s) (m_vec m d))) by (unfold rscale; apply rv_eq; cbn [rx ry rz]; field; lra).
    rewrite EQ at 1; apply normalize_multiple; [exact S | exact MD | rewrite <- EQ; exact W1]. }
  assert (Q : q = radd pos (rscale t (m_vec m d))).
  { unfold q, lit_point; fold o; fold d; fold m; rewrite transform_ray_parameter by exact A.
    unfold m_ray, rr_apply; cbn [r_org r_dir]; rewrite PO; unfold radd, rscale; apply rv_eq; cbn [rx ry rz]; ring. }
  assert (ST : 0 < s * t) by (apply Rmult_lt_0_compat; assumption).
  unfold sample_visible; fold o; fold d; rewrite H.
  assert (DEN : rabsdot n (rneg d) * l_area l <> 0).
  { unfold rabsdot; apply Rmult_integral_contrapositive_currified; [apply Rabs_no_R0; exact ND | lra]. }
  destruct (Req_EM_T _ 0) as [C | _]; [contradiction |].
  eexists; split; [reflexivity |]; cbn [ls_wi ls_distance ls_pdf ls_power]; fold m.
  assert (QP : rsub q pos = rscale (s * t) (rscale (/ s) (m_vec m d))).
  { rewrite Q; unfold rsub, radd, rscale; apply rv_eq; cbn [rx ry rz]; field; lra. }
  assert (LEN : rlength (rsub q pos) = s * t) by (rewrite QP; apply length_unit_scale; [exact MD | lra]).
  split; [rewrite WI; exact QP |].
  split; [exact W1 |].
  split; [exact LEN |].
  split; [reflexivity |].
  assert (NW : rdot nw nw = 1) by (unfold nw, lit_normal; fold m; rewrite dot_scale, SC, N1; field; lra).
  split; [exact NW |].
  assert (R2 : (rx o - rx (rr_apply (RRay o d) t)) * (rx o - rx (rr_apply (RRay o d) t)) +
               (ry o - ry (rr_apply (RRay o d) t)) * (ry o - ry (rr_apply (RRay o d) t)) +
               (rz o - rz (rr_apply (RRay o d) t)) * (rz o - rz (rr_apply (RRay o d) t)) = t * t).
  { unfold rr_apply; cbn [r_org r_dir rx ry rz]; transitivity (t * t * rdot d d); [unfold rdot; ring | rewrite D1; ring]. }
  assert (NNEG : rdot n (rneg d) = - rdot n d) by (unfold rdot, rneg; cbn [rx ry rz]; ring).
  assert (AD : rabsdot n (rneg d) = Rabs (rdot n d)) by (unfold rabsdot; rewrite NNEG; apply Rabs_Ropp).
  assert (NQ : rdot nw (rsub q pos) = (s * t) * rdot n d).
  { rewrite QP; unfold nw, lit_normal; fold m.
    transitivity (s * t * (/ s * / s * rdot (m_vec m n) (m_vec m d))).
    - unfold rdot, rscale; cbn [rx ry rz]; ring.
    - rewrite SC; field; lra. }
  assert (APOS : 0 < Rabs (rdot n d)) by (apply Rabs_pos_lt; intro C; apply ND; rewrite NNEG, C; ring).
  split.
  { unfold solid_angle_density; rewrite LEN; unfold rabsdot at 2; rewrite NQ, Rabs_mult, (Rabs_right (s * t)) by lra.
    rewrite R2, AD, QP, dot_scale, MD; field; repeat split; lra. }
  split.
  { rewrite R2, AD; apply Rdiv_lt_0_compat; [apply Rmult_lt_0_compat; assumption | apply Rmult_lt_0_compat; assumption]. }
  assert (SG : rdot nw (rneg (rnormalize (m_vec m d))) = rdot n (rneg d)).
  { rewrite WI; unfold nw, lit_normal; fold m.
    transitivity (- (/ s * / s * rdot (m_vec m n) (m_vec m d))); [unfold rdot, rscale, rneg; cbn [rx ry rz]; ring |].
    rewrite SC, NNEG; field; lra. }
  rewrite SG; reflexivity.
Qed.

(* C121.  A light that is not scaled: the sample is a direction towards a point of the light,
   with the distance of that point, the density of uniform sampling by area seen from the
   position, and the emission exactly if the light faces the position. *)
Theorem light_sample_unscaled : forall l point pos t n, lit l 1 point pos t n ->
  let q := lit_point l point pos t in let nw := lit_normal l 1 n in
  exists r, sample_visible l point pos = Some r /\
    rsub q pos = rscale (ls_distance r) (ls_wi r) /\ rdot (ls_wi r) (ls_wi r) = 1 /\
    ls_distance r = rlength (rsub q pos) /\
    ls_pdf r = solid_angle_density (l_area l) pos q nw /\
    ls_power r = if Rlt_dec 0 (rdot nw (rneg (ls_wi r))) then l_emission l else 0.
Proof.
  intros l point pos t n L q nw; destruct (sample_visible_world l 1 point pos t n L) as (r & E & QP & U & LEN & DI & _ & PDF & _ & PW).
  exists r; split; [exact E |]; fold q in QP, LEN, PDF; fold nw in PDF, PW.
  rewrite Rmult_1_l in QP, LEN; rewrite DI; split; [exact QP |]; split; [exact U |]; split; [symmetry; exact LEN |].
  split; [rewrite <- PDF; ring | exact PW].
Qed.
Print Assumptions light_sample_unscaled.

(* C122.  A scaled light: the distance handed to the occlusion test is not that of the light,
   and the density is too small by the square of the scale. *)
Theorem light_sample_scaled_refuted : forall l s point pos t n, lit l s point pos t n -> s <> 1 ->
  exists r, sample_visible l point pos = Some r /\
    ls_distance r <> rlength (rsub (lit_point l point pos t) pos) /\
    ls_pdf r <> solid_angle_density (l_area l) pos (lit_point l point pos t) (lit_normal l s n).
Proof.
  intros l s point pos t n L S1; destruct (sample_visible_world l s point pos t n L) as (r & E & QP & U & LEN & DI & _ & PDF & PP & PW).
  exists r; split; [exact E |]; destruct L as (_ & _ & S & _ & _ & _ & T & _).
  split.
  - rewrite LEN, DI; intro C; apply S1; apply (Rmult_eq_reg_r t); lra.
  - rewrite <- PDF; intro C; apply S1.
    assert (Q : s * s = 1) by (apply (Rmult_eq_reg_l (ls_pdf r)); lra).
    assert (Q2 : (s - 1) * (s + 1) = 0) by lra; apply Rmult_integral in Q2; destruct Q2; lra.
Qed.
Print Assumptions light_sample_scaled_refuted.

(* the density asked for a direction, against the density of the sample with that direction *)
Lemma light_pdf_world : forall l s point pos t n, lit l s point pos t n -> homogeneous (l_shape l) ->
  exists r, sample_visible l point pos = Some r /\ light_pdf l pos (ls_wi r) = s * ls_pdf r /\ 0 < ls_pdf r.
Proof.
  intros l s point pos t n L HO; pose proof (sample_visible_world l s point pos t n L) as (r & E & _ & _ & _ & _ & _ & _ & PP & _).
  exists r; split; [exact E |]; split; [| exact PP].
  destruct L as (A & I & S & SC & AR & N1 & T & H & ND & D1 & W1).
  set (o := m_point (l_to_obj l) pos) in *; set (d := rnormalize (rsub point o)) in *; set (m := l_to_world l) in *.
  destruct (inverse_undoes m (l_to_obj l) A I) as (_ & _ & _ & V2).
  assert (DEN : rabsdot n (rneg d) * l_area l <> 0).
  { unfold rabsdot; apply Rmult_integral_contrapositive_currified; [apply Rabs_no_R0; exact ND | lra]. }
  assert (MD : rdot (rscale (/ s) (m_vec m d)) (rscale (/ s) (m_vec m d)) = 1).
  { rewrite dot_scale, SC, D1; field; lra. }
  assert (WI : rnormalize (m_vec m d) = rscale (/ s) (m_vec m d)).
  { assert (EQ : m_vec m d = rscale s (rscale (/ s) (m_vec m d))) by (unfold rscale; apply rv_eq; cbn [rx ry rz]; field; lra).
    rewrite EQ at 1; apply normalize_multiple; [exact S | exact MD | rewrite <- EQ; exact W1]. }
  unfold sample_visible in E; fold o in E; fold d in E; rewrite H in E.
  destruct (Req_EM_T _ 0) as [C | _]; [contradiction |]; injection E as <-; cbn [ls_wi ls_pdf]; fold m; rewrite WI.
  unfold light_pdf; fold o.
  assert (DW : m_vec (l_to_obj l) (rscale (/ s) (m_vec m d)) = rscale (/ s) d).
  { transitivity (rscale (/ s) (m_vec (l_to_obj l) (m_vec m d))).
    - unfold m_vec, rscale; apply rv_eq; cbn [rx ry rz]; ring.
    - rewrite V2; reflexivity. }
  rewrite DW, HO by (apply Rinv_0_lt_compat; exact S); rewrite H; cbn [r_org r_dir].
  assert (SAME : rr_apply (RRay o (rscale (/ s) d)) (t / / s) = rr_apply (RRay o d) t).
  { unfold rr_apply, rscale; cbn [r_org r_dir rx ry rz]; apply rv_eq; cbn [rx ry rz]; field; lra. }
  rewrite SAME.
  assert (AD : rabsdot n (rneg (rscale (/ s) d)) = / s * rabsdot n (rneg d)).
  { unfold rabsdot; rewrite <- (Rabs_right (/ s)) at 2 by (apply Rle_ge, Rlt_le, Rinv_0_lt_compat; exact S).
    rewrite <- Rabs_mult; f_equal; unfold rdot, rneg, rscale; cbn [rx ry rz]; ring. }
  rewrite AD; set (b := rabsdot n (rneg d)) in *.
  assert (B0 : b <> 0) by (intro C; apply DEN; rewrite C; ring).
  unfold rr_apply; cbn [r_org r_dir rx ry rz]; field; repeat split; lra.
Qed.

(* C123.  pdf() agrees with the density of the sample exactly when the light is not scaled. *)
Theorem light_pdf_unscaled : forall l point pos t n, lit l 1 point pos t n -> homogeneous (l_shape l) ->
  exists r, sample_visible l point pos = Some r /\ light_pdf l pos (ls_wi r) = ls_pdf r.
Proof.
  intros l point pos t n L H; destruct (light_pdf_world l 1 point pos t n L H) as (r & E & P & _).
  exists r; split; [exact E | rewrite P; ring].
Qed.
Print Assumptions light_pdf_unscaled.
Theorem light_pdf_scaled_refuted : forall l s point pos t n, lit l s point pos t n -> homogeneous (l_shape l) -> s <> 1 ->
  exists r, sample_visible l point pos = Some r /\ light_pdf l pos (ls_wi r) <> ls_pdf r.
Proof.
  intros l s point pos t n L H S1; destruct (light_pdf_world l s point pos t n L H) as (r & E & P & PP).
  exists r; split; [exact E |]; rewrite P; intro C; apply S1; apply (Rmult_eq_reg_r (ls_pdf r)); lra.
Qed.
Print Assumptions light_pdf_scaled_refuted.

(* a light meeting the hypotheses: the plane z = 0, scaled by any s *)
Definition plane : shape := fun r =>
  if Req_EM_T (rz (r_dir r)) 0 then None else Some (- rz (r_org r) / rz (r_dir r), RV 0 0 1).
Example plane_homogeneous : homogeneous plane.
Proof.
  intros o d k K; unfold plane; cbn [r_org r_dir]; unfold rscale; cbn [rx ry rz].
  destruct (Req_EM_T (rz d) 0) as [E | E]; destruct (Req_EM_T (k * rz d) 0) as [F | F].
  - reflexivity.
  - exfalso; apply F; rewrite E; ring.
  - exfalso; apply Rmult_integral in F; destruct F; [lra | contradiction].
  - apply f_equal; apply f_equal2; [field; split; [exact E | lra] | reflexivity].
Qed.
Lemma unit_down : forall k, 0 < k -> k = 1 \/ k <= / 2 \/ 2 <= k ->
  rdot (rnormalize (rscale k (RV 0 0 (-1)))) (rnormalize (rscale k (RV 0 0 (-1)))) = 1.
Proof.
  intros k K C; unfold rnormalize.
  assert (DD : rdot (rscale k (RV 0 0 (-1))) (rscale k (RV 0 0 (-1))) = k * k) by (unfold rdot, rscale; cbn [rx ry rz]; ring).
  rewrite DD.
  assert (OUT : rdot (rscale (/ sqrt (k * k)) (rscale k (RV 0 0 (-1)))) (rscale (/ sqrt (k * k)) (rscale k (RV 0 0 (-1)))) = 1).
  { rewrite dot_scale, DD, sqrt_square by lra; field; lra. }
  destruct (Rlt_dec (1 - / 100000) (k * k)); [| exact OUT].
  destruct (Rlt_dec (k * k) (1 + / 100000)); [| exact OUT].
  rewrite DD; destruct C as [-> | [L | L]]; [ring | |]; exfalso.
  - assert (k * k <= / 2 * / 2) by (apply Rmult_le_compat; lra); lra.
  - assert (2 * 2 <= k * k) by (apply Rmult_le_compat; lra); lra.
Qed.
Example scaled_plane : forall s, 0 < s -> / 100000 < s * s * s -> s = 1 \/ s <= / 2 \/ 2 <= s ->
  lit (mk_light (m_scale (RV s s s)) (m_scale (RV (/ s) (/ s) (/ s))) plane 1 1) s (RV 0 0 0) (RV 0 0 1) (/ s) (RV 0 0 1).
Proof.
  intros s S S3 S1.
  assert (IS : 0 < / s) by (apply Rinv_0_lt_compat; exact S).
  assert (S2 : / s = 1 \/ / s <= / 2 \/ 2 <= / s).
  { destruct S1 as [-> | [L | L]]; [left; field | right; right | right; left; apply Rinv_le_contravar; lra].
    rewrite <- (Rinv_inv 2); apply Rinv_le_contravar; lra. }
  assert (PO : m_point (m_scale (RV (/ s) (/ s) (/ s))) (RV 0 0 1) = RV 0 0 (/ s)).
  { rewrite point_affine by (unfold affine; cbn; auto); unfold m_scale; apply rv_eq; cbn; ring. }
  assert (D : rnormalize (rsub (RV 0 0 0) (RV 0 0 (/ s))) = RV 0 0 (-1)).
  { assert (E : rsub (RV 0 0 0) (RV 0 0 (/ s)) = rscale (/ s) (RV 0 0 (-1))) by (unfold rsub, rscale; apply rv_eq; cbn; ring).
    rewrite E; apply normalize_multiple; [exact IS | unfold rdot; cbn; ring | apply unit_down; assumption]. }
  unfold lit; cbn [l_to_world l_to_obj l_shape l_area]; rewrite PO, D.
  split; [unfold affine; cbn; auto |].
  split.
  { unfold m_inverse, flt_equal.
    assert (DET : m_det (m_scale (RV s s s)) = s * s * s) by (unfold m_det, m_adj, m_scale; cbn [m00 m01 m02 m03 m10 m11 m12 m13 m20 m21 m22 m23 m30 m31 m32 m33 rx ry rz]; ring).
    rewrite DET, Rminus_0_r, Rabs_right by lra.
    destruct (Rle_dec (s * s * s) (/ 100000)); [lra |].
    apply f_equal; apply rmat_ext; intros [|[|[|[|i]]]] [|[|[|[|j]]]] I J; try (exfalso; lia);
      unfold m_times, m_adj, m_scale; cbn [entry m00 m01 m02 m03 m10 m11 m12 m13 m20 m21 m22 m23 m30 m31 m32 m33 rx ry rz]; field; lra. }
  split; [exact S |].
  split; [intros v w; unfold rdot, m_vec, m_scale; cbn [m00 m01 m02 m03 m10 m11 m12 m13 m20 m21 m22 m23 rx ry rz]; ring |].
  split; [lra |]; split; [unfold rdot; cbn; ring |]; split; [lra |].
  split.
  { unfold plane; cbn [r_org r_dir rz]; destruct (Req_EM_T (-1) 0); [lra |]; apply f_equal; apply f_equal2; [field; lra | reflexivity]. }
  split; [unfold rdot, rneg; cbn; lra |]; split; [unfold rdot; cbn; ring |].
  assert (E : m_vec (m_scale (RV s s s)) (RV 0 0 (-1)) = rscale s (RV 0 0 (-1))) by (unfold m_vec, m_scale, rscale; apply rv_eq; cbn; ring).
  rewrite E; apply unit_down; assumption.
Qed.

(* C124.  The rays that leave an unscaled light start at the sampled point, have length one and
   stay on the side of the normal. *)
Theorem light_rays_unscaled : forall l point n r2 r3, scales_by 1 (l_to_world l) -> 0 <= r2 <= 1 ->
  let (r, pdf) := sample_surface l point n r2 r3 in
  r_org r = m_point (l_to_world l) point /\ rdot (r_dir r) (r_dir r) = 1 /\
  0 <= rdot (r_dir r) (m_vec (l_to_world l) n) /\ pdf * (2 * PI * l_area l) = (if Req_EM_T (l_area l) 0 then 0 else 1).
Proof.
  intros l point n r2 r3 SC R2; unfold sample_surface.
  set (z := 1 - 2 * r2); set (d := RV _ _ z).
  assert (D1 : rdot d d = 1).
  { unfold d, rdot; cbn [rx ry rz].
    assert (Z : 0 <= 1 - z * z).
    { replace (1 - z * z) with (4 * (r2 * (1 - r2))) by (unfold z; ring).
      apply Rmult_le_pos; [lra | apply Rmult_le_pos; lra]. }
    rewrite Rmax_right by exact Z.
    pose proof (sin2_cos2 (2 * PI * r3)) as T; unfold Rsqr in T; pose proof (sqrt_def _ Z) as Q.
    transitivity (sqrt (1 - z * z) * sqrt (1 - z * z) * (sin (2 * PI * r3) * sin (2 * PI * r3) + cos (2 * PI * r3) * cos (2 * PI * r3)) + z * z); [ring |].
    rewrite T, Q; ring. }
  clearbody d.
  set (e := if Rlt_dec (rdot d n) 0 then rscale (-1) d else d).
  assert (E1 : rdot e e = 1) by (unfold e; destruct (Rlt_dec _ _); [rewrite dot_scale, D1; ring | exact D1]).
  assert (E2 : 0 <= rdot e n).
  { unfold e; destruct (Rlt_dec _ _) as [L | L]; [| lra].
    replace (rdot (rscale (-1) d) n) with (- rdot d n) by (unfold rdot, rscale; cbn [rx ry rz]; ring); lra. }
  unfold m_ray; cbn [r_org r_dir]; rewrite !SC, E1.
  split; [reflexivity |]; split; [ring |]; split; [lra |].
  destruct (Req_EM_T _ 0) as [A | A]; [rewrite A; ring |].
  pose proof PI_RGT_0; field; split; [lra | exact A].
Qed.
Print Assumptions light_rays_unscaled.
Example unscaled_light : scales_by 1 (l_to_world (mk_light (m_scale (RV 1 (-1) 1)) (m_scale (RV 1 (-1) 1)) plane 2 1)).
Proof. intros v w; unfold rdot, m_vec, m_scale; cbn [l_to_world m00 m01 m02 m03 m10 m11 m12 m13 m20 m21 m22 m23 rx ry rz]; ring. Qed.
