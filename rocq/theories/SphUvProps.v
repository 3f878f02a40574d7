(* C265-C268: texture coordinates and tangents of a sphere. *)
From Coq Require Import Reals Lra.
From Verif Require Import RVecModel RVecProps MatModel PrimModel PrimSpec PrimProps SphUvModel SphUvSpec.
Local Open Scope R_scope.

Lemma rho_pos : forall x y, ~ (x = 0 /\ y = 0) -> 0 < x * x + y * y.
Proof.
  intros x y H; pose proof (Rle_0_sqr x) as X; pose proof (Rle_0_sqr y) as Y; unfold Rsqr in *.
  destruct (Req_dec x 0) as [Zx | Zx].
  - destruct (Req_dec y 0) as [Zy | Zy]; [tauto |].
    pose proof (Rsqr_pos_lt y Zy); unfold Rsqr in *; lra.
  - pose proof (Rsqr_pos_lt x Zx); unfold Rsqr in *; lra.
Qed.

Lemma atan_quot : forall x y, x <> 0 -> let rho := sqrt (x * x + y * y) in
  rho * cos (atan (y / x)) = Rabs x /\ rho * sin (atan (y / x)) = Rabs x * (y / x).
Proof.
  intros x y X rho.
  assert (P : 0 < x * x + y * y) by (apply rho_pos; tauto).
  assert (R : 0 < rho) by (apply sqrt_lt_R0, P).
  assert (A : 0 < Rabs x) by (apply Rabs_pos_lt, X).
  assert (E : sqrt (1 + (y / x)²) = rho / Rabs x).
  { replace (1 + (y / x)²) with ((x * x + y * y) / (Rabs x * Rabs x)).
    - rewrite sqrt_div_alt by (apply Rmult_lt_0_compat; exact A).
      rewrite sqrt_square by lra; reflexivity.
    - replace (Rabs x * Rabs x) with (x * x) by (rewrite <- Rabs_mult; symmetry; apply Rabs_right; apply Rle_ge, Rle_0_sqr).
      unfold Rsqr; field; exact X. }
  rewrite cos_atan, sin_atan, E; split; field; repeat split; lra || exact X || idtac.
Qed.

Lemma atan2_polar : forall x y, ~ (x = 0 /\ y = 0) -> let rho := sqrt (x * x + y * y) in
  - PI < atan2 y x <= PI /\ rho * cos (atan2 y x) = x /\ rho * sin (atan2 y x) = y.
Proof.
  intros x y N rho; pose proof PI_RGT_0 as PP; unfold atan2.
  destruct (Rlt_dec 0 x) as [X | X].
  - destruct (atan_quot x y ltac:(lra)) as [C S]; fold rho in C, S.
    pose proof (atan_bound (y / x)); split; [lra |].
    rewrite C, S, Rabs_right by lra; split; [reflexivity | field; lra].
  - destruct (Rlt_dec x 0) as [X' | X'].
    + destruct (atan_quot x y ltac:(lra)) as [C S]; fold rho in C, S.
      rewrite Rabs_left in C, S by lra.
      pose proof (atan_bound (y / x)) as B.
      assert (SG : rho * sin (atan (y / x)) = - y) by (rewrite S; field; lra).
      assert (IX : / x < 0) by (apply Rinv_lt_0_compat, X').
      destruct (Rlt_dec y 0) as [Y | Y].
      * assert (Q : 0 < atan (y / x)).
        { rewrite <- atan_0; apply atan_increasing; unfold Rdiv; nra. }
        split; [lra |].
        rewrite cos_minus, sin_minus, cos_PI, sin_PI; split; lra.
      * assert (Q : atan (y / x) <= 0).
        { destruct (Req_dec y 0) as [-> | Y0].
          - unfold Rdiv; rewrite Rmult_0_l, atan_0; lra.
          - left; rewrite <- atan_0; apply atan_increasing; unfold Rdiv; nra. }
        split; [lra |].
        rewrite cos_plus, sin_plus, cos_PI, sin_PI; split; lra.
    + assert (x = 0) by lra; subst x.
      assert (RH : rho = Rabs y).
      { unfold rho; rewrite Rmult_0_l, Rplus_0_l; apply sqrt_Rsqr_abs. }
      destruct (Rlt_dec 0 y) as [Y | Y]; [| destruct (Rlt_dec y 0) as [Y' | Y']].
      * rewrite cos_PI2, sin_PI2, RH, Rabs_right by lra; lra.
      * rewrite cos_neg, sin_neg, cos_PI2, sin_PI2, RH, Rabs_left by lra; lra.
      * exfalso; apply N; lra.
Qed.

Lemma longitude : forall p, ~ (rx p = 0 /\ ry p = 0) -> let rho := sqrt (rx p * rx p + ry p * ry p) in
  0 <= uv_u (sphere_uvs p) < 1 /\
  rho * cos (2 * PI * uv_u (sphere_uvs p)) = rx p /\ rho * sin (2 * PI * uv_u (sphere_uvs p)) = ry p.
Proof.
  intros p N rho; pose proof PI_RGT_0 as PP.
  destruct (atan2_polar (rx p) (ry p) N) as (B & C & S); fold rho in C, S.
  unfold sphere_uvs; cbn [uv_u].
  set (a := atan2 (ry p) (rx p)) in *.
  destruct (Rlt_dec a 0) as [A | A].
  - replace (2 * PI * ((a + 2 * PI) * (1 / (2 * PI)))) with (a + 2 * PI) by (field; lra).
    rewrite cos_plus, sin_plus, cos_2PI, sin_2PI.
    split; [| split; lra].
    replace ((a + 2 * PI) * (1 / (2 * PI))) with ((a + 2 * PI) / (2 * PI)) by (field; lra).
    split; [left; apply Rdiv_lt_0_compat; lra |].
    apply Rmult_lt_reg_r with (2 * PI); [lra |]; field_simplify; lra.
  - replace (2 * PI * (a * (1 / (2 * PI)))) with a by (field; lra).
    split; [| split; assumption].
    replace (a * (1 / (2 * PI))) with (a / (2 * PI)) by (field; lra).
    split; [apply Rle_mult_inv_pos; lra |].
    apply Rmult_lt_reg_r with (2 * PI); [lra |]; field_simplify; lra.
Qed.

Lemma uclamp_in : forall z, -1 <= uclamp z (-1) 1 <= 1.
Proof. intro z; unfold uclamp; destruct (Rlt_dec z (-1)); [lra |]; destruct (Rgt_dec z 1); lra. Qed.
Lemma uclamp_id : forall z, -1 <= z <= 1 -> uclamp z (-1) 1 = z.
Proof. intros z Z; unfold uclamp; destruct (Rlt_dec z (-1)); [lra |]; destruct (Rgt_dec z 1); lra. Qed.

Lemma latitude : forall p, 0 <= uv_v (sphere_uvs p) <= 1 /\
  PI * uv_v (sphere_uvs p) = PI - acos (uclamp (rz p) (-1) 1).
Proof.
  intro p; pose proof PI_RGT_0 as PP; pose proof (acos_bound (uclamp (rz p) (-1) 1)) as B.
  unfold sphere_uvs; cbn [uv_v]; set (t := acos _) in *.
  replace ((t - PI) * (1 / (0 - PI))) with ((PI - t) / PI) by (field; lra).
  split; [split; [apply Rle_mult_inv_pos; lra |] | field; lra].
  apply Rmult_le_reg_r with PI; [lra |]; field_simplify; lra.
Qed.

Lemma on_sphere_z : forall p, on_sphere p -> -1 <= rz p <= 1 /\
  sqrt (rx p * rx p + ry p * ry p) = sin (acos (rz p)).
Proof.
  intros p S; unfold on_sphere in S.
  pose proof (Rle_0_sqr (rx p)); pose proof (Rle_0_sqr (ry p)); pose proof (Rle_0_sqr (rz p)); unfold Rsqr in *.
  assert (Z : -1 <= rz p <= 1) by (split; nra).
  split; [exact Z |].
  rewrite sin_acos by exact Z; f_equal; unfold Rsqr; lra.
Qed.

(* C265.  The texture coordinates of a hit away from the poles lie in the unit square, and the
   point of the globe they name is the hit itself. *)
Theorem sphere_uv_names : forall p, on_sphere p -> ~ (rx p = 0 /\ ry p = 0) ->
  0 <= uv_u (sphere_uvs p) < 1 /\ 0 < uv_v (sphere_uvs p) < 1 /\
  globe (uv_u (sphere_uvs p)) (uv_v (sphere_uvs p)) = p.
Proof.
  intros p S N; pose proof PI_RGT_0 as PP.
  destruct (longitude p N) as (U & C & D); destruct (latitude p) as (V & L).
  destruct (on_sphere_z p S) as (Z & R); rewrite (uclamp_id _ Z) in L.
  assert (RP : 0 < sqrt (rx p * rx p + ry p * ry p)) by (apply sqrt_lt_R0, rho_pos, N).
  assert (G : globe (uv_u (sphere_uvs p)) (uv_v (sphere_uvs p)) = p).
  { unfold globe; rewrite L.
    replace (sin (PI - acos (rz p))) with (sin (acos (rz p))) by (rewrite sin_minus, sin_PI, cos_PI; ring).
    replace (- cos (PI - acos (rz p))) with (rz p) by (rewrite cos_minus, sin_PI, cos_PI, cos_acos by exact Z; ring).
    rewrite <- R, C, D; destruct p; reflexivity. }
  split; [exact U | split; [| exact G]].
  assert (SP : 0 < sin (acos (rz p))) by lra.
  pose proof (acos_bound (rz p)) as AB.
  assert (A0 : acos (rz p) <> 0) by (intro E; rewrite E, sin_0 in SP; lra).
  assert (A1 : acos (rz p) <> PI) by (intro E; rewrite E, sin_PI in SP; lra).
  split; apply Rmult_lt_reg_l with PI; lra.
Qed.
Print Assumptions sphere_uv_names.
Example sphere_uv_names_ex : on_sphere (RV (-3 / 5) 0 (4 / 5)) /\ uv_u (sphere_uvs (RV (-3 / 5) 0 (4 / 5))) = 1 / 2.
Proof.
  pose proof PI_RGT_0 as PP; split; [unfold on_sphere; cbn; lra |].
  unfold sphere_uvs, atan2; cbn [uv_u rx ry].
  destruct (Rlt_dec 0 (-3 / 5)); [lra |]; destruct (Rlt_dec (-3 / 5) 0); [| lra]; destruct (Rlt_dec 0 0); [lra |].
  replace (0 / (-3 / 5)) with 0 by field; rewrite atan_0.
  destruct (Rlt_dec (0 + PI) 0); [lra |]; field; lra.
Qed.

Lemma turn : forall u u', 0 <= u < 1 -> 0 <= u' < 1 ->
  cos (2 * PI * u) = cos (2 * PI * u') -> sin (2 * PI * u) = sin (2 * PI * u') -> u = u'.
Proof.
  intros u u' U U' C S; pose proof PI_RGT_0 as PP.
  assert (K : cos (2 * PI * u - 2 * PI * u') = 1).
  { rewrite cos_minus, C, S; pose proof (sin2_cos2 (2 * PI * u')) as T; unfold Rsqr in T; lra. }
  replace (2 * PI * u - 2 * PI * u') with (2 * (PI * (u - u'))) in K by ring.
  rewrite cos_2a_sin in K.
  assert (Z : sin (PI * (u - u')) = 0).
  { assert (Q : sin (PI * (u - u')) * sin (PI * (u - u')) = 0) by lra.
    apply Rmult_integral in Q; tauto. }
  destruct (Rtotal_order u u') as [L | [E | L]]; [exfalso | exact E | exfalso].
  - assert (0 < sin (PI * (u' - u))) by (apply sin_gt_0; nra).
    replace (PI * (u - u')) with (- (PI * (u' - u))) in Z by ring; rewrite sin_neg in Z; lra.
  - assert (0 < sin (PI * (u - u'))) by (apply sin_gt_0; nra); lra.
Qed.

(* C266.  Every point of the open texture is reached by exactly one point of the sphere: the
   hit at globe u v has the coordinates (u, v). *)
Theorem sphere_uv_every : forall u v, 0 <= u < 1 -> 0 < v < 1 ->
  on_sphere (globe u v) /\ ~ (rx (globe u v) = 0 /\ ry (globe u v) = 0) /\
  uv_u (sphere_uvs (globe u v)) = u /\ uv_v (sphere_uvs (globe u v)) = v.
Proof.
  intros u v U V; pose proof PI_RGT_0 as PP.
  assert (SV : 0 < sin (PI * v)) by (apply sin_gt_0; nra).
  pose proof (sin2_cos2 (PI * v)) as T1; pose proof (sin2_cos2 (2 * PI * u)) as T2; unfold Rsqr in T1, T2.
  assert (O : on_sphere (globe u v)).
  { unfold on_sphere, globe; cbn [rx ry rz].
    transitivity (sin (PI * v) * sin (PI * v) * (sin (2 * PI * u) * sin (2 * PI * u) + cos (2 * PI * u) * cos (2 * PI * u)) + cos (PI * v) * cos (PI * v)); [ring |].
    rewrite T2; lra. }
  assert (N : ~ (rx (globe u v) = 0 /\ ry (globe u v) = 0)).
  { unfold globe; cbn [rx ry]; intros [X Y].
    apply Rmult_integral in X; apply Rmult_integral in Y.
    destruct X as [X | X]; [lra |]; destruct Y as [Y | Y]; [lra |]; rewrite X, Y in T2; lra. }
  destruct (sphere_uv_names _ O N) as (U' & V' & G).
  set (a := uv_u (sphere_uvs (globe u v))) in *; set (b := uv_v (sphere_uvs (globe u v))) in *.
  unfold globe in G; injection G as GX GY GZ.
  assert (EV : b = v).
  { apply Rmult_eq_reg_l with PI; [| lra]; apply cos_inj; [nra | nra | lra]. }
  rewrite EV in GX, GY.
  split; [exact O | split; [exact N | split; [| exact EV]]].
  apply turn; [exact U' | exact U | |]; apply Rmult_eq_reg_l with (sin (PI * v)); lra.
Qed.
Print Assumptions sphere_uv_every.
Example sphere_uv_every_ex : globe (1 / 4) (1 / 2) = RV 0 1 0.
Proof.
  unfold globe; replace (PI * (1 / 2)) with (PI / 2) by field; replace (2 * PI * (1 / 4)) with (PI / 2) by field.
  rewrite sin_PI2, cos_PI2; f_equal; ring.
Qed.

Lemma d_lin : forall k x, derivable_pt_lim (fun t => k * t) x k.
Proof.
  intros k x; pose proof (derivable_pt_lim_scal (fun t => t) k x 1 (derivable_pt_lim_id x)) as D.
  rewrite Rmult_1_r in D; exact D.
Qed.
Lemma d_cos : forall k x, derivable_pt_lim (fun t => cos (k * t)) x (- sin (k * x) * k).
Proof. intros k x; apply (derivable_pt_lim_comp (fun t => k * t) cos); [apply d_lin | apply derivable_pt_lim_cos]. Qed.
Lemma d_sin : forall k x, derivable_pt_lim (fun t => sin (k * t)) x (cos (k * x) * k).
Proof. intros k x; apply (derivable_pt_lim_comp (fun t => k * t) sin); [apply d_lin | apply derivable_pt_lim_sin]. Qed.
Lemma d_mulr : forall f x l c, derivable_pt_lim f x l -> derivable_pt_lim (fun t => f t * c) x (l * c).
Proof.
  intros f x l c D; replace (l * c) with (l * c + f x * 0) by ring.
  apply (derivable_pt_lim_mult f (fun _ => c)); [exact D | apply derivable_pt_lim_const].
Qed.
Lemma d_mull : forall f x l c, derivable_pt_lim f x l -> derivable_pt_lim (fun t => c * f t) x (c * l).
Proof. intros f x l c D; apply (derivable_pt_lim_scal f c x l), D. Qed.
Lemma d_neg : forall f x l, derivable_pt_lim f x l -> derivable_pt_lim (fun t => - f t) x (- l).
Proof. intros f x l D; apply (derivable_pt_lim_opp f x l), D. Qed.

Lemma d_eq : forall f x a b, a = b -> derivable_pt_lim f x b -> derivable_pt_lim f x a.
Proof. intros f x a b E D; rewrite E; exact D. Qed.

(* C267.  The dpdu and dpdv of a hit are the derivatives of the surface by the texture
   coordinates. *)
Theorem sphere_tangents : forall p, on_sphere p -> ~ (rx p = 0 /\ ry p = 0) ->
  tangents globe (uv_u (sphere_uvs p)) (uv_v (sphere_uvs p)) (uv_dpdu (sphere_uvs p)) (uv_dpdv (sphere_uvs p)).
Proof.
  intros p S N; pose proof PI_RGT_0 as PP.
  destruct (sphere_uv_names p S N) as (_ & _ & G); destruct (longitude p N) as (_ & C & D).
  destruct (latitude p) as (_ & L).
  destruct (on_sphere_z p S) as (Z & R); rewrite (uclamp_id _ Z) in L.
  set (rho := sqrt (rx p * rx p + ry p * ry p)) in *.
  assert (RP : 0 < rho) by (apply sqrt_lt_R0, rho_pos, N).
  assert (DU : uv_dpdu (sphere_uvs p) = RV (- (2 * PI) * ry p) (2 * PI * rx p) 0) by reflexivity.
  assert (DV : uv_dpdv (sphere_uvs p) = RV (- PI * (rz p * (rx p / rho))) (- PI * (rz p * (ry p / rho))) (PI * rho)).
  { unfold sphere_uvs; cbn [uv_dpdv]; rewrite (uclamp_id _ Z), <- R; fold rho.
    unfold rscale; cbn [rx ry rz]; apply rv_eq; cbn [rx ry rz]; field; lra. }
  set (u := uv_u (sphere_uvs p)) in *; set (v := uv_v (sphere_uvs p)) in *.
  assert (SV : sin (PI * v) = rho) by (rewrite L, R, sin_minus, sin_PI, cos_PI; ring).
  assert (CV : cos (PI * v) = - rz p) by (rewrite L, cos_minus, sin_PI, cos_PI, cos_acos by exact Z; ring).
  assert (CU : cos (2 * PI * u) = rx p / rho) by (rewrite <- C; field; lra).
  assert (SU : sin (2 * PI * u) = ry p / rho) by (rewrite <- D; field; lra).
  rewrite DU, DV; unfold tangents, globe; cbn [rx ry rz].
  split; [| split; [| split; [| split; [| split]]]].
  - eapply d_eq; [| apply d_mull, d_cos]; rewrite SU, SV; field; lra.
  - eapply d_eq; [| apply d_mull, d_sin]; rewrite CU, SV; field; lra.
  - apply (derivable_pt_lim_const (- cos (PI * v))).
  - eapply d_eq; [| apply (d_mulr (fun v => sin (PI * v))), d_sin]; rewrite CU, CV; field; lra.
  - eapply d_eq; [| apply (d_mulr (fun v => sin (PI * v))), d_sin]; rewrite SU, CV; field; lra.
  - eapply d_eq; [| apply d_neg, d_cos]; rewrite SV; ring.
Qed.
Print Assumptions sphere_tangents.
Example sphere_tangents_ex : uv_dpdu (sphere_uvs (RV 1 0 0)) = RV 0 (2 * PI) 0.
Proof. unfold sphere_uvs; cbn [uv_dpdu rx ry]; apply rv_eq; cbn; ring. Qed.

(* C268.  Every reported hit on the sphere, the poles included, comes with two tangents that
   are perpendicular to the normal and to each other and that span a surface facing
   outwards; the texture coordinates lie in the unit square. *)
Theorem sphere_hit_frame : forall masked r distance t p n,
  sphere_intersect masked r distance = Some (t, p, n) -> on_sphere n ->
  0 <= uv_u (sphere_uvs p) < 1 /\ 0 <= uv_v (sphere_uvs p) <= 1 /\
  rdot (uv_dpdu (sphere_uvs p)) n = 0 /\ rdot (uv_dpdv (sphere_uvs p)) n = 0 /\
  rdot (uv_dpdu (sphere_uvs p)) (uv_dpdv (sphere_uvs p)) = 0 /\
  exists k, 0 < k /\ rcross (uv_dpdu (sphere_uvs p)) (uv_dpdv (sphere_uvs p)) = rscale k n.
Proof.
  intros masked r distance t p n H S; pose proof PI_RGT_0 as PP.
  assert (PN : p = off_axis n).
  { assert (T : forall t', sphere_try masked r t' = Some (t, p, n) -> p = off_axis n).
    { intros t' E; unfold sphere_try in E; destruct (masked _); [discriminate |]; injection E as _ <- <-; reflexivity. }
    unfold sphere_intersect in H.
    destruct (equation2 _ _ _) as [[s1 s2] |]; [| discriminate].
    destruct (if Rlt_dec s2 s1 then (s2, s1) else (s1, s2)) as [s1' s2'].
    destruct (Rlt_dec distance s1'); [discriminate |].
    destruct (Rlt_dec s1' self_error).
    - destruct (Rlt_dec s2' self_error); [discriminate |]; destruct (Rlt_dec distance s2'); [discriminate |].
      exact (T _ H).
    - destruct (sphere_try masked r s1') as [h |] eqn:E; [| exact (T _ H)].
      injection H as ->; exact (T _ E). }
  assert (NA : ~ (rx p = 0 /\ ry p = 0)).
  { rewrite PN; unfold off_axis, self_error; destruct (Req_EM_T (rx n) 0); [| tauto].
    destruct (Req_EM_T (ry n) 0); [cbn; lra | tauto]. }
  destruct (longitude p NA) as (U & _ & _); destruct (latitude p) as (V & _).
  split; [exact U | split; [exact V |]].
  destruct (on_sphere_z n S) as (Z & R).
  set (rho := sqrt (rx p * rx p + ry p * ry p)).
  assert (RP : 0 < rho) by (apply sqrt_lt_R0, rho_pos, NA).
  assert (RR : rho * rho = rx p * rx p + ry p * ry p) by (apply sqrt_sqrt; pose proof (rho_pos _ _ NA); lra).
  assert (ZP : rz p = rz n) by (rewrite PN; unfold off_axis; destruct (Req_EM_T (rx n) 0); [destruct (Req_EM_T (ry n) 0) |]; reflexivity).
  assert (DV : uv_dpdv (sphere_uvs p) = RV (- PI * (rz n * (rx p / rho))) (- PI * (rz n * (ry p / rho))) (PI * sin (acos (rz n)))).
  { unfold sphere_uvs; cbn [uv_dpdv]; rewrite ZP, (uclamp_id _ Z); fold rho.
    unfold rscale; cbn [rx ry rz]; apply rv_eq; cbn [rx ry rz]; field; lra. }
  rewrite DV; unfold sphere_uvs; cbn [uv_dpdu]; unfold rdot, rcross, rscale; cbn [rx ry rz].
  unfold on_sphere in S.
  destruct (Req_dec (rx n) 0) as [X0 | X0]; [destruct (Req_dec (ry n) 0) as [Y0 | Y0] |].
  1: { assert (P1 : p = RV self_error 0 (rz n)).
       { rewrite PN; unfold off_axis; destruct (Req_EM_T (rx n) 0); [| contradiction].
         destruct (Req_EM_T (ry n) 0); [rewrite Y0; reflexivity | contradiction]. }
       assert (SA : sin (acos (rz n)) = 0).
       { rewrite <- R, X0, Y0; replace (0 * 0 + 0 * 0) with 0 by ring; apply sqrt_0. }
       rewrite SA, X0, Y0; rewrite P1; cbn [rx ry rz].
       split; [ring |]. split; [ring |]. split; [field; lra |].
       exists (2 * PI * self_error * PI * (self_error / rho)).
       assert (SE : 0 < self_error) by (unfold self_error; lra).
       split; [apply Rmult_lt_0_compat; [apply Rmult_lt_0_compat; nra | apply Rdiv_lt_0_compat; lra] |].
       apply rv_eq; cbn [rx ry rz]; field; lra. }
  1, 2: assert (P1 : p = n) by
    (rewrite PN; unfold off_axis; destruct (Req_EM_T (rx n) 0); [destruct (Req_EM_T (ry n) 0) |]; tauto);
    unfold rho in *; clear rho; rewrite P1 in *; clear P1; rewrite R in *;
    set (s := sin (acos (rz n))) in *;
    assert (S1 : rz n * rz n = 1 - s * s) by lra;
    (split; [ring |]); (split; [transitivity (PI * rz n * (s - (rx n * rx n + ry n * ry n) / s)); [field; lra | rewrite <- RR; field; lra] |]);
    (split; [field; lra |]);
    exists (2 * PI * PI * s); (split; [apply Rmult_lt_0_compat; [nra | exact RP] |]);
    apply rv_eq; cbn [rx ry rz]; [ring | ring |];
    (transitivity (2 * PI * PI * rz n * ((rx n * rx n + ry n * ry n) / s)); [field; lra | rewrite <- RR; field; lra]).
Qed.
Print Assumptions sphere_hit_frame.
(* the hypotheses are met by every line that meets the sphere *)
Example sphere_hit_frame_ex : forall r distance t, 0 < rdot (r_dir r) (r_dir r) -> 0 <= discriminant r ->
  / 100 <= t <= distance -> on_sphere (rr_apply r t) ->
  exists t' p n, sphere_intersect (fun _ => false) r distance = Some (t', p, n) /\ on_sphere n.
Proof.
  intros r distance t A D T S; pose proof (sphere_exact r distance A (or_introl D)) as X.
  destruct (sphere_intersect (fun _ => false) r distance) as [[[t' p] n] |].
  - exists t', p, n; split; [reflexivity |].
    destruct X as ((_ & X & _) & _ & N & _); rewrite N; exact X.
  - exfalso; apply (X t); tauto.
Qed.
