(* The surface of a triangle and of a mesh in the world, and the points sampled on a triangle. *)
From Coq Require Import Reals Lra Lia List.
From Verif Require Import RVecModel RVecProps MatModel MatSpec MatProps PrimSpec PrimProps FaceModel FaceSpec.
Import ListNotations.
Local Open Scope R_scope.

Lemma sq_len : forall v, rlength v * rlength v = rdot v v.
Proof. intro v; unfold rlength; apply sqrt_sqrt; unfold rdot; nra. Qed.

Lemma half_cross_area : forall a b c, is_area a b c (/ 2 * rlength (rcross (rsub b a) (rsub c a))).
Proof.
  intros a b c; split.
  - pose proof (sqrt_pos (rdot (rcross (rsub b a) (rsub c a)) (rcross (rsub b a) (rsub c a)))); unfold rlength; lra.
  - transitivity (4 * (rlength (rcross (rsub b a) (rsub c a)) * rlength (rcross (rsub b a) (rsub c a)))); [field |].
    rewrite sq_len; unfold heron, rdistance.
    pose proof (sq_len (rsub b a)) as X; pose proof (sq_len (rsub c b)) as Y; pose proof (sq_len (rsub a c)) as Z.
    set (x := rlength (rsub b a)) in *; set (y := rlength (rsub c b)) in *; set (z := rlength (rsub a c)) in *.
    clearbody x y z.
    replace ((x + y + z) * (x + y - z) * (y + z - x) * (z + x - y)) with
      (2 * (x * x) * (y * y) + 2 * (y * y) * (z * z) + 2 * (z * z) * (x * x) - (x * x) * (x * x) - (y * y) * (y * y) - (z * z) * (z * z)) by ring.
    rewrite X, Y, Z; unfold rdot, rcross, rsub; cbn [rx ry rz]; ring.
Qed.

Lemma config_cross : forall position rotation scale,
  let m := config_transform position rotation scale in
  forall a b, rlength (rcross (m_vec m a) (m_vec m b)) =
     rlength (rcross (RV (rx scale * rx a) (ry scale * ry a) (rz scale * rz a)) (RV (rx scale * rx b) (ry scale * ry b) (rz scale * rz b))).
Proof.
  intros po ro sc m a b; unfold m; rewrite !config_vec.
  rewrite (cross_length _ (proj2 (proj2 (rotations_keep_dot (rz ro))))).
  rewrite (cross_length _ (proj1 (proj2 (rotations_keep_dot (ry ro))))).
  rewrite (cross_length _ (proj1 (rotations_keep_dot (rx ro)))); reflexivity.
Qed.

Lemma face_world : forall position rotation scale t,
  let m := config_transform position rotation scale in
  face_surface_in m t = / 2 * rlength (rcross (rsub (m_point m (f_b t)) (m_point m (f_a t))) (rsub (m_point m (f_c t)) (m_point m (f_a t)))).
Proof.
  intros po ro sc t m.
  assert (D : forall p q, rsub (m_point m p) (m_point m q) = m_vec m (rsub p q)).
  { intros p q; unfold m; rewrite !point_affine by apply config_affine; unfold rsub, m_vec; apply rv_eq; cbn [rx ry rz]; ring. }
  rewrite !D; unfold m; rewrite config_cross; unfold face_surface_in; rewrite (proj1 (config_scale po ro sc)); cbn [rx ry rz].
  f_equal; unfold rlength; f_equal; unfold rdot, rcross, rsub; cbn [rx ry rz].
  assert (Q : forall k, Rabs k * Rabs k = k * k) by (intro k; pose proof (Rsqr_abs k) as E; unfold Rsqr in E; lra).
  pose proof (Q (rx sc)) as QX; pose proof (Q (ry sc)) as QY; pose proof (Q (rz sc)) as QZ; clear Q.
  set (X := Rabs (rx sc)) in *; set (Y := Rabs (ry sc)) in *; set (Z := Rabs (rz sc)) in *.
  destruct t as [[ax ay az] [bx by_ bz] [cx cy cz]]; cbn [rx ry rz f_a f_b f_c].
  transitivity ((Y * Y) * (Z * Z) * (((by_ - ay) * (cz - az) - (bz - az) * (cy - ay)) * ((by_ - ay) * (cz - az) - (bz - az) * (cy - ay))) +
                (Z * Z) * (X * X) * (((bz - az) * (cx - ax) - (bx - ax) * (cz - az)) * ((bz - az) * (cx - ax) - (bx - ax) * (cz - az))) +
                (X * X) * (Y * Y) * (((bx - ax) * (cy - ay) - (by_ - ay) * (cx - ax)) * ((bx - ax) * (cy - ay) - (by_ - ay) * (cx - ax)))); [ring |].
  rewrite QX, QY, QZ; ring.
Qed.

(* The surface under any transform a configuration can build, mirrored ones included, is the area of
   the triangle where it stands. *)
Theorem face_area_world : forall position rotation scale a b c,
  let m := config_transform position rotation scale in
  is_area (m_point m a) (m_point m b) (m_point m c) (face_surface_in m (RTri a b c)).
Proof. intros po ro sc a b c m; unfold m; rewrite face_world; apply half_cross_area. Qed.
Print Assumptions face_area_world.

Theorem face_area_local : forall a b c, is_area a b c (face_surface (RTri a b c)).
Proof. intros; apply half_cross_area. Qed.
Print Assumptions face_area_local.

(* an area is determined by the corners *)
Lemma area_unique : forall a b c x y, is_area a b c x -> is_area a b c y -> x = y.
Proof. intros a b c x y [X EX] [Y EY]; nra. Qed.

Lemma fold_total : forall l s, fold_left (fun total (x : R) => total + x) l s = s + total l.
Proof. induction l as [| x l IH]; intro s; cbn; [ring | rewrite IH; ring]. Qed.
Lemma fold_map : forall (f : rtri -> R) l s, fold_left (fun t x => t + f x) l s = fold_left (fun t x => t + x) (map f l) s.
Proof. induction l as [| x l IH]; intro s; cbn; [reflexivity | apply IH]. Qed.

Theorem faces_area_world : forall position rotation scale l,
  let m := config_transform position rotation scale in
  exists areas, Forall2 (fun t k => is_area (m_point m (f_a t)) (m_point m (f_b t)) (m_point m (f_c t)) k) l areas /\
    faces_surface_in m l = total areas /\
    face_densities m 0 l = map (fun i => total (firstn (S i) areas)) (seq 0 (length l)).
Proof.
  intros po ro sc l m; exists (map (face_surface_in m) l); split; [| split].
  - induction l as [| [a b c] l IH]; constructor; [apply face_area_world | exact IH].
  - unfold faces_surface_in; rewrite fold_map, fold_total; ring.
  - assert (H : forall l s, face_densities m s l = map (fun i => s + total (firstn (S i) (map (face_surface_in m) l))) (seq 0 (length l))).
    { clear; induction l as [| t l IH]; intro s; [reflexivity |].
      cbn [face_densities length seq map]; f_equal; [cbn; ring |].
      rewrite IH, <- seq_shift, map_map; apply map_ext; intro i; cbn [firstn map total]; ring. }
    rewrite H; apply map_ext; intro i; ring.
Qed.
Print Assumptions faces_area_world.

Example face_area_ex : face_surface_in (config_transform (RV 1 2 3) (RV 0 0 0) (RV 2 (-3) 1)) (RTri (RV 0 0 0) (RV 1 0 0) (RV 0 1 0)) = 3.
Proof.
  unfold face_surface_in; rewrite (proj1 (config_scale _ _ _)); cbn [rx ry rz f_a f_b f_c].
  rewrite (Rabs_right 2), (Rabs_left (-3)), (Rabs_right 1) by lra.
  unfold rlength, rdot, rcross, rsub; cbn [rx ry rz].
  match goal with |- _ * sqrt ?x = _ => replace x with (6 * 6) by ring end; rewrite sqrt_square; lra.
Qed.

(* ----- sampling ----- *)

Lemma sample_weights : forall t r0 r1, 0 <= r0 ->
  barycentric (f_a t) (f_b t) (f_c t) (fst (face_sample t r0 r1)) (1 - sqrt r0) (r1 * sqrt r0) ((1 - r1) * sqrt r0).
Proof.
  intros t r0 r1 H; split; [ring |]; unfold face_sample; rewrite Rmax_right by exact H; cbn [fst].
  unfold radd, rscale; apply rv_eq; cbn [rx ry rz]; ring.
Qed.

Theorem face_sample_in : forall t r0 r1, r0 <= 1 -> 0 <= r1 <= 1 ->
  in_triangle (f_a t) (f_b t) (f_c t) (fst (face_sample t r0 r1)).
Proof.
  intros t r0 r1 H0 H1.
  assert (E : face_sample t r0 r1 = face_sample t (Rmax 0 r0) r1).
  { unfold face_sample; rewrite (Rmax_right 0 (Rmax 0 r0)) by apply Rmax_l; reflexivity. }
  rewrite E; assert (P : 0 <= Rmax 0 r0 <= 1) by (split; [apply Rmax_l | apply Rmax_lub; lra]).
  revert P; generalize (Rmax 0 r0); clear E H0 r0; intros r0 P.
  pose proof (sqrt_pos r0) as S0.
  assert (S1 : sqrt r0 <= 1) by (rewrite <- sqrt_1; apply sqrt_le_1; lra).
  exists (1 - sqrt r0), (r1 * sqrt r0), ((1 - r1) * sqrt r0).
  split; [lra | split; [nra | split; [nra |]]]; apply sample_weights; lra.
Qed.
Print Assumptions face_sample_in.

Theorem face_sample_onto : forall t p, in_triangle (f_a t) (f_b t) (f_c t) p ->
  exists r0 r1, 0 <= r0 <= 1 /\ 0 <= r1 <= 1 /\ fst (face_sample t r0 r1) = p.
Proof.
  intros t p (u & v & w & U & V & W & S & ->).
  assert (Q : sqrt ((v + w) * (v + w)) = v + w) by (apply sqrt_square; lra).
  destruct (Req_dec (v + w) 0) as [Z | Z].
  - exists 0, 0; split; [lra | split; [lra |]].
    destruct (sample_weights t 0 0 ltac:(lra)) as [_ ->]; rewrite sqrt_0.
    assert (v = 0) by lra; assert (w = 0) by lra; assert (u = 1) by lra; subst.
    unfold radd, rscale; apply rv_eq; cbn [rx ry rz]; ring.
  - exists ((v + w) * (v + w)), (v / (v + w)); split; [nra | split].
    + assert (0 < v + w) by lra; split.
      * apply Rmult_le_pos; [lra |]; left; apply Rinv_0_lt_compat; lra.
      * apply Rmult_le_reg_r with (v + w); [lra |]; unfold Rdiv; rewrite Rmult_assoc, Rinv_l by lra; lra.
    + destruct (sample_weights t ((v + w) * (v + w)) (v / (v + w)) ltac:(nra)) as [_ ->]; rewrite Q.
      assert (E1 : v / (v + w) * (v + w) = v) by (field; lra).
      assert (E2 : (1 - v / (v + w)) * (v + w) = w) by (field; lra).
      rewrite E1, E2; replace (1 - (v + w)) with u by lra; reflexivity.
Qed.
Print Assumptions face_sample_onto.

Lemma along_sqrt : forall f x p q e, 0 < x -> 0 < e -> (forall u, Rabs (u - x) < e -> f u = p + q * sqrt u) ->
  derivable_pt_lim f x (q * / (2 * sqrt x)).
Proof.
  intros f x p q e X E H.
  assert (D : derivable_pt_lim (fun u => p + q * sqrt u) x (0 + q * / (2 * sqrt x))).
  { apply (derivable_pt_lim_plus (fct_cte p) (mult_real_fct q sqrt)); [apply derivable_pt_lim_const |].
    apply derivable_pt_lim_scal, derivable_pt_lim_sqrt, X. }
  rewrite Rplus_0_l in D; intros eps P; destruct (D eps P) as [d Hd].
  assert (M : 0 < Rmin d e) by (apply Rmin_pos; [apply cond_pos | exact E]).
  exists (mkposreal _ M); intros h H0 HD; cbn in HD.
  rewrite (H (x + h)) by (replace (x + h - x) with h by ring; eapply Rlt_le_trans; [exact HD | apply Rmin_r]).
  rewrite (H x) by (replace (x - x) with 0 by ring; rewrite Rabs_R0; exact E).
  apply Hd; [exact H0 | eapply Rlt_le_trans; [exact HD | apply Rmin_l]].
Qed.

(* Equal areas of the unit square go to equal areas of the triangle, wherever it stands. *)
Theorem face_sample_uniform : forall position rotation scale a b c r0 r1, 0 < r0 < 1 ->
  let m := config_transform position rotation scale in
  exists k, is_area (m_point m a) (m_point m b) (m_point m c) k /\
    area_element (fun u v => m_point m (fst (face_sample (RTri a b c) u v))) r0 r1 k.
Proof.
  intros po ro sc a b c r0 r1 R0 m; exists (face_surface_in m (RTri a b c)); split; [apply face_area_world |].
  pose proof (config_affine po ro sc) as A.
  assert (FW := face_world po ro sc (RTri a b c)); cbn zeta in FW; fold m in A, FW.
  rewrite FW; clear FW; cbn [f_a f_b f_c].
  set (pa := m_point m a); set (pb := m_point m b); set (pc := m_point m c).
  assert (PT : forall u v, 0 <= u -> m_point m (fst (face_sample (RTri a b c) u v)) =
     radd (rscale (1 - sqrt u) pa) (radd (rscale (v * sqrt u) pb) (rscale ((1 - v) * sqrt u) pc))).
  { intros u v U; destruct (sample_weights (RTri a b c) u v U) as [_ ->]; cbn [f_a f_b f_c].
    unfold pa, pb, pc; rewrite !point_affine by exact A; unfold radd, rscale; apply rv_eq; cbn [rx ry rz]; ring. }
  clearbody pa pb pc.
  pose proof (sqrt_lt_R0 r0 ltac:(lra)) as S.
  assert (NEAR : forall u, Rabs (u - r0) < r0 -> 0 <= u) by (intros u U; apply Rabs_def2 in U; lra).
  set (du := rscale (/ (2 * sqrt r0)) (radd (rscale (-1) pa) (radd (rscale r1 pb) (rscale (1 - r1) pc)))).
  set (dv := rscale (sqrt r0) (rsub pb pc)).
  exists du, dv; split; [| split; [| split; [| split; [| split; [| split]]]]].
  - replace (rx du) with ((- rx pa + r1 * rx pb + (1 - r1) * rx pc) * / (2 * sqrt r0)) by (unfold du; cbn; ring).
    apply along_sqrt with (rx pa) r0; [lra | lra | intros u U; rewrite PT by (apply NEAR, U); cbn; ring].
  - replace (ry du) with ((- ry pa + r1 * ry pb + (1 - r1) * ry pc) * / (2 * sqrt r0)) by (unfold du; cbn; ring).
    apply along_sqrt with (ry pa) r0; [lra | lra | intros u U; rewrite PT by (apply NEAR, U); cbn; ring].
  - replace (rz du) with ((- rz pa + r1 * rz pb + (1 - r1) * rz pc) * / (2 * sqrt r0)) by (unfold du; cbn; ring).
    apply along_sqrt with (rz pa) r0; [lra | lra | intros u U; rewrite PT by (apply NEAR, U); cbn; ring].
  - apply local_affine with 1 ((1 - sqrt r0) * rx pa + sqrt r0 * rx pc); [lra | intros v _; rewrite PT by lra; cbn; ring].
  - apply local_affine with 1 ((1 - sqrt r0) * ry pa + sqrt r0 * ry pc); [lra | intros v _; rewrite PT by lra; cbn; ring].
  - apply local_affine with 1 ((1 - sqrt r0) * rz pa + sqrt r0 * rz pc); [lra | intros v _; rewrite PT by lra; cbn; ring].
  - assert (E : rcross du dv = rscale (- / 2) (rcross (rsub pb pa) (rsub pc pa))).
    { unfold du, dv; apply rv_eq; unfold rcross, rscale, radd, rsub; cbn [rx ry rz]; field; lra. }
    rewrite E; generalize (rcross (rsub pb pa) (rsub pc pa)); intro x.
    unfold rlength; replace (rdot (rscale (- / 2) x) (rscale (- / 2) x)) with (/ 2 * / 2 * rdot x x) by (unfold rdot, rscale; cbn [rx ry rz]; ring).
    rewrite sqrt_mult by (unfold rdot; nra); rewrite sqrt_square by lra; reflexivity.
Qed.
Print Assumptions face_sample_uniform.

Example face_sample_ex : 0 < 1 / 4 < 1 /\
  fst (face_sample (RTri (RV 0 0 0) (RV 4 0 0) (RV 0 4 0)) (1 / 4) (1 / 2)) = RV 1 1 0.
Proof.
  split; [lra |]; unfold face_sample; cbn [fst f_a f_b f_c rx ry rz]; rewrite Rmax_right by lra.
  replace (sqrt (1 / 4)) with (1 / 2) by (symmetry; replace (1 / 4) with (1 / 2 * (1 / 2)) by field; apply sqrt_square; lra).
  apply rv_eq; cbn; field.
Qed.

(* the normal that comes with the point *)
Theorem face_sample_normal : forall t r0 r1, 0 < face_surface t ->
  let n := snd (face_sample t r0 r1) in
  rdot n (rsub (f_b t) (f_a t)) = 0 /\ rdot n (rsub (f_c t) (f_a t)) = 0 /\ Rabs (rdot n n - 1) < / 100000 /\
  0 < rdot n (rcross (rsub (f_b t) (f_a t)) (rsub (f_c t) (f_a t))).
Proof.
  intros t r0 r1 P n.
  assert (D : forall x y, rdot (rcross x y) x = 0 /\ rdot (rcross x y) y = 0) by (intros; unfold rdot, rcross; cbn [rx ry rz]; split; ring).
  assert (NZ : rdot (rcross (rsub (f_b t) (f_a t)) (rsub (f_c t) (f_a t))) (rcross (rsub (f_b t) (f_a t)) (rsub (f_c t) (f_a t))) <> 0).
  { intro Z; unfold face_surface, rlength in P; rewrite Z, sqrt_0 in P; lra. }
  destruct (D (rsub (f_b t) (f_a t)) (rsub (f_c t) (f_a t))) as [X Y]; unfold n, face_sample; cbn [snd].
  revert NZ X Y; generalize (rcross (rsub (f_b t) (f_a t)) (rsub (f_c t) (f_a t))); intros k NZ X Y.
  destruct (normalize_length k NZ) as ((q & Q & S) & L & _); split; [| split; [| split]].
  - rewrite S; replace (rdot (rscale q k) (rsub (f_b t) (f_a t))) with (q * rdot k (rsub (f_b t) (f_a t))) by (unfold rdot, rscale; cbn [rx ry rz]; ring); rewrite X; ring.
  - rewrite S; replace (rdot (rscale q k) (rsub (f_c t) (f_a t))) with (q * rdot k (rsub (f_c t) (f_a t))) by (unfold rdot, rscale; cbn [rx ry rz]; ring); rewrite Y; ring.
  - exact L.
  - rewrite S; replace (rdot (rscale q k) k) with (q * rdot k k) by (unfold rdot, rscale; cbn [rx ry rz]; ring).
    apply Rmult_lt_0_compat; [exact Q |]; pose proof (rdot_pos k); lra.
Qed.
Print Assumptions face_sample_normal.
Example face_sample_normal_ex : 0 < face_surface (RTri (RV 0 0 0) (RV 4 0 0) (RV 0 4 0)).
Proof.
  unfold face_surface, rlength; cbn [f_a f_b f_c]; apply Rmult_lt_0_compat; [lra | apply sqrt_lt_R0; unfold rdot, rcross, rsub; cbn; lra].
Qed.
