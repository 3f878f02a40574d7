(* C68: lengths, reflections and the shading frame. *)
From Coq Require Import Reals Lra.
From Verif Require Import RVecModel.
Local Open Scope R_scope.

Lemma rv_eq : forall a b, rx a = rx b -> ry a = ry b -> rz a = rz b -> a = b.
Proof. intros [] []; cbn; intros -> -> ->; reflexivity. Qed.

Ltac rv := apply rv_eq; cbn.

Definition unit (a : rv) : Prop := rdot a a = 1.

(* pairwise orthogonal axes of length one *)
Definition orthonormal (m : shading) : Prop :=
  unit (sh_s m) /\ unit (sh_t m) /\ unit (sh_n m) /\
  rdot (sh_s m) (sh_t m) = 0 /\ rdot (sh_s m) (sh_n m) = 0 /\ rdot (sh_t m) (sh_n m) = 0.

Lemma rdot_comm : forall a b, rdot a b = rdot b a.
Proof. intros; unfold rdot; ring. Qed.
Lemma rdot_scale_l : forall k a b, rdot (rscale k a) b = k * rdot a b.
Proof. intros; unfold rdot; cbn; ring. Qed.
Lemma rdot_add_l : forall a b c, rdot (radd a b) c = rdot a c + rdot b c.
Proof. intros; unfold rdot; cbn; ring. Qed.
Lemma rdot_pos : forall a, 0 <= rdot a a.
Proof.
  intro a; unfold rdot.
  pose proof (Rle_0_sqr (rx a)); pose proof (Rle_0_sqr (ry a)); pose proof (Rle_0_sqr (rz a)).
  unfold Rsqr in *; lra.
Qed.
Lemma rdot_zero : forall a, rdot a a = 0 -> a = RV 0 0 0.
Proof.
  intros a H; unfold rdot in H.
  pose proof (Rle_0_sqr (rx a)) as X; pose proof (Rle_0_sqr (ry a)) as Y;
    pose proof (Rle_0_sqr (rz a)) as Z; unfold Rsqr in *.
  rv; apply Rsqr_0_uniq; unfold Rsqr; lra.
Qed.

Lemma normalize_unit : forall a, unit a -> rnormalize a = a.
Proof.
  intros a U; unfold rnormalize; rewrite U.
  destruct (Rlt_dec (1 - / 100000) 1) as [_ | N]; [| exfalso; lra].
  destruct (Rlt_dec 1 (1 + / 100000)) as [_ | N]; [reflexivity | exfalso; lra].
Qed.

Lemma scaled_unit : forall a, rdot a a <> 0 -> unit (rscale (/ sqrt (rdot a a)) a).
Proof.
  intros a NZ; unfold unit.
  assert (X : forall k, rdot (rscale k a) (rscale k a) = k * (k * rdot a a)) by (intro k; unfold rdot; cbn; ring).
  rewrite X; clear X.
  pose proof (rdot_pos a) as P; assert (Q : 0 < rdot a a) by lra.
  pose proof (sqrt_lt_R0 _ Q) as S.
  set (q := sqrt (rdot a a)) in *; assert (E : rdot a a = q * q) by (unfold q; rewrite sqrt_sqrt; lra).
  rewrite E; field; lra.
Qed.

(* C68.  Normalising keeps the direction; the result has length one up to the
   tolerance 1e-5 of the squared length, and exactly when the tolerance is not used. *)
Theorem normalize_length : forall a, rdot a a <> 0 ->
  (exists k, 0 < k /\ rnormalize a = rscale k a) /\
  Rabs (rdot (rnormalize a) (rnormalize a) - 1) < / 100000 /\
  (/ 100000 <= Rabs (rdot a a - 1) -> unit (rnormalize a)).
Proof.
  intros a NZ; pose proof (rdot_pos a) as P; assert (Q : 0 < rdot a a) by lra.
  pose proof (scaled_unit a NZ) as U; pose proof (sqrt_lt_R0 _ Q) as S.
  assert (K : 0 < / sqrt (rdot a a)) by (apply Rinv_0_lt_compat, S).
  assert (SC : (exists k, 0 < k /\ rscale (/ sqrt (rdot a a)) a = rscale k a) /\
    Rabs (rdot (rscale (/ sqrt (rdot a a)) a) (rscale (/ sqrt (rdot a a)) a) - 1) < / 100000 /\
    unit (rscale (/ sqrt (rdot a a)) a)).
  { split; [exists (/ sqrt (rdot a a)); auto |]; split; [| exact U].
    unfold unit in U; rewrite U; replace (1 - 1) with 0 by ring; rewrite Rabs_R0; lra. }
  unfold rnormalize.
  destruct (Rlt_dec (1 - / 100000) (rdot a a)) as [L | L]; [| tauto].
  destruct (Rlt_dec (rdot a a) (1 + / 100000)) as [G | G]; [| tauto].
  assert (B : Rabs (rdot a a - 1) < / 100000) by (apply Rabs_def1; lra).
  split; [exists 1; split; [lra |]; rv; ring | split; [exact B | lra]].
Qed.
Print Assumptions normalize_length.
Example normalize_ex : rdot (RV 3 0 4) (RV 3 0 4) <> 0 /\ rnormalize (RV 3 0 4) = RV (3 / 5) 0 (4 / 5).
Proof.
  assert (E : rdot (RV 3 0 4) (RV 3 0 4) = 25) by (unfold rdot; cbn; ring).
  split; [rewrite E; lra |]; unfold rnormalize; rewrite E.
  assert (S : sqrt 25 = 5) by (replace 25 with (5 * 5) by ring; apply sqrt_square; lra).
  rewrite S; destruct (Rlt_dec (1 - / 100000) 25) as [_ | N]; [| exfalso; lra].
  destruct (Rlt_dec 25 (1 + / 100000)) as [N | _]; [exfalso; lra |].
  rv; field.
Qed.

(* C68.  The frame of a hit whose dpdu has length one and is tangent to the surface is
   orthonormal, and the two conversions are inverse to each other on unit vectors. *)
Theorem shading_orthonormal : forall dpdu normal,
  unit dpdu -> unit normal -> rdot dpdu normal = 0 -> orthonormal (shading_of dpdu normal).
Proof.
  intros s n S N O; unfold orthonormal, shading_of; cbn [sh_s sh_t sh_n].
  assert (T : unit (rcross n s)).
  { unfold unit in *.
    assert (L : rdot (rcross n s) (rcross n s) = rdot n n * rdot s s - rdot s n * rdot s n)
      by (unfold rdot, rcross; cbn; ring).
    rewrite L, S, N, O; ring. }
  rewrite (normalize_unit _ T); repeat split; try assumption; unfold rdot, rcross; cbn; ring.
Qed.
Print Assumptions shading_orthonormal.

Lemma world_unit : forall m v, orthonormal m -> unit v ->
  let w := radd (radd (rscale (rx v) (sh_s m)) (rscale (ry v) (sh_t m))) (rscale (rz v) (sh_n m)) in
  unit w /\ rdot w (sh_s m) = rx v /\ rdot w (sh_t m) = ry v /\ rdot w (sh_n m) = rz v.
Proof.
  intros m v (S & T & N & ST & SN & TN) U w.
  assert (A : rdot w (sh_s m) = rx v).
  { unfold w; rewrite !rdot_add_l, !rdot_scale_l, (rdot_comm (sh_t m)), (rdot_comm (sh_n m)), S, ST, SN; ring. }
  assert (B : rdot w (sh_t m) = ry v).
  { unfold w; rewrite !rdot_add_l, !rdot_scale_l, (rdot_comm (sh_n m)), T, ST, TN; ring. }
  assert (C : rdot w (sh_n m) = rz v).
  { unfold w; rewrite !rdot_add_l, !rdot_scale_l, N, SN, TN; ring. }
  split; [| auto].
  assert (X : forall u, rdot w u = rx v * rdot (sh_s m) u + ry v * rdot (sh_t m) u + rz v * rdot (sh_n m) u)
    by (intro u; unfold w; rewrite !rdot_add_l, !rdot_scale_l; reflexivity).
  unfold unit; rewrite X, !(rdot_comm _ w), A, B, C; exact U.
Qed.

(* Bessel's equality in three dimensions: an orthonormal frame spans the space *)
Lemma frame_complete : forall m w, orthonormal m ->
  radd (radd (rscale (rdot w (sh_s m)) (sh_s m)) (rscale (rdot w (sh_t m)) (sh_t m)))
       (rscale (rdot w (sh_n m)) (sh_n m)) = w.
Proof.
  intros m w (S & T & N & ST & SN & TN).
  destruct m as [[s1 s2 s3] [t1 t2 t3] [n1 n2 n3]], w as [w1 w2 w3].
  unfold unit, rdot in *; cbn [sh_s sh_t sh_n rx ry rz] in *.
  set (d := s1 * (t2 * n3 - t3 * n2) - s2 * (t1 * n3 - t3 * n1) + s3 * (t1 * n2 - t2 * n1)).
  (* d is the determinant, d^2 = 1, and the columns are orthonormal too *)
  assert (D : d * d = 1).
  { assert (G : d * d =
      (s1*s1+s2*s2+s3*s3) * ((t1*t1+t2*t2+t3*t3)*(n1*n1+n2*n2+n3*n3) - (t1*n1+t2*n2+t3*n3)*(t1*n1+t2*n2+t3*n3))
      - (s1*t1+s2*t2+s3*t3) * ((s1*t1+s2*t2+s3*t3)*(n1*n1+n2*n2+n3*n3) - (s1*n1+s2*n2+s3*n3)*(t1*n1+t2*n2+t3*n3))
      + (s1*n1+s2*n2+s3*n3) * ((s1*t1+s2*t2+s3*t3)*(t1*n1+t2*n2+t3*n3) - (s1*n1+s2*n2+s3*n3)*(t1*t1+t2*t2+t3*t3)))
      by (unfold d; ring).
    rewrite G, S, T, N, ST, SN, TN; ring. }
  set (y1 := w1 * s1 + w2 * s2 + w3 * s3); set (y2 := w1 * t1 + w2 * t2 + w3 * t3);
    set (y3 := w1 * n1 + w2 * n2 + w3 * n3).
  (* v = M^T M w has the same coordinates as w, so M (v - w) = 0, so v = w *)
  set (v1 := y1 * s1 + y2 * t1 + y3 * n1 - w1); set (v2 := y1 * s2 + y2 * t2 + y3 * n2 - w2);
    set (v3 := y1 * s3 + y2 * t3 + y3 * n3 - w3).
  assert (E1 : v1 * s1 + v2 * s2 + v3 * s3 = 0).
  { replace (v1 * s1 + v2 * s2 + v3 * s3)
      with (y1 * (s1*s1+s2*s2+s3*s3) + y2 * (s1*t1+s2*t2+s3*t3) + y3 * (s1*n1+s2*n2+s3*n3) - y1)
      by (unfold v1, v2, v3, y1; ring). rewrite S, ST, SN; ring. }
  assert (E2 : v1 * t1 + v2 * t2 + v3 * t3 = 0).
  { replace (v1 * t1 + v2 * t2 + v3 * t3)
      with (y1 * (s1*t1+s2*t2+s3*t3) + y2 * (t1*t1+t2*t2+t3*t3) + y3 * (t1*n1+t2*n2+t3*n3) - y2)
      by (unfold v1, v2, v3, y2; ring). rewrite T, ST, TN; ring. }
  assert (E3 : v1 * n1 + v2 * n2 + v3 * n3 = 0).
  { replace (v1 * n1 + v2 * n2 + v3 * n3)
      with (y1 * (s1*n1+s2*n2+s3*n3) + y2 * (t1*n1+t2*n2+t3*n3) + y3 * (n1*n1+n2*n2+n3*n3) - y3)
      by (unfold v1, v2, v3, y3; ring). rewrite N, SN, TN; ring. }
  (* Cramer *)
  assert (C1 : d * v1 = 0).
  { replace (d * v1) with
      ((v1*s1+v2*s2+v3*s3) * (t2*n3-t3*n2) + (v1*t1+v2*t2+v3*t3) * (n2*s3-n3*s2)
       + (v1*n1+v2*n2+v3*n3) * (s2*t3-s3*t2)) by (unfold d; ring). rewrite E1, E2, E3; ring. }
  assert (C2 : d * v2 = 0).
  { replace (d * v2) with
      ((v1*s1+v2*s2+v3*s3) * (t3*n1-t1*n3) + (v1*t1+v2*t2+v3*t3) * (n3*s1-n1*s3)
       + (v1*n1+v2*n2+v3*n3) * (s3*t1-s1*t3)) by (unfold d; ring). rewrite E1, E2, E3; ring. }
  assert (C3 : d * v3 = 0).
  { replace (d * v3) with
      ((v1*s1+v2*s2+v3*s3) * (t1*n2-t2*n1) + (v1*t1+v2*t2+v3*t3) * (n1*s2-n2*s1)
       + (v1*n1+v2*n2+v3*n3) * (s1*t2-s2*t1)) by (unfold d; ring). rewrite E1, E2, E3; ring. }
  assert (K : forall x, d * x = 0 -> x = 0).
  { intros x H; assert (X : d * (d * x) = 0) by (rewrite H; ring).
    rewrite <- Rmult_assoc, D in X; lra. }
  apply K in C1, C2, C3; unfold v1, v2, v3 in *; rv; lra.
Qed.

Theorem shading_inverse : forall m v, orthonormal m -> unit v ->
  to_shading m (to_world m v) = v /\ to_world m (to_shading m v) = v /\
  unit (to_world m v) /\ unit (to_shading m v).
Proof.
  intros m v O U; destruct (world_unit m v O U) as (W & A & B & C).
  unfold to_world at 1 3; rewrite (normalize_unit _ W).
  unfold to_shading at 1; rewrite A, B, C.
  assert (E : RV (rx v) (ry v) (rz v) = v) by (destruct v; reflexivity).
  rewrite E, (normalize_unit _ U).
  assert (F : unit (RV (rdot v (sh_s m)) (rdot v (sh_t m)) (rdot v (sh_n m)))).
  { pose proof (frame_complete m v O) as X.
    unfold unit; unfold rdot at 1; cbn [rx ry rz].
    assert (Y : rdot v v = rdot v (radd (radd (rscale (rdot v (sh_s m)) (sh_s m))
              (rscale (rdot v (sh_t m)) (sh_t m))) (rscale (rdot v (sh_n m)) (sh_n m))))
      by (rewrite X; reflexivity).
    unfold unit in U; rewrite U in Y; rewrite Y.
    unfold rdot; cbn [rx ry rz radd rscale]; ring. }
  unfold to_shading; rewrite (normalize_unit _ F).
  split; [reflexivity | split; [| split; [exact W | exact F]]].
  unfold to_world; cbn [rx ry rz]; rewrite frame_complete by exact O; apply normalize_unit, U.
Qed.
Print Assumptions shading_inverse.
Example shading_ex : orthonormal (shading_of (RV 1 0 0) (RV 0 0 1)) /\ unit (RV (3 / 5) 0 (4 / 5)).
Proof.
  split; [apply shading_orthonormal |]; unfold unit, rdot; cbn; field.
Qed.

(* C69.  When dpdu is not tangent (the normal of a mesh is interpolated between the
   corners, dpdu is not) the frame does not map the normal to the vertical axis. *)
Theorem shading_slanted_refuted : forall dpdu normal,
  unit dpdu -> unit normal -> rdot dpdu normal <> 0 ->
  to_shading (shading_of dpdu normal) normal <> RV 0 0 1.
Proof.
  intros s n S N O E.
  set (w := RV (rdot n s) (rdot n (sh_t (shading_of s n))) (rdot n n)).
  assert (W : rdot w w <> 0).
  { unfold w; unfold rdot at 1; cbn [rx ry rz]; rewrite N.
    pose proof (Rle_0_sqr (rdot n s)); pose proof (Rle_0_sqr (rdot n (sh_t (shading_of s n)))).
    unfold Rsqr in *; lra. }
  destruct (proj1 (normalize_length w W)) as (k & K & EQ).
  assert (X : rx (to_shading (shading_of s n) n) = k * rdot n s).
  { unfold to_shading; cbn [shading_of sh_s sh_n]; fold w; rewrite EQ; reflexivity. }
  rewrite E in X; cbn in X; symmetry in X; apply Rmult_integral in X.
  destruct X as [X | X]; [lra | apply O; rewrite rdot_comm; exact X].
Qed.
Print Assumptions shading_slanted_refuted.
Example shading_slanted_ex : unit (RV 1 0 0) /\ unit (RV (3 / 5) 0 (4 / 5)) /\
  rdot (RV 1 0 0) (RV (3 / 5) 0 (4 / 5)) <> 0.
Proof. unfold unit, rdot; cbn; repeat split; lra. Qed.
