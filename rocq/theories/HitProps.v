(* Derivatives of texture coordinates and bumped shading frames. *)
From Coq Require Import Reals Lra Psatz NArith Lia.
From Verif Require Import RVecModel RVecProps HitModel HitSpec.
Local Open Scope R_scope.

Lemma plane_point_plane : forall h r, rdot (hp_n h) (dr_d r) <> 0 ->
  rdot (hp_n h) (rsub (plane_point h r) (hp_p h)) = 0.
Proof.
  intros h r H. unfold plane_point. set (n := hp_n h) in *. set (p := hp_p h). set (o := dr_o r). set (d := dr_d r) in *.
  assert (E : forall t, rdot n (rsub (radd o (rscale t d)) p) = rdot n o + t * rdot n d - rdot n p)
    by (intro t; unfold rdot; cbn; ring).
  rewrite E. field. exact H.
Qed.

(* two components and the plane decide the third *)
Lemma third : forall a b c x y z, c <> 0 -> a * x + b * y + c * z = 0 -> x = 0 -> y = 0 -> z = 0.
Proof. intros a b c x y z H E -> ->. assert (c * z = 0) by lra. apply Rmult_integral in H0. destruct H0; [contradiction | assumption]. Qed.

Lemma max_nonzero : forall n, rdot n n <> 0 ->
  match solving_axes n with
  | (1%nat, 2%nat) => rx n <> 0
  | (0%nat, 2%nat) => ry n <> 0
  | (0%nat, 1%nat) => rz n <> 0
  | _ => False
  end.
Proof.
  intros n H. unfold solving_axes.
  assert (A : forall a, a <> 0 -> 0 < Rabs a) by (intros; apply Rabs_pos_lt; assumption).
  pose proof (Rabs_pos (rx n)) as PX. pose proof (Rabs_pos (ry n)) as PY. pose proof (Rabs_pos (rz n)) as PZ.
  assert (Z : forall a, Rabs a = 0 -> a = 0) by (intros a E; destruct (Req_dec a 0); [assumption | exfalso; apply (Rabs_no_R0 a); assumption]).
  assert (K : ~ (rx n = 0 /\ ry n = 0 /\ rz n = 0)).
  { intros (E1 & E2 & E3). apply H. unfold rdot. rewrite E1, E2, E3. ring. }
  destruct (Rlt_dec (Rabs (ry n)) (Rabs (rx n))) as [C | C].
  - destruct (Rlt_dec (Rabs (rz n)) (Rabs (rx n))) as [D | D].
    + intro E. rewrite E, Rabs_R0 in C. lra.
    + destruct (Rlt_dec (Rabs (rz n)) (Rabs (ry n))) as [E | E].
      * intro F. rewrite F, Rabs_R0 in E. lra.
      * intro F. assert (F' : Rabs (rz n) = 0) by (rewrite F; apply Rabs_R0). lra.
  - destruct (Rlt_dec (Rabs (rz n)) (Rabs (ry n))) as [E | E].
    + intro F. rewrite F, Rabs_R0 in E. lra.
    + intro F. assert (F' : Rabs (rz n) = 0) by (rewrite F; apply Rabs_R0). apply K. split; [apply Z; lra |]. split; [apply Z; lra | assumption].
Qed.

Ltac comb TU TV PL du dv :=
  match type of TU with ?A = 0 => match type of TV with ?B = 0 => match type of PL with ?C = 0 =>
    transitivity (du * A + dv * B - C); [ring | rewrite TU, TV, PL; ring] end end end.

(* du and dv lead from the hit exactly to the points of the surface plane that the two
   differential rays reach. *)
Theorem differentials_reach : forall h r1 r2 dux duy dvx dvy,
  tangent h -> rdot (hp_n h) (hp_n h) <> 0 ->
  rdot (hp_n h) (dr_d r1) <> 0 -> rdot (hp_n h) (dr_d r2) <> 0 ->
  calculate_differentials h r1 r2 = Some ((dux, duy), (dvx, dvy)) ->
  reaches r1 h (moved h dux dvx) /\ reaches r2 h (moved h duy dvy).
Proof.
  intros h r1 r2 dux duy dvx dvy [TU TV] N D1 D2 E.
  assert (Q : forall r du dv, rdot (hp_n h) (dr_d r) <> 0 ->
    moved h du dv = plane_point h r -> reaches r h (moved h du dv)).
  { intros r du dv D F. rewrite F. split; [apply plane_point_plane; assumption |]. unfold plane_point. eexists. reflexivity. }
  pose proof (plane_point_plane h r1 D1) as P1. pose proof (plane_point_plane h r2 D2) as P2.
  unfold calculate_differentials in E. pose proof (max_nonzero _ N) as M.
  set (q1 := plane_point h r1) in *. set (q2 := plane_point h r2) in *.
  destruct (solving_axes (hp_n h)) as [a0 a1].
  assert (W : exists i j, (i, j) = (a0, a1)) by eauto.
  match type of E with context [Rlt_dec _ (Rabs ?d)] => set (det := d) in * end.
  destruct (Rlt_dec (/ 100000) (Rabs det)) as [L | L]; [| discriminate].
  assert (ND : det <> 0) by (intro F; rewrite F, Rabs_R0 in L; lra).
  injection E as E1 E2 E3 E4.
  assert (G : forall q du dv, rdot (hp_n h) (rsub q (hp_p h)) = 0 ->
    du = (component a1 (hp_v h) * (component a0 q - component a0 (hp_p h)) - component a0 (hp_v h) * (component a1 q - component a1 (hp_p h))) * (1 / det) ->
    dv = (component a0 (hp_u h) * (component a1 q - component a1 (hp_p h)) - component a1 (hp_u h) * (component a0 q - component a0 (hp_p h))) * (1 / det) ->
    moved h du dv = q).
  { intros q du dv PL F1 F2.
    assert (C0 : du * component a0 (hp_u h) + dv * component a0 (hp_v h) - (component a0 q - component a0 (hp_p h)) = 0).
    { rewrite F1, F2. subst det. field. exact ND. }
    assert (C1 : du * component a1 (hp_u h) + dv * component a1 (hp_v h) - (component a1 q - component a1 (hp_p h)) = 0).
    { rewrite F1, F2. subst det. field. exact ND. }
    clear F1 F2 E1 E2 E3 E4 L ND. clearbody det q1 q2.
    unfold tangent, rdot in *. cbn [rx ry rz rsub] in *.
    unfold moved. destruct a0 as [| [| a0]], a1 as [| [| [| a1]]]; try contradiction; cbn [component] in C0, C1; apply rv_eq; cbn [rx ry rz radd rscale].
    all: try lra.
    + enough (X : du * rz (hp_u h) + dv * rz (hp_v h) - (rz q - rz (hp_p h)) = 0) by lra.
      apply (third (rx (hp_n h)) (ry (hp_n h)) (rz (hp_n h)) _ _ _ M) with (2 := C0) (3 := C1). comb TU TV PL du dv.
    + enough (X : du * ry (hp_u h) + dv * ry (hp_v h) - (ry q - ry (hp_p h)) = 0) by lra.
      apply (third (rx (hp_n h)) (rz (hp_n h)) (ry (hp_n h)) _ _ _ M) with (2 := C0) (3 := C1). comb TU TV PL du dv.
    + enough (X : du * rx (hp_u h) + dv * rx (hp_v h) - (rx q - rx (hp_p h)) = 0) by lra.
      apply (third (ry (hp_n h)) (rz (hp_n h)) (rx (hp_n h)) _ _ _ M) with (2 := C0) (3 := C1). comb TU TV PL du dv. }
  split; apply Q; try assumption.
  - apply (G q1); [assumption | symmetry; assumption | symmetry; assumption].
  - apply (G q2); [assumption | symmetry; assumption | symmetry; assumption].
Qed.
Print Assumptions differentials_reach.

(* With tangents of length one at right angles there always is a solution. *)
Theorem differentials_found : forall h r1 r2,
  unit (hp_n h) -> unit (hp_u h) -> unit (hp_v h) -> tangent h -> rdot (hp_u h) (hp_v h) = 0 ->
  exists d, calculate_differentials h r1 r2 = Some d.
Proof.
  intros h r1 r2 N U V [TU TV] UV. unfold calculate_differentials.
  assert (M : match solving_axes (hp_n h) with
    | (1%nat, 2%nat) => 1 / 3 <= rx (hp_n h) * rx (hp_n h)
    | (0%nat, 2%nat) => 1 / 3 <= ry (hp_n h) * ry (hp_n h)
    | (0%nat, 1%nat) => 1 / 3 <= rz (hp_n h) * rz (hp_n h)
    | _ => False end).
  { unfold solving_axes. unfold unit, rdot in N.
    assert (S : forall a b, Rabs a <= Rabs b -> a * a <= b * b).
    { intros a b H. pose proof (Rabs_pos a). pose proof (Rsqr_abs a) as A. pose proof (Rsqr_abs b) as B.
      unfold Rsqr in *. rewrite A, B. apply Rmult_le_compat; lra. }
    destruct (Rlt_dec (Rabs (ry (hp_n h))) (Rabs (rx (hp_n h)))) as [C | C];
    destruct (Rlt_dec (Rabs (rz (hp_n h))) (Rabs (rx (hp_n h)))) as [D | D];
    destruct (Rlt_dec (Rabs (rz (hp_n h))) (Rabs (ry (hp_n h)))) as [F | F];
    pose proof (S (ry (hp_n h)) (rx (hp_n h))); pose proof (S (rx (hp_n h)) (ry (hp_n h)));
    pose proof (S (rz (hp_n h)) (rx (hp_n h))); pose proof (S (rx (hp_n h)) (rz (hp_n h)));
    pose proof (S (rz (hp_n h)) (ry (hp_n h))); pose proof (S (ry (hp_n h)) (rz (hp_n h))); lra. }
  (* the cross product of the tangents is the normal up to its sign *)
  assert (K : let c := rcross (hp_u h) (hp_v h) in
    rx c * rx c = rx (hp_n h) * rx (hp_n h) /\ ry c * ry c = ry (hp_n h) * ry (hp_n h) /\ rz c * rz c = rz (hp_n h) * rz (hp_n h)).
  { cbv zeta. assert (O : orthonormal (mk_shading (hp_u h) (hp_v h) (hp_n h))).
    { unfold orthonormal. cbn. rewrite (rdot_comm (hp_u h) (hp_n h)), (rdot_comm (hp_v h) (hp_n h)). auto 10. }
    pose proof (frame_complete _ (rcross (hp_u h) (hp_v h)) O) as F. cbn [sh_s sh_t sh_n] in F.
    assert (Z1 : rdot (rcross (hp_u h) (hp_v h)) (hp_u h) = 0) by (unfold rdot, rcross; cbn; ring).
    assert (Z2 : rdot (rcross (hp_u h) (hp_v h)) (hp_v h) = 0) by (unfold rdot, rcross; cbn; ring).
    rewrite Z1, Z2 in F.
    assert (L : rdot (rcross (hp_u h) (hp_v h)) (rcross (hp_u h) (hp_v h)) = 1).
    { transitivity (rdot (hp_u h) (hp_u h) * rdot (hp_v h) (hp_v h) - rdot (hp_u h) (hp_v h) * rdot (hp_u h) (hp_v h)).
      - unfold rdot, rcross. cbn. ring.
      - rewrite U, V, UV. ring. }
    set (c := rcross (hp_u h) (hp_v h)) in *. clearbody c. set (k := rdot c (hp_n h)) in *. clearbody k.
    assert (E : c = rscale k (hp_n h)) by (rewrite <- F; apply rv_eq; cbn; ring).
    assert (K2 : k * k = 1).
    { rewrite E in L. transitivity (k * k * rdot (hp_n h) (hp_n h)); [rewrite N; ring | rewrite <- L; unfold rdot; cbn; ring]. }
    rewrite E. cbn. repeat split; rewrite <- (Rmult_1_l (_ (hp_n h) * _ (hp_n h))), <- K2; ring. }
  cbv zeta in K. destruct K as (KX & KY & KZ). cbn in KX, KY, KZ.
  assert (G : forall d, 1 / 3 <= d * d -> / 100000 < Rabs d).
  { intros d H. destruct (Rlt_dec (/ 100000) (Rabs d)) as [| C]; [assumption | exfalso].
    pose proof (Rsqr_abs d) as A. unfold Rsqr in A. pose proof (Rabs_pos d). nra. }
  destruct (solving_axes (hp_n h)) as [a0 a1].
  destruct a0 as [| [| a0]], a1 as [| [| [| a1]]]; try contradiction; cbn [component].
  all: match goal with |- context [Rlt_dec _ (Rabs ?d)] => destruct (Rlt_dec (/ 100000) (Rabs d)) as [L | L]; [eauto | exfalso; apply L; apply G] end.
  - rewrite <- KZ in M. eapply Rle_trans; [exact M | right; ring].
  - rewrite <- KY in M. eapply Rle_trans; [exact M | right; ring].
  - rewrite <- KX in M. eapply Rle_trans; [exact M | right; ring].
Qed.
Print Assumptions differentials_found.

Lemma reaches_once : forall r h q q', rdot (hp_n h) (dr_d r) <> 0 -> reaches r h q -> reaches r h q' -> q = q'.
Proof.
  intros r h q q' D (P & t & ->) (P' & t' & ->).
  assert (E : forall t, rdot (hp_n h) (rsub (radd (dr_o r) (rscale t (dr_d r))) (hp_p h)) =
    rdot (hp_n h) (rsub (dr_o r) (hp_p h)) + t * rdot (hp_n h) (dr_d r)) by (intro; unfold rdot; cbn; ring).
  rewrite E in P, P'. assert (Z : (t - t') * rdot (hp_n h) (dr_d r) = 0) by lra.
  apply Rmult_integral in Z. destruct Z as [Z | Z]; [| contradiction].
  replace t' with t by lra. reflexivity.
Qed.

Lemma normalize_scaled : forall a, a <> RV 0 0 0 -> exists k, 0 < k /\ rnormalize a = rscale k a.
Proof.
  intros a N. apply normalize_length. intro E. apply N. apply rdot_zero. exact E.
Qed.

(* The tangents of a hit are given length one before the derivatives are solved for
   (asset.cpp:43-48), so the derivatives come out in units of length of the surface and not in
   texture coordinates: they are the true ones times the lengths of the true tangents. *)
Theorem differentials_length_refuted : forall p n A B r1 r2 dux duy dvx dvy u v,
  unit n -> rdot n A = 0 -> rdot n B = 0 -> rdot A B = 0 -> A <> RV 0 0 0 -> B <> RV 0 0 0 ->
  / 100000 <= Rabs (rdot A A - 1) ->
  rdot n (dr_d r1) <> 0 -> rdot n (dr_d r2) <> 0 ->
  let surface := mk_hitp p n A B in
  reaches r1 surface (moved surface u v) -> u <> 0 ->
  calculate_differentials (mk_hitp p n (rnormalize A) (rnormalize B)) r1 r2 = Some ((dux, duy), (dvx, dvy)) ->
  dux = rlength A * u /\ dux <> u.
Proof.
  intros p n A B r1 r2 dux duy dvx dvy u v N TA TB AB ZA ZB LA D1 D2 surface M U E.
  destruct (normalize_scaled A ZA) as (ka & PA & EA). destruct (normalize_scaled B ZB) as (kb & PB & EB).
  assert (NA : rdot A A <> 0) by (intro Z; apply ZA; apply rdot_zero; exact Z).
  assert (UA : ka * ka * rdot A A = 1).
  { destruct (normalize_length A NA) as (_ & _ & G). specialize (G LA). rewrite EA in G. unfold unit in G.
    rewrite <- G. unfold rdot. cbn. ring. }
  rewrite EA, EB in E.
  assert (T : tangent (mk_hitp p n (rscale ka A) (rscale kb B))).
  { split; cbn [hp_n hp_u hp_v]; rewrite rdot_comm, rdot_scale_l, rdot_comm; [rewrite TA | rewrite TB]; ring. }
  assert (NN : rdot n n <> 0) by (unfold unit in N; lra).
  destruct (differentials_reach _ _ _ _ _ _ _ T NN D1 D2 E) as [R1 _].
  assert (R1' : reaches r1 surface (moved (mk_hitp p n (rscale ka A) (rscale kb B)) dux dvx)) by exact R1.
  pose proof (reaches_once r1 surface _ _ D1 M R1') as Q.
  assert (S : forall a b, rdot (rsub (moved surface a b) p) A = a * rdot A A + b * rdot A B)
    by (intros; unfold rdot; cbn; ring).
  assert (S' : rdot (rsub (moved (mk_hitp p n (rscale ka A) (rscale kb B)) dux dvx) p) A = dux * ka * rdot A A + dvx * kb * rdot A B)
    by (unfold rdot; cbn; ring).
  assert (X : u * rdot A A = dux * ka * rdot A A).
  { pose proof (S u v) as F. rewrite Q, S', AB in F. lra. }
  assert (X' : u = dux * ka) by (apply (Rmult_eq_reg_r (rdot A A)); assumption).
  assert (L : rlength A = / ka).
  { unfold rlength. replace (rdot A A) with (/ ka * / ka).
    - apply sqrt_square. left. apply Rinv_0_lt_compat. exact PA.
    - apply (Rmult_eq_reg_l (ka * ka)); [rewrite UA; field; lra | nra]. }
  split; [rewrite L, X'; field; lra |].
  intro C. assert (K : dux * (ka - 1) = 0) by (rewrite C in *; lra).
  apply Rmult_integral in K. destruct K as [K | K]; [lra |].
  replace ka with 1 in UA by lra. assert (H : rdot A A - 1 = 0) by lra. rewrite H, Rabs_R0 in LA. lra.
Qed.
Print Assumptions differentials_length_refuted.

(* right or left handed *)
Lemma handed : forall u v n, unit u -> unit v -> unit n -> rdot u v = 0 -> rdot n u = 0 -> rdot n v = 0 ->
  exists k, k * k = 1 /\ rcross u v = rscale k n /\ rcross u n = rscale (- k) v /\ rcross n v = rscale (- k) u.
Proof.
  intros u v n U V N UV NU NV.
  assert (O : orthonormal (mk_shading u v n)).
  { unfold orthonormal. cbn. rewrite (rdot_comm u n), (rdot_comm v n). auto 10. }
  exists (rdot (rcross u v) n).
  assert (F : forall w, radd (radd (rscale (rdot w u) u) (rscale (rdot w v) v)) (rscale (rdot w n) n) = w)
    by (intro w; exact (frame_complete _ w O)).
  set (k := rdot (rcross u v) n).
  assert (E1 : rcross u v = rscale k n).
  { rewrite <- (F (rcross u v)).
    replace (rdot (rcross u v) u) with 0 by (unfold rdot, rcross; cbn; ring).
    replace (rdot (rcross u v) v) with 0 by (unfold rdot, rcross; cbn; ring).
    fold k. apply rv_eq; cbn; ring. }
  repeat apply conj.
  - assert (L : rdot (rcross u v) (rcross u v) = 1).
    { transitivity (rdot u u * rdot v v - rdot u v * rdot u v); [unfold rdot, rcross; cbn; ring | rewrite U, V, UV; ring]. }
    rewrite E1 in L. transitivity (k * k * rdot n n); [rewrite N; ring | rewrite <- L; unfold rdot; cbn; ring].
  - exact E1.
  - rewrite <- (F (rcross u n)).
    replace (rdot (rcross u n) u) with 0 by (unfold rdot, rcross; cbn; ring).
    replace (rdot (rcross u n) n) with 0 by (unfold rdot, rcross; cbn; ring).
    replace (rdot (rcross u n) v) with (- k) by (unfold k, rdot, rcross; cbn; ring).
    apply rv_eq; cbn; ring.
  - rewrite <- (F (rcross n v)).
    replace (rdot (rcross n v) v) with 0 by (unfold rdot, rcross; cbn; ring).
    replace (rdot (rcross n v) n) with 0 by (unfold rdot, rcross; cbn; ring).
    replace (rdot (rcross n v) u) with (- k) by (unfold k, rdot, rcross; cbn; ring).
    apply rv_eq; cbn; ring.
Qed.

Lemma rneg_scale : forall k a, rneg (rscale k a) = rscale (- k) a.
Proof. intros. apply rv_eq; cbn; ring. Qed.

Lemma near_unit_nonzero : forall a, Rabs (rdot a a - 1) < / 100000 -> rdot a a <> 0.
Proof. intros a H E. rewrite E in H. unfold Rabs in H. destruct (Rcase_abs (0 - 1)); lra. Qed.

(* a frame completed from a normal of about length one and a tangent that is not parallel *)
Lemma frame_from : forall n w, Rabs (rdot n n - 1) < / 100000 -> rdot n w = 0 -> rdot w w <> 0 ->
  let s := rnormalize w in let t := rnormalize (rcross n s) in
  Rabs (rdot s s - 1) < / 100000 /\ Rabs (rdot t t - 1) < / 100000 /\
  rdot s n = 0 /\ rdot t n = 0 /\ rdot s t = 0.
Proof.
  intros n w N NW W s t.
  destruct (normalize_length w W) as ((k & PK & EK) & LS & _). fold s in EK, LS.
  assert (SN : rdot s n = 0) by (rewrite EK, rdot_scale_l, rdot_comm, NW; ring).
  assert (C : rdot (rcross n s) (rcross n s) <> 0).
  { assert (E : rdot (rcross n s) (rcross n s) = rdot n n * rdot s s).
    { transitivity (rdot n n * rdot s s - rdot s n * rdot s n); [unfold rdot, rcross; cbn; ring | rewrite SN; ring]. }
    rewrite E. apply Rmult_integral_contrapositive. split; apply near_unit_nonzero; assumption. }
  destruct (normalize_length _ C) as ((k' & PK' & EK') & LT & _). fold t in EK', LT.
  repeat apply conj; try assumption.
  - rewrite EK', rdot_scale_l. replace (rdot (rcross n s) n) with 0 by (unfold rdot, rcross; cbn; ring). ring.
  - rewrite rdot_comm, EK', rdot_scale_l. replace (rdot (rcross n s) s) with 0 by (unfold rdot, rcross; cbn; ring). ring.
Qed.

(* A height map tilts the normal away from the rising side by the slopes, whatever the
   orientation of the texture, and keeps a right-angled frame. *)
Theorem height_tilt : forall a b h,
  unit (hp_n h) -> unit (hp_u h) -> unit (hp_v h) -> tangent h -> rdot (hp_u h) (hp_v h) = 0 ->
  let '(m, n) := height_bump (a, b) h in
  (exists k, 0 < k /\ n = rscale k (rsub (rsub (hp_n h) (rscale a (hp_u h))) (rscale b (hp_v h)))) /\
  sh_n m = n /\ 0 < rdot n (hp_n h) /\ square_frame m.
Proof.
  intros a b h N U V [NU NV] UV. unfold height_bump.
  destruct (handed _ _ _ U V N UV NU NV) as (k & KK & E1 & E2 & E3).
  rewrite NU, NV. set (n0 := hp_n h) in *. set (u := hp_u h) in *. set (v := hp_v h) in *.
  set (dpdu := radd u (rscale (a - 0) n0)). set (dpdv := radd v (rscale (b - 0) n0)).
  set (tilt := rsub (rsub n0 (rscale a u)) (rscale b v)).
  assert (C : rcross dpdu dpdv = rscale k tilt).
  { transitivity (radd (rcross u v) (radd (rscale b (rcross u n0)) (rscale a (rcross n0 v)))).
    - unfold dpdu, dpdv. apply rv_eq; cbn; ring.
    - rewrite E1, E2, E3. unfold tilt. apply rv_eq; cbn; ring. }
  assert (TN : rdot tilt n0 = 1).
  { transitivity (rdot n0 n0 - a * rdot n0 u - b * rdot n0 v).
    - unfold tilt, rdot. cbn. ring.
    - rewrite N, NU, NV. ring. }
  assert (DT : rdot tilt dpdu = 0).
  { assert (Z : rdot (rcross dpdu dpdv) dpdu = 0) by (unfold rdot, rcross; cbn; ring).
    rewrite C, rdot_scale_l in Z. nra. }
  assert (TT : rdot tilt tilt <> 0).
  { intro Z. apply rdot_zero in Z. rewrite Z in TN. unfold rdot in TN. cbn in TN. lra. }
  rewrite C.
  assert (TK : rdot (rscale k tilt) (rscale k tilt) <> 0).
  { assert (Z : rdot (rscale k tilt) (rscale k tilt) = k * k * rdot tilt tilt) by (unfold rdot; cbn; ring).
    rewrite Z, KK. lra. }
  destruct (normalize_length _ TK) as ((q & PQ & EQ) & LN & _).
  set (n := rnormalize (rscale k tilt)) in *.
  assert (En : n = rscale (q * k) tilt) by (rewrite EQ; apply rv_eq; cbn; ring).
  assert (DN : rdot dpdu n = 0) by (rewrite En, rdot_comm, rdot_scale_l, DT; ring).
  assert (W : rsub dpdu (rscale (rdot dpdu n) n) = dpdu) by (rewrite DN; apply rv_eq; cbn; ring).
  rewrite W.
  assert (DD : rdot dpdu dpdu <> 0).
  { assert (Z : rdot dpdu u = 1).
    { transitivity (rdot u u + a * rdot n0 u); [unfold dpdu, rdot; cbn; ring | rewrite U, NU; ring]. }
    intro Y. apply rdot_zero in Y. rewrite Y in Z. unfold rdot in Z. cbn in Z. lra. }
  assert (ND : rdot n dpdu = 0) by (rewrite rdot_comm; exact DN).
  destruct (frame_from n dpdu LN ND DD) as (F1 & F2 & F3 & F4 & F5).
  set (s := rnormalize dpdu) in *. set (t := rnormalize (rcross n s)) in *.
  assert (NN : rdot n n0 = q * k) by (rewrite En, rdot_scale_l, TN; ring).
  assert (NG : forall x, rdot x (rneg n) = - rdot x n) by (intro; unfold rdot; cbn; ring).
  destruct (Rlt_dec (rdot n n0) 0) as [Lt | Lt].
  - assert (K1 : k = -1) by nra. cbn [sh_n]. split; [| split; [| split]].
    + exists q. split; [exact PQ |]. rewrite En, K1. apply rv_eq; cbn; ring.
    + reflexivity.
    + rewrite rdot_comm, NG, rdot_comm, NN, K1. lra.
    + unfold square_frame. cbn [sh_s sh_t sh_n]. repeat apply conj; try assumption.
      * replace (rdot (rneg n) (rneg n)) with (rdot n n) by (unfold rdot; cbn; ring). exact LN.
      * rewrite NG, F3. ring.
      * rewrite NG, F4. ring.
  - assert (K1 : k = 1) by nra. cbn [sh_n]. split; [| split; [| split]].
    + exists q. split; [exact PQ |]. rewrite En, K1. apply rv_eq; cbn; ring.
    + reflexivity.
    + rewrite NN, K1. lra.
    + unfold square_frame. cbn [sh_s sh_t sh_n]. repeat apply conj; assumption.
Qed.
Print Assumptions height_tilt.

(* A map of one height has no slope and leaves the normal alone. *)
Theorem height_flat : forall c du dv h,
  unit (hp_n h) -> unit (hp_u h) -> unit (hp_v h) -> tangent h -> rdot (hp_u h) (hp_v h) = 0 ->
  snd (height_bump (height_gradient (fun _ _ => c) du dv) h) = hp_n h.
Proof.
  intros c du dv h N U V T UV.
  assert (G : height_gradient (fun _ _ => c) du dv = (0, 0)).
  { unfold height_gradient. apply f_equal2; unfold Rdiv; rewrite Rminus_diag_eq; try reflexivity; ring. }
  rewrite G. unfold height_bump. destruct T as [NU NV]. rewrite NU, NV.
  destruct (handed _ _ _ U V N UV NU NV) as (k & KK & E1 & _ & _).
  replace (radd (hp_u h) (rscale (0 - 0) (hp_n h))) with (hp_u h) by (apply rv_eq; cbn; ring).
  replace (radd (hp_v h) (rscale (0 - 0) (hp_n h))) with (hp_v h) by (apply rv_eq; cbn; ring).
  rewrite E1.
  assert (UK : unit (rscale k (hp_n h))).
  { unfold unit in *. transitivity (k * k * rdot (hp_n h) (hp_n h)); [unfold rdot; cbn; ring | rewrite KK, N; ring]. }
  rewrite (normalize_unit _ UK). rewrite rdot_scale_l, N. cbn [snd].
  destruct (Rlt_dec (k * 1) 0) as [L | L].
  - assert (k = -1) by nra. subst k. apply rv_eq; cbn; ring.
  - assert (k = 1) by nra. subst k. apply rv_eq; cbn; ring.
Qed.
Print Assumptions height_flat.

(* the three channels are odd multiples of 1/255 *)
Lemma channel_odd : forall c, normal_channel c = IZR (2 * Z.of_N c - 255) / 255.
Proof.
  intro c. unfold normal_channel. rewrite minus_IZR, mult_IZR.
  replace (INR (N.to_nat c)) with (IZR (Z.of_N c)) by (rewrite INR_IZR_INZ, N_nat_Z; reflexivity). field.
Qed.

Lemma odd_sum : forall a b c : Z,
  ((2 * a - 255) * (2 * a - 255) + (2 * b - 255) * (2 * b - 255) + (2 * c - 255) * (2 * c - 255) <> 65025)%Z.
Proof.
  intros a b c H.
  assert (Q : forall x, ((2 * x - 255) * (2 * x - 255) = 4 * ((x - 128) * (x - 127)) + 1)%Z) by (intro; ring).
  rewrite !Q in H.
  assert (E : forall x, (exists y, (x - 128) * (x - 127) = 2 * y)%Z).
  { intro x. destruct (Z.Even_or_Odd x) as [[y Y] | [y Y]].
    - exists ((y - 64) * (x - 127))%Z. rewrite Y at 1. ring.
    - exists ((x - 128) * (y - 63))%Z. rewrite Y at 2. ring. }
  destruct (E a) as [x X]. destruct (E b) as [y Y]. destruct (E c) as [z Z']. rewrite X, Y, Z' in H. lia.
Qed.

Lemma channels_length : forall r g b,
  let w := RV (normal_channel r) (normal_channel g) (normal_channel b) in
  rdot w w <> 0 /\ / 100000 <= Rabs (rdot w w - 1).
Proof.
  intros r g b w. unfold w, rdot. cbn [rx ry rz]. rewrite !channel_odd.
  set (x := (2 * Z.of_N r - 255)%Z). set (y := (2 * Z.of_N g - 255)%Z). set (z := (2 * Z.of_N b - 255)%Z).
  assert (E : IZR x / 255 * (IZR x / 255) + IZR y / 255 * (IZR y / 255) + IZR z / 255 * (IZR z / 255) =
    IZR (x * x + y * y + z * z) / 65025) by (rewrite !plus_IZR, !mult_IZR; field).
  rewrite E. pose proof (odd_sum (Z.of_N r) (Z.of_N g) (Z.of_N b)) as O. fold x y z in O.
  assert (P : (1 <= x * x + y * y + z * z)%Z).
  { assert (x <> 0)%Z by (unfold x; lia). nia. }
  set (s := (x * x + y * y + z * z)%Z) in *. clearbody s. apply IZR_le in P. split; [lra |].
  destruct (Z_lt_le_dec s 65025) as [L | L].
  - assert (L' : (s <= 65024)%Z) by lia. apply IZR_le in L'. rewrite Rabs_left1; lra.
  - assert (L' : (65026 <= s)%Z) by lia. apply IZR_le in L'. rewrite Rabs_pos_eq; lra.
Qed.

Lemma channel_nonzero : forall c, normal_channel c <> 0.
Proof.
  intros c E. rewrite channel_odd in E. assert (H : IZR (2 * Z.of_N c - 255) = 0) by lra.
  apply eq_IZR in H. lia.
Qed.

(* the normal read from a map, in terms of the tangents of the hit *)
Lemma normal_read : forall r g b h k,
  unit (hp_n h) -> unit (hp_u h) -> unit (hp_v h) -> tangent h -> rdot (hp_u h) (hp_v h) = 0 ->
  k * k = 1 -> rcross (hp_u h) (hp_v h) = rscale k (hp_n h) ->
  exists q, 0 < q /\ let n := sh_n (fst (normal_bump r g b h)) in unit n /\
    n = rscale q (radd (radd (rscale (normal_channel r) (hp_u h)) (rscale (- normal_channel g) (hp_v h)))
                       (rscale (normal_channel b * k) (hp_n h))).
Proof.
  intros r g b h k N U V [NU NV] UV KK E1. unfold normal_bump. cbn [fst sh_n].
  destruct (handed _ _ _ U V N UV NU NV) as (k' & KK' & E1' & E2 & E3).
  assert (k' = k).
  { assert (Z : rdot (rscale k (hp_n h)) (hp_n h) = rdot (rscale k' (hp_n h)) (hp_n h)) by (rewrite <- E1, <- E1'; reflexivity).
    rewrite !rdot_scale_l, N in Z. lra. }
  subst k'. rewrite E1.
  assert (UK : unit (rscale k (hp_n h))).
  { unfold unit in *. transitivity (k * k * rdot (hp_n h) (hp_n h)); [unfold rdot; cbn; ring | rewrite KK, N; ring]. }
  rewrite (normalize_unit _ UK).
  assert (T : rcross (hp_u h) (rscale k (hp_n h)) = rneg (hp_v h)).
  { transitivity (rscale k (rcross (hp_u h) (hp_n h))); [apply rv_eq; cbn; ring |].
    rewrite E2. transitivity (rscale (- (k * k)) (hp_v h)); [apply rv_eq; cbn; ring | rewrite KK; apply rv_eq; cbn; ring]. }
  rewrite T.
  assert (UT : unit (rneg (hp_v h))) by (unfold unit in *; rewrite <- V; unfold rdot; cbn; ring).
  rewrite (normalize_unit _ UT).
  unfold to_world. cbn [sh_s sh_t sh_n rx ry rz].
  set (x := normal_channel r). set (y := normal_channel g). set (z := normal_channel b).
  set (u := hp_u h) in *. set (v := hp_v h) in *. set (n0 := hp_n h) in *.
  set (W := radd (radd (rscale x u) (rscale y (rneg v))) (rscale z (rscale k n0))).
  assert (LW : rdot W W = rdot (RV x y z) (RV x y z)).
  { transitivity (x * x * rdot u u + y * y * rdot v v + z * z * (k * k) * rdot n0 n0 - 2 * x * y * rdot u v
      + 2 * x * z * k * rdot n0 u - 2 * y * z * k * rdot n0 v).
    - unfold W, rdot. cbn. ring.
    - rewrite U, V, N, UV, NU, NV, KK. unfold rdot. cbn. ring. }
  destruct (channels_length r g b) as [NZ FAR]. fold x y z in NZ, FAR. rewrite <- LW in NZ, FAR.
  destruct (normalize_length W NZ) as ((q & PQ & EQ) & _ & UW). specialize (UW FAR).
  exists q. split; [exact PQ |]. rewrite (normalize_unit _ UW). split; [exact UW |].
  rewrite EQ. unfold W. apply rv_eq; cbn; ring.
Qed.

(* A normal map gives a normal of length one on the side of the surface's own, in a
   right-angled frame. *)
Theorem normal_map_frame : forall r g b h,
  unit (hp_n h) -> unit (hp_u h) -> unit (hp_v h) -> tangent h -> rdot (hp_u h) (hp_v h) = 0 ->
  let '(m, n) := normal_bump r g b h in
  unit n /\ 0 < rdot n (hp_n h) /\ square_frame m /\ (n = sh_n m \/ n = rneg (sh_n m)).
Proof.
  intros r g b h N U V T UV. destruct T as [NU NV].
  destruct (handed _ _ _ U V N UV NU NV) as (k & KK & E1 & E2 & E3).
  destruct (normal_read r g b h k N U V (conj NU NV) UV KK E1) as (q & PQ & UN & EN).
  unfold normal_bump in *. cbn [fst sh_n] in UN, EN.
  match type of UN with unit ?a => set (n := a) in * end. clearbody n.
  assert (DN : forall w, rdot n w = q * (normal_channel r * rdot (hp_u h) w - normal_channel g * rdot (hp_v h) w + normal_channel b * k * rdot (hp_n h) w))
    by (intro w; rewrite EN; unfold rdot; cbn; ring).
  assert (DU : rdot n (hp_u h) = q * normal_channel r) by (rewrite DN, U, NU, (rdot_comm (hp_v h)), UV; ring).
  assert (DV : rdot n (hp_v h) = - (q * normal_channel g)) by (rewrite DN, V, NV, UV; ring).
  assert (DZ : rdot n (hp_n h) = q * (normal_channel b * k)) by (rewrite DN, N, (rdot_comm (hp_u h)), (rdot_comm (hp_v h)), NU, NV; ring).
  set (w := rsub (hp_u h) (rscale (rdot n (hp_u h)) n)).
  assert (NW : rdot n w = 0).
  { transitivity (rdot n (hp_u h) * (1 - rdot n n)); [unfold w, rdot; cbn; ring | rewrite UN; ring]. }
  pose proof (channel_nonzero r) as ZR. pose proof (channel_nonzero g) as ZG. pose proof (channel_nonzero b) as ZB.
  assert (WW : rdot w w <> 0).
  { intro Z. apply rdot_zero in Z.
    assert (Y : rdot w (hp_v h) = rdot (hp_u h) (hp_v h) - rdot n (hp_u h) * rdot n (hp_v h)) by (unfold w, rdot; cbn; ring).
    rewrite Z, UV, DU, DV in Y. unfold rdot in Y. cbn in Y.
    assert (X : q * normal_channel r * (q * normal_channel g) = 0) by lra.
    apply Rmult_integral in X. destruct X as [X | X]; apply Rmult_integral in X; destruct X; lra. }
  assert (LN : Rabs (rdot n n - 1) < / 100000).
  { replace (rdot n n - 1) with 0 by (rewrite UN; ring). rewrite Rabs_R0. lra. }
  destruct (frame_from n w LN NW WW) as (F1 & F2 & F3 & F4 & F5).
  set (s := rnormalize w) in *. set (t := rnormalize (rcross n s)) in *.
  assert (Q : square_frame (mk_shading s t n)).
  { unfold square_frame. cbn [sh_s sh_t sh_n]. repeat apply conj; assumption. }
  assert (KZ : k <> 0) by nra.
  assert (DNZ : rdot n (hp_n h) <> 0).
  { rewrite DZ. apply Rmult_integral_contrapositive. split; [lra |]. apply Rmult_integral_contrapositive. split; assumption. }
  destruct (Rlt_dec (rdot n (hp_n h)) 0) as [L | L]; cbn [sh_n]; (split; [| split; [| split]]).
  - unfold unit in *. rewrite <- UN. unfold rdot. cbn. ring.
  - replace (rdot (rneg n) (hp_n h)) with (- rdot n (hp_n h)) by (unfold rdot; cbn; ring). lra.
  - exact Q.
  - right. reflexivity.
  - exact UN.
  - lra.
  - exact Q.
  - left. reflexivity.
Qed.
Print Assumptions normal_map_frame.

(* On a surface whose texture coordinates run the other way round (u x v against the normal),
   any texel facing out of the map gives a frame upside down with respect to the normal that
   comes with it: the frame's vertical points into the surface. *)
Theorem normal_map_mirrored_refuted : forall r g b h,
  unit (hp_n h) -> unit (hp_u h) -> unit (hp_v h) -> tangent h -> rdot (hp_u h) (hp_v h) = 0 ->
  rcross (hp_u h) (hp_v h) = rneg (hp_n h) -> (128 <= b)%N ->
  let '(m, n) := normal_bump r g b h in
  sh_n m = rneg n /\ rdot (sh_n m) (hp_n h) < 0.
Proof.
  intros r g b h N U V T UV E1 B.
  assert (E1' : rcross (hp_u h) (hp_v h) = rscale (-1) (hp_n h)) by (rewrite E1; apply rv_eq; cbn; ring).
  destruct (normal_read r g b h (-1) N U V T UV ltac:(lra) E1') as (q & PQ & UN & EN). destruct T as [NU NV].
  unfold normal_bump in *. cbn [fst sh_n] in *.
  match type of UN with unit ?a => set (n := a) in * end. clearbody n.
  assert (DZ : rdot n (hp_n h) = - (q * normal_channel b)).
  { rewrite EN. transitivity (q * (normal_channel r * rdot (hp_n h) (hp_u h) - normal_channel g * rdot (hp_n h) (hp_v h) - normal_channel b * rdot (hp_n h) (hp_n h))).
    - unfold rdot. cbn. ring.
    - rewrite NU, NV, N. ring. }
  assert (PB : 0 < normal_channel b).
  { rewrite channel_odd. assert (Z : (1 <= 2 * Z.of_N b - 255)%Z) by lia. apply IZR_le in Z. lra. }
  assert (Neg : rdot n (hp_n h) < 0) by (rewrite DZ; nra).
  destruct (Rlt_dec (rdot n (hp_n h)) 0) as [L | L]; [| contradiction].
  split; [apply rv_eq; cbn; ring | exact Neg].
Qed.
Print Assumptions normal_map_mirrored_refuted.

(* With the texture coordinates the right way round the frame's vertical is the normal. *)
Theorem normal_map_upright : forall r g b h,
  unit (hp_n h) -> unit (hp_u h) -> unit (hp_v h) -> tangent h -> rdot (hp_u h) (hp_v h) = 0 ->
  rcross (hp_u h) (hp_v h) = hp_n h -> (128 <= b)%N ->
  let '(m, n) := normal_bump r g b h in
  sh_n m = n /\ exists q, 0 < q /\
    n = rscale q (radd (radd (rscale (normal_channel r) (hp_u h)) (rscale (- normal_channel g) (hp_v h)))
                       (rscale (normal_channel b) (hp_n h))).
Proof.
  intros r g b h N U V T UV E1 B.
  assert (E1' : rcross (hp_u h) (hp_v h) = rscale 1 (hp_n h)) by (rewrite E1; apply rv_eq; cbn; ring).
  destruct (normal_read r g b h 1 N U V T UV ltac:(lra) E1') as (q & PQ & UN & EN). destruct T as [NU NV].
  unfold normal_bump in *. cbn [fst sh_n] in *.
  match type of UN with unit ?a => set (n := a) in * end. clearbody n.
  rewrite Rmult_1_r in EN.
  assert (DZ : rdot n (hp_n h) = q * normal_channel b).
  { rewrite EN. transitivity (q * (normal_channel r * rdot (hp_n h) (hp_u h) - normal_channel g * rdot (hp_n h) (hp_v h) + normal_channel b * rdot (hp_n h) (hp_n h))).
    - unfold rdot. cbn. ring.
    - rewrite NU, NV, N. ring. }
  assert (PB : 0 < normal_channel b).
  { rewrite channel_odd. assert (Z : (1 <= 2 * Z.of_N b - 255)%Z) by lia. apply IZR_le in Z. lra. }
  destruct (Rlt_dec (rdot n (hp_n h)) 0) as [L | L].
  { exfalso. rewrite DZ in L. pose proof (Rmult_lt_0_compat _ _ PQ PB). lra. }
  split; [reflexivity |]. exists q. split; assumption.
Qed.
Print Assumptions normal_map_upright.

(* a hit on the floor and two neighbouring rays *)
Definition floor_hit : hitp := mk_hitp (RV 2 3 0) (RV 0 0 1) (RV 1 0 0) (RV 0 1 0).
Definition down_ray (x y : R) : dray := mk_dray (RV x y 5) (RV 0 0 (-1)).

Ltac hit_ex := unfold unit, tangent, rdot, rcross, rneg, floor_hit, down_ray; cbn; try split; try lra; try (apply rv_eq; cbn; lra).

Example differentials_reach_ex :
  tangent floor_hit /\ rdot (hp_n floor_hit) (dr_d (down_ray 3 3)) <> 0 /\
  exists d, calculate_differentials floor_hit (down_ray 3 3) (down_ray 2 7) = Some d /\ d = ((1, 0), (0, 4)).
Proof.
  split; [hit_ex |]. split; [hit_ex |].
  unfold calculate_differentials, solving_axes, floor_hit, down_ray. cbn [hp_n rx ry rz].
  rewrite !Rabs_R0, Rabs_R1.
  destruct (Rlt_dec 0 0) as [L | _]; [exfalso; lra |]. destruct (Rlt_dec 1 0) as [L | _]; [exfalso; lra |].
  cbn [component hp_u hp_v rx ry rz].
  replace (1 * 1 - 0 * 0) with 1 by ring. rewrite Rabs_R1.
  destruct (Rlt_dec (/ 100000) 1) as [_ | L]; [| exfalso; lra].
  eexists. split; [reflexivity |]. unfold plane_point, rdot, radd, rscale. cbn.
  apply f_equal2; apply f_equal2; field.
Qed.

Example differentials_length_refuted_ex :
  let A := RV 4 0 0 in let surface := mk_hitp (RV 2 3 0) (RV 0 0 1) A (RV 0 4 0) in
  unit (RV 0 0 1) /\ rdot (RV 0 0 1) A = 0 /\ A <> RV 0 0 0 /\ / 100000 <= Rabs (rdot A A - 1) /\
  reaches (down_ray 3 3) surface (moved surface (1 / 4) 0).
Proof.
  cbv zeta. split; [hit_ex |]. split; [hit_ex |]. split; [intro E; injection E; lra |]. split.
  - unfold rdot. cbn. rewrite Rabs_pos_eq; lra.
  - split; [unfold rdot; cbn; lra |]. exists 5. apply rv_eq; cbn; lra.
Qed.

Example height_tilt_ex : unit (hp_n floor_hit) /\ unit (hp_u floor_hit) /\ unit (hp_v floor_hit) /\
  tangent floor_hit /\ rdot (hp_u floor_hit) (hp_v floor_hit) = 0 /\
  rcross (hp_u floor_hit) (hp_v floor_hit) = hp_n floor_hit.
Proof. unfold tangent. repeat apply conj; hit_ex. Qed.

Example normal_map_mirrored_refuted_ex :
  let h := mk_hitp (RV 2 3 0) (RV 0 0 (-1)) (RV 1 0 0) (RV 0 1 0) in
  unit (hp_n h) /\ tangent h /\ rcross (hp_u h) (hp_v h) = rneg (hp_n h).
Proof. cbv zeta. unfold tangent. repeat apply conj; hit_ex. Qed.

(* C304.  The gradient of a height map is a difference over steps that are never zero: half the sum of
   the derivatives of the coordinate, or 1/100 without derivatives. *)
Theorem height_steps : forall height dux duy dvx dvy,
  exists eu ev, 0 < eu /\ 0 < ev /\
  (dux <> 0 \/ duy <> 0 -> eu = (Rabs dux + Rabs duy) / 2) /\ (dvx <> 0 \/ dvy <> 0 -> ev = (Rabs dvx + Rabs dvy) / 2) /\
  (dux = 0 -> duy = 0 -> eu = / 100) /\ (dvx = 0 -> dvy = 0 -> ev = / 100) /\
  let '(gu, gv) := height_gradient height (dux, duy) (dvx, dvy) in
  255 * eu * gu = INR (N.to_nat (height eu 0)) - INR (N.to_nat (height 0 0)) /\
  255 * ev * gv = INR (N.to_nat (height 0 ev)) - INR (N.to_nat (height 0 0)).
Proof.
  assert (S : forall a b, 0 < height_step (a, b) /\ (a <> 0 \/ b <> 0 -> height_step (a, b) = (Rabs a + Rabs b) / 2) /\
    (a = 0 -> b = 0 -> height_step (a, b) = / 100)).
  { intros a b; unfold height_step; cbn [fst snd]; pose proof (Rabs_pos a); pose proof (Rabs_pos b).
    destruct (Req_EM_T (1 / 2 * (Rabs a + Rabs b)) 0) as [Z | Z].
    - split; [lra |]; split; [| reflexivity]; intros [N | N]; apply Rabs_pos_lt in N; lra.
    - split; [lra |]; split; [intros _; field |]; intros -> ->; rewrite Rabs_R0 in Z; lra. }
  intros height dux duy dvx dvy; destruct (S dux duy) as (PU & U1 & U2); destruct (S dvx dvy) as (PV & V1 & V2).
  exists (height_step (dux, duy)), (height_step (dvx, dvy)); repeat split; try assumption; unfold height_gradient;
    set (eu := height_step (dux, duy)) in *; set (ev := height_step (dvx, dvy)) in *; field; lra.
Qed.
Print Assumptions height_steps.
Example height_steps_ex : height_gradient (fun a _ => if Rlt_dec a (/ 200) then 0%N else 51%N) (0, 0) (0, 0) = (20, 0).
Proof.
  unfold height_gradient, height_step; cbn [fst snd]; rewrite Rabs_R0; destruct (Req_EM_T (1 / 2 * (0 + 0)) 0); [| lra].
  destruct (Rlt_dec (/ 100) (/ 200)); [lra |]; destruct (Rlt_dec 0 (/ 200)); [| lra].
  change (N.to_nat 51) with 51%nat; change (N.to_nat 0) with 0%nat; rewrite INR_IZR_INZ; cbn; apply f_equal2; field.
Qed.
