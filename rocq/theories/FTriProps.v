(* Triangles in single precision: errors of the products that their intersection is made of. *)
From Coq Require Import ZArith Reals List Lra Lia Bool.
From Flocq Require Import Core.Core IEEE754.BinarySingleNaN.
From Flocq Require Import Relative.
From Flocq Require Plus_error.
From Verif Require Import Common FltModel FltFacts FltProps FExtFacts FRayModel FRayFacts FSphereProps FBoxMarginProps FMatModel FMatProps FMatBoundProps FFilmProps FQuadProps FQuadRootProps FSphereHitProps RVecModel.
Import ListNotations.
Local Open Scope R_scope.

(* ----- specification ----- *)

Definition exact (v : fvec) : rv := RV (val (fx v)) (val (fy v)) (val (fz v)).
(* the sum of the absolute values of the components *)
Definition n1 (v : rv) : R := Rabs (rx v) + Rabs (ry v) + Rabs (rz v).

(* ----- real arithmetic ----- *)

Lemma n1_pos : forall v, 0 <= n1 v.
Proof. intro v. unfold n1. pose proof (Rabs_pos (rx v)). pose proof (Rabs_pos (ry v)). pose proof (Rabs_pos (rz v)). lra. Qed.

Lemma n1_coord : forall v, Rabs (rx v) <= n1 v /\ Rabs (ry v) <= n1 v /\ Rabs (rz v) <= n1 v.
Proof. intro v. unfold n1. pose proof (Rabs_pos (rx v)). pose proof (Rabs_pos (ry v)). pose proof (Rabs_pos (rz v)). lra. Qed.

Lemma n1_add : forall a b, n1 (radd a b) <= n1 a + n1 b.
Proof. intros. unfold n1, radd; cbn. pose proof (Rabs_triang (rx a) (rx b)). pose proof (Rabs_triang (ry a) (ry b)). pose proof (Rabs_triang (rz a) (rz b)). lra. Qed.

Lemma n1_move : forall a b, n1 a <= n1 b + n1 (rsub a b).
Proof.
  intros. unfold n1, rsub; cbn.
  assert (T : forall x y, Rabs x <= Rabs y + Rabs (x - y)) by (intros x y; replace x with (y + (x - y)) at 1 by ring; apply Rabs_triang).
  pose proof (T (rx a) (rx b)). pose proof (T (ry a) (ry b)). pose proof (T (rz a) (rz b)). lra.
Qed.

Lemma nine_products : forall a b c x y z, 0 <= a -> 0 <= b -> 0 <= c -> 0 <= x -> 0 <= y -> 0 <= z ->
  a * x + b * y + c * z <= (a + b + c) * (x + y + z) /\
  (b * z + c * y) + (c * x + a * z) + (a * y + b * x) <= (a + b + c) * (x + y + z).
Proof.
  intros a b c x y z A B C X Y Z.
  assert (0 <= a * x) by (apply Rmult_le_pos; lra). assert (0 <= a * y) by (apply Rmult_le_pos; lra). assert (0 <= a * z) by (apply Rmult_le_pos; lra).
  assert (0 <= b * x) by (apply Rmult_le_pos; lra). assert (0 <= b * y) by (apply Rmult_le_pos; lra). assert (0 <= b * z) by (apply Rmult_le_pos; lra).
  assert (0 <= c * x) by (apply Rmult_le_pos; lra). assert (0 <= c * y) by (apply Rmult_le_pos; lra). assert (0 <= c * z) by (apply Rmult_le_pos; lra).
  lra.
Qed.

Lemma n1_dot : forall a b, Rabs (rdot a b) <= n1 a * n1 b.
Proof.
  intros a b. unfold rdot, n1.
  eapply Rle_trans; [apply Rabs_triang|]. eapply Rle_trans; [apply Rplus_le_compat_r, Rabs_triang|]. rewrite !Rabs_mult.
  apply nine_products; apply Rabs_pos.
Qed.

Lemma n1_cross : forall a b, n1 (rcross a b) <= n1 a * n1 b.
Proof.
  intros a b. unfold n1, rcross; cbn.
  assert (T : forall x y u v, Rabs (x * y - u * v) <= Rabs x * Rabs y + Rabs u * Rabs v).
  { intros. unfold Rminus. eapply Rle_trans; [apply Rabs_triang|]. rewrite Rabs_Ropp, !Rabs_mult. apply Rle_refl. }
  eapply Rle_trans; [apply Rplus_le_compat; [apply Rplus_le_compat|]; apply T|].
  apply nine_products; apply Rabs_pos.
Qed.

Lemma triple_bound : forall a b c, Rabs (rdot (rcross a b) c) <= n1 a * n1 b * n1 c.
Proof.
  intros a b c. eapply Rle_trans; [apply n1_dot|]. apply Rmult_le_compat_r; [apply n1_pos|apply n1_cross].
Qed.

(* vectors that are close relative to each component *)
Definition close (v V : rv) : Prop :=
  Rabs (rx v - rx V) <= u24 * Rabs (rx V) /\ Rabs (ry v - ry V) <= u24 * Rabs (ry V) /\ Rabs (rz v - rz V) <= u24 * Rabs (rz V).

Lemma close_refl : forall v, close v v.
Proof.
  intro v. unfold close. replace (rx v - rx v) with 0 by ring. replace (ry v - ry v) with 0 by ring. replace (rz v - rz v) with 0 by ring. rewrite Rabs_R0.
  assert (0 <= u24) by (unfold u24; lra). repeat split; apply Rmult_le_pos; auto; apply Rabs_pos.
Qed.

Lemma close_n1 : forall v V, close v V -> n1 (rsub v V) <= u24 * n1 V /\ n1 v <= (1 + u24) * n1 V.
Proof.
  intros v V (X & Y & Z). assert (D : n1 (rsub v V) <= u24 * n1 V) by (unfold n1, rsub; cbn; lra).
  split; [exact D|]. pose proof (n1_move v V). lra.
Qed.

Lemma mul_le3 : forall a b c A B C, 0 <= a -> 0 <= b -> 0 <= c -> a <= A -> b <= B -> c <= C -> a * b * c <= A * B * C.
Proof.
  intros a b c A B C PA PB PC HA HB HC.
  apply Rmult_le_compat; try assumption; [apply Rmult_le_pos; assumption|apply Rmult_le_compat; assumption].
Qed.

Lemma triple_perturb : forall x y z X Y Z, close x X -> close y Y -> close z Z ->
  Rabs (rdot (rcross x y) z - rdot (rcross X Y) Z) <= 301 / 100 * u24 * (n1 X * n1 Y * n1 Z).
Proof.
  intros x y z X Y Z CX CY CZ. destruct (close_n1 _ _ CX) as (DX & SX). destruct (close_n1 _ _ CY) as (DY & SY). destruct (close_n1 _ _ CZ) as (DZ & SZ).
  replace (rdot (rcross x y) z - rdot (rcross X Y) Z) with
    (rdot (rcross (rsub x X) y) z + (rdot (rcross X (rsub y Y)) z + rdot (rcross X Y) (rsub z Z))) by (unfold rdot, rcross, rsub; cbn; ring).
  eapply Rle_trans; [apply Rabs_triang|]. eapply Rle_trans; [apply Rplus_le_compat_l, Rabs_triang|].
  pose proof (triple_bound (rsub x X) y z) as B1. pose proof (triple_bound X (rsub y Y) z) as B2. pose proof (triple_bound X Y (rsub z Z)) as B3.
  pose proof (n1_pos X) as PX. pose proof (n1_pos Y) as PY. pose proof (n1_pos Z) as PZ.
  pose proof (mul_le3 _ _ _ _ _ _ (n1_pos (rsub x X)) (n1_pos y) (n1_pos z) DX SY SZ) as M1.
  pose proof (mul_le3 _ _ _ _ _ _ PX (n1_pos (rsub y Y)) (n1_pos z) (Rle_refl _) DY SZ) as M2.
  pose proof (mul_le3 _ _ _ _ _ _ PX PY (n1_pos (rsub z Z)) (Rle_refl _) (Rle_refl _) DZ) as M3.
  assert (P : 0 <= n1 X * n1 Y * n1 Z) by (apply Rmult_le_pos; [apply Rmult_le_pos|]; assumption).
  replace (u24 * n1 X * ((1 + u24) * n1 Y) * ((1 + u24) * n1 Z)) with (u24 * (1 + u24) * (1 + u24) * (n1 X * n1 Y * n1 Z)) in M1 by ring.
  replace (n1 X * (u24 * n1 Y) * ((1 + u24) * n1 Z)) with (u24 * (1 + u24) * (n1 X * n1 Y * n1 Z)) in M2 by ring.
  replace (n1 X * n1 Y * (u24 * n1 Z)) with (u24 * (n1 X * n1 Y * n1 Z)) in M3 by ring.
  set (w := n1 X * n1 Y * n1 Z) in *. clearbody w. unfold u24 in *. lra.
Qed.

(* ----- differences of floats have a relative error ----- *)

Lemma sub_rel : forall x y, fin x -> fin y -> Rabs (val x - val y) <= bpow radix2 127 ->
  fin (fsub x y) /\ Rabs (val (fsub x y) - (val x - val y)) <= u24 * Rabs (val x - val y).
Proof.
  intros x y FX FY B. destruct (fsub_val x y FX FY B) as (F & V). split; [exact F|]. rewrite V.
  assert (U0 : 0 <= u24 * Rabs (val x - val y)) by (apply Rmult_le_pos; [unfold u24; lra|apply Rabs_pos]).
  destruct (Rle_dec (Rabs (val x - val y)) (bpow radix2 (24 + -149))) as [S|L].
  - rewrite rnd_fits; [rewrite Rminus_diag_eq by reflexivity; rewrite Rabs_R0; exact U0|].
    apply (Plus_error.FLT_format_plus_small radix2 (-149) 24 (val x) (- val y)); [apply fits_val|apply generic_format_opp, fits_val|exact S].
  - rewrite <- u24_bpow. replace (bpow radix2 (-24)) with (/ 2 * bpow radix2 (-24 + 1)) by (change (/ 2) with (bpow radix2 (-1)); rewrite <- bpow_plus; reflexivity).
    apply (relative_error_N_FLT radix2 (-149) 24 eq_refl). apply Rnot_le_lt in L.
    eapply Rle_trans with (bpow radix2 (24 + -149)); [apply bpow_le; lia|lra].
Qed.

Lemma vsub_close : forall v w, finite_vec v -> finite_vec w -> n1 (rsub (exact v) (exact w)) <= bpow radix2 127 ->
  finite_vec (fv_sub v w) /\ close (exact (fv_sub v w)) (rsub (exact v) (exact w)).
Proof.
  intros v w (F1 & F2 & F3) (G1 & G2 & G3) B. destruct (n1_coord (rsub (exact v) (exact w))) as (X & Y & Z). unfold rsub, exact in X, Y, Z; cbn in X, Y, Z.
  destruct (sub_rel _ _ F1 G1) as (A1 & E1); [eapply Rle_trans; [exact X|exact B]|].
  destruct (sub_rel _ _ F2 G2) as (A2 & E2); [eapply Rle_trans; [exact Y|exact B]|].
  destruct (sub_rel _ _ F3 G3) as (A3 & E3); [eapply Rle_trans; [exact Z|exact B]|].
  split; [unfold finite_vec, fv_sub; cbn; auto|]. unfold close, exact, rsub, fv_sub; cbn. auto.
Qed.

(* ----- cross products ----- *)

Lemma diff_prod : forall a b c d, fin a -> fin b -> fin c -> fin d -> Rabs (val a * val b) <= bpow radix2 60 -> Rabs (val c * val d) <= bpow radix2 60 ->
  let p := fsub (fmul a b) (fmul c d) in
  fin p /\ Rabs (val p - (val a * val b - val c * val d)) <= 201 / 100 * u24 * (Rabs (val a * val b) + Rabs (val c * val d)) + 4 * h150.
Proof.
  intros a b c d FA FB FC FD B1 B2 p.
  destruct (fmul_val a b FA FB) as (M1 & V1); [apply (small_127 _ 60); [lia|exact B1]|].
  destruct (fmul_val c d FC FD) as (M2 & V2); [apply (small_127 _ 60); [lia|exact B2]|].
  assert (R1 : Rabs (val (fmul a b)) <= bpow radix2 60) by (rewrite V1; apply rnd_abs; [lia|exact B1]).
  assert (R2 : Rabs (val (fmul c d)) <= bpow radix2 60) by (rewrite V2; apply rnd_abs; [lia|exact B2]).
  assert (S : Rabs (val (fmul a b) - val (fmul c d)) <= bpow radix2 61).
  { unfold Rminus. apply (sum_bound _ _ 60); [exact R1|rewrite Rabs_Ropp; exact R2]. }
  destruct (fsub_val _ _ M1 M2) as (F & V); [apply (small_127 _ 61); [lia|exact S]|].
  split; [exact F|]. unfold p. rewrite V.
  pose proof (rerr (val a * val b)) as E1. rewrite <- V1 in E1. pose proof (rerr (val c * val d)) as E2. rewrite <- V2 in E2.
  pose proof (rerr (val (fmul a b) - val (fmul c d))) as E3. assert (H : 0 < h150) by apply bpow_gt_0.
  set (x := val a * val b) in *. set (y := val c * val d) in *. set (x' := val (fmul a b)) in *. set (y' := val (fmul c d)) in *.
  assert (T : Rabs (x' - y') <= Rabs x + Rabs y + Rabs (x' - x) + Rabs (y' - y)).
  { replace (x' - y') with ((x' - x) + (x + (- y + - (y' - y)))) by ring.
    eapply Rle_trans; [apply Rabs_triang|]. pose proof (Rabs_triang x (- y + - (y' - y))) as T1. pose proof (Rabs_triang (- y) (- (y' - y))) as T2. rewrite !Rabs_Ropp in T2. lra. }
  assert (T2 : Rabs (rnd (x' - y') - (x - y)) <= Rabs (rnd (x' - y') - (x' - y')) + Rabs (x' - x) + Rabs (y' - y)).
  { replace (rnd (x' - y') - (x - y)) with ((rnd (x' - y') - (x' - y')) + ((x' - x) + - (y' - y))) by ring.
    eapply Rle_trans; [apply Rabs_triang|]. pose proof (Rabs_triang (x' - x) (- (y' - y))) as T3. rewrite Rabs_Ropp in T3. lra. }
  pose proof (Rabs_pos x). pose proof (Rabs_pos y).
  set (g := Rabs (rnd (x' - y') - (x - y))) in *. set (g1 := Rabs (rnd (x' - y') - (x' - y'))) in *. set (g2 := Rabs (x' - y')) in *.
  set (g3 := Rabs (x' - x)) in *. set (g4 := Rabs (y' - y)) in *. set (g5 := Rabs x) in *. set (g6 := Rabs y) in *.
  clearbody g g1 g2 g3 g4 g5 g6. unfold u24 in *. clear - E1 E2 E3 T T2 H H0 H1. lra.
Qed.

Lemma cross_error : forall v w, finite_vec v -> finite_vec w -> n1 (exact v) * n1 (exact w) <= bpow radix2 60 ->
  finite_vec (fv_cross v w) /\
  n1 (rsub (exact (fv_cross v w)) (rcross (exact v) (exact w))) <= 201 / 100 * u24 * (n1 (exact v) * n1 (exact w)) + 12 * h150.
Proof.
  intros v w (F1 & F2 & F3) (G1 & G2 & G3) B.
  destruct (n1_coord (exact v)) as (X1 & Y1 & Z1). destruct (n1_coord (exact w)) as (X2 & Y2 & Z2). unfold exact in X1, Y1, Z1, X2, Y2, Z2; cbn in X1, Y1, Z1, X2, Y2, Z2.
  assert (P : forall x y, Rabs x <= n1 (exact v) -> Rabs y <= n1 (exact w) -> Rabs (x * y) <= bpow radix2 60).
  { intros x y X Y. rewrite Rabs_mult. eapply Rle_trans; [|exact B]. apply Rmult_le_compat; try apply Rabs_pos; assumption. }
  destruct (diff_prod _ _ _ _ F2 G3 F3 G2 (P _ _ Y1 Z2) (P _ _ Z1 Y2)) as (A1 & E1).
  destruct (diff_prod _ _ _ _ F3 G1 F1 G3 (P _ _ Z1 X2) (P _ _ X1 Z2)) as (A2 & E2).
  destruct (diff_prod _ _ _ _ F1 G2 F2 G1 (P _ _ X1 Y2) (P _ _ Y1 X2)) as (A3 & E3).
  split; [unfold finite_vec, fv_cross; cbn; auto|].
  unfold n1, rsub, exact, rcross, fv_cross; cbn [fx fy fz rx ry rz].
  destruct (nine_products (Rabs (val (fx v))) (Rabs (val (fy v))) (Rabs (val (fz v))) (Rabs (val (fx w))) (Rabs (val (fy w))) (Rabs (val (fz w)))) as (_ & N); try apply Rabs_pos.
  rewrite !Rabs_mult in E1, E2, E3.
  apply (Rmult_le_compat_l (201 / 100 * u24)) in N; [|unfold u24; lra]. cbv zeta in E1, E2, E3. lra.
Qed.

Lemma span_n1 : forall v w, span v w <= n1 (exact v) * n1 (exact w).
Proof. intros. unfold span, n1, exact; cbn. rewrite !Rabs_mult. apply nine_products; apply Rabs_pos. Qed.

Lemma inner_dot : forall v w, inner v w = rdot (exact v) (exact w).
Proof. reflexivity. Qed.

Lemma span_comm : forall v w, span v w = span w v.
Proof. intros. unfold span. rewrite (Rmult_comm (val (fx v))), (Rmult_comm (val (fy v))), (Rmult_comm (val (fz v))). reflexivity. Qed.

(* ----- triple products ----- *)

Lemma h_small : forall k, 0 <= k <= bpow radix2 20 -> (12 * k + 8 + 12 * k) * h150 <= bpow radix2 (-120).
Proof.
  intros k K. assert (K2 : 12 * k + 8 + 12 * k <= bpow radix2 30).
  { replace (bpow radix2 30) with (1024 * bpow radix2 20) by (change 1024 with (bpow radix2 10); rewrite <- bpow_plus; reflexivity).
    assert (1 <= bpow radix2 20) by (change 1 with (bpow radix2 0); apply bpow_le; lia). lra. }
  unfold h150. replace (bpow radix2 (-120)) with (bpow radix2 30 * bpow radix2 (-150)) by (rewrite <- bpow_plus; reflexivity).
  apply Rmult_le_compat_r; [apply bpow_ge_0|exact K2].
Qed.

Lemma triple_float : forall x y z, finite_vec x -> finite_vec y -> finite_vec z ->
  n1 (exact x) <= bpow radix2 19 -> n1 (exact y) <= bpow radix2 19 -> n1 (exact z) <= bpow radix2 19 ->
  let p := fv_dot (fv_cross x y) z in let p' := fv_dot z (fv_cross x y) in
  let e := 52 / 10 * u24 * (n1 (exact x) * n1 (exact y) * n1 (exact z)) + bpow radix2 (-120) in
  fin p /\ fin p' /\ Rabs (val p - rdot (rcross (exact x) (exact y)) (exact z)) <= e /\ Rabs (val p' - rdot (rcross (exact x) (exact y)) (exact z)) <= e.
Proof.
  intros x y z FX FY FZ BX BY BZ p p' e.
  pose proof (n1_pos (exact x)) as PX. pose proof (n1_pos (exact y)) as PY. pose proof (n1_pos (exact z)) as PZ.
  assert (BXY : n1 (exact x) * n1 (exact y) <= bpow radix2 38).
  { replace (bpow radix2 38) with (bpow radix2 19 * bpow radix2 19) by (rewrite <- bpow_plus; reflexivity). apply Rmult_le_compat; assumption. }
  destruct (cross_error x y FX FY) as (FC & EC); [eapply Rle_trans; [exact BXY|apply bpow_le; lia]|].
  set (q := fv_cross x y) in *. clearbody q.
  pose proof (n1_move (exact q) (rcross (exact x) (exact y))) as NM. pose proof (n1_cross (exact x) (exact y)) as NC.
  assert (PXY : 0 <= n1 (exact x) * n1 (exact y)) by (apply Rmult_le_pos; assumption).
  assert (H : 0 < h150) by apply bpow_gt_0.
  assert (NQ : n1 (exact q) <= 10001 / 10000 * (n1 (exact x) * n1 (exact y)) + 12 * h150) by (unfold u24 in EC; lra).
  assert (H1 : 12 * h150 <= 1).
  { pose proof (h_small 0) as HS. assert (bpow radix2 (-120) <= / 8) by (change (/ 8) with (bpow radix2 (-3)); apply bpow_le; lia).
    assert (0 <= bpow radix2 20) by apply bpow_ge_0. assert (h150 <= / 16); [|lra]. change (/ 16) with (bpow radix2 (-4)). unfold h150. apply bpow_le; lia. }
  assert (BQZ : n1 (exact q) * n1 (exact z) <= bpow radix2 60).
  { replace (bpow radix2 60) with (bpow radix2 41 * bpow radix2 19) by (rewrite <- bpow_plus; reflexivity). apply Rmult_le_compat; try apply n1_pos; try assumption.
    assert (E41 : bpow radix2 41 = 8 * bpow radix2 38) by (change 8 with (bpow radix2 3); rewrite <- bpow_plus; reflexivity).
    assert (1 <= bpow radix2 38) by (change 1 with (bpow radix2 0); apply bpow_le; lia). lra. }
  assert (SP : span q z <= bpow radix2 60) by (eapply Rle_trans; [apply span_n1|exact BQZ]).
  destruct (dot_error q z FC FZ SP) as (F1 & _ & E1). rewrite span_comm in SP. destruct (dot_error z q FZ FC SP) as (F2 & _ & E2).
  rewrite inner_dot in E1, E2.
  assert (SN : span q z <= n1 (exact q) * n1 (exact z)) by apply span_n1.
  rewrite (span_comm z q) in E2.
  assert (DQ : Rabs (rdot (exact q) (exact z) - rdot (rcross (exact x) (exact y)) (exact z)) <= (201 / 100 * u24 * (n1 (exact x) * n1 (exact y)) + 12 * h150) * n1 (exact z)).
  { replace (rdot (exact q) (exact z) - rdot (rcross (exact x) (exact y)) (exact z)) with (rdot (rsub (exact q) (rcross (exact x) (exact y))) (exact z)) by (unfold rdot, rsub; cbn; ring).
    eapply Rle_trans; [apply n1_dot|]. apply Rmult_le_compat_r; assumption. }
  assert (NQZ : n1 (exact q) * n1 (exact z) <= (10001 / 10000 * (n1 (exact x) * n1 (exact y)) + 12 * h150) * n1 (exact z)) by (apply Rmult_le_compat_r; assumption).
  assert (KZ : (12 * n1 (exact z) + 8 + 12 * n1 (exact z)) * h150 <= bpow radix2 (-120)).
  { apply h_small. split; [exact PZ|]. eapply Rle_trans; [exact BZ|apply bpow_le; lia]. }
  assert (HZ : 0 <= h150 * n1 (exact z)) by (apply Rmult_le_pos; lra).
  assert (W : 0 <= n1 (exact x) * n1 (exact y) * n1 (exact z)) by (apply Rmult_le_pos; assumption).
  assert (DC : rdot (exact z) (exact q) = rdot (exact q) (exact z)) by (unfold rdot; ring). rewrite DC in E2.
  assert (K : forall g, Rabs (g - rdot (exact q) (exact z)) <= 31 / 10 * u24 * span q z + 8 * h150 -> Rabs (g - rdot (rcross (exact x) (exact y)) (exact z)) <= e).
  { intros g G. replace (g - rdot (rcross (exact x) (exact y)) (exact z)) with ((g - rdot (exact q) (exact z)) + (rdot (exact q) (exact z) - rdot (rcross (exact x) (exact y)) (exact z))) by ring.
    eapply Rle_trans; [apply Rabs_triang|]. unfold e. unfold u24 in *.
    set (w := n1 (exact x) * n1 (exact y) * n1 (exact z)) in *.
    replace ((10001 / 10000 * (n1 (exact x) * n1 (exact y)) + 12 * h150) * n1 (exact z)) with (10001 / 10000 * w + 12 * (h150 * n1 (exact z))) in NQZ by (unfold w; ring).
    replace ((201 / 100 * / 16777216 * (n1 (exact x) * n1 (exact y)) + 12 * h150) * n1 (exact z)) with (201 / 100 * / 16777216 * w + 12 * (h150 * n1 (exact z))) in DQ by (unfold w; ring).
    replace ((12 * n1 (exact z) + 8 + 12 * n1 (exact z)) * h150) with (24 * (h150 * n1 (exact z)) + 8 * h150) in KZ by ring.
    set (m := h150 * n1 (exact z)) in *. clearbody w m. clear - G DQ SN NQZ KZ HZ W H. lra. }
  split; [exact F1|]. split; [exact F2|]. split; apply K; assumption.
Qed.

(* vectors that are rounded first *)
Lemma triple_close : forall x y z X Y Z, finite_vec x -> finite_vec y -> finite_vec z -> close (exact x) X -> close (exact y) Y -> close (exact z) Z ->
  n1 X <= bpow radix2 18 -> n1 Y <= bpow radix2 18 -> n1 Z <= bpow radix2 18 ->
  let p := fv_dot (fv_cross x y) z in let p' := fv_dot z (fv_cross x y) in
  let e := 83 / 10 * u24 * (n1 X * n1 Y * n1 Z) + bpow radix2 (-120) in
  fin p /\ fin p' /\ Rabs (val p - rdot (rcross X Y) Z) <= e /\ Rabs (val p' - rdot (rcross X Y) Z) <= e.
Proof.
  intros x y z X Y Z FX FY FZ CX CY CZ BX BY BZ p p' e.
  destruct (close_n1 _ _ CX) as (_ & SX). destruct (close_n1 _ _ CY) as (_ & SY). destruct (close_n1 _ _ CZ) as (_ & SZ).
  pose proof (n1_pos X) as PX. pose proof (n1_pos Y) as PY. pose proof (n1_pos Z) as PZ.
  assert (K : forall v V, 0 <= n1 V -> n1 V <= bpow radix2 18 -> n1 v <= (1 + u24) * n1 V -> n1 v <= bpow radix2 19).
  { intros v V P B S. change (bpow radix2 19) with (bpow radix2 (18 + 1)). rewrite (double_bpow 18). unfold u24 in S. lra. }
  destruct (triple_float x y z FX FY FZ (K _ _ PX BX SX) (K _ _ PY BY SY) (K _ _ PZ BZ SZ)) as (F1 & F2 & E1 & E2). clear K.
  pose proof (triple_perturb _ _ _ _ _ _ CX CY CZ) as TP.
  pose proof (mul_le3 _ _ _ _ _ _ (n1_pos (exact x)) (n1_pos (exact y)) (n1_pos (exact z)) SX SY SZ) as M.
  replace ((1 + u24) * n1 X * ((1 + u24) * n1 Y) * ((1 + u24) * n1 Z)) with ((1 + u24) * (1 + u24) * (1 + u24) * (n1 X * n1 Y * n1 Z)) in M by ring.
  assert (W : 0 <= n1 X * n1 Y * n1 Z) by (apply Rmult_le_pos; [apply Rmult_le_pos|]; assumption).
  fold p in E1, F1. fold p' in E2, F2.
  assert (G : forall g, Rabs (g - rdot (rcross (exact x) (exact y)) (exact z)) <= 52 / 10 * u24 * (n1 (exact x) * n1 (exact y) * n1 (exact z)) + bpow radix2 (-120) ->
    Rabs (g - rdot (rcross X Y) Z) <= e).
  { intros g E. replace (g - rdot (rcross X Y) Z) with ((g - rdot (rcross (exact x) (exact y)) (exact z)) + (rdot (rcross (exact x) (exact y)) (exact z) - rdot (rcross X Y) Z)) by ring.
    eapply Rle_trans; [apply Rabs_triang|]. unfold e, u24 in *.
    set (w := n1 X * n1 Y * n1 Z) in *. set (w' := n1 (exact x) * n1 (exact y) * n1 (exact z)) in *. clearbody w w'. clear - E TP M W. lra. }
  split; [exact F1|]. split; [exact F2|]. split; apply G; assumption.
Qed.
