(* Quadratic equations in single precision: when solutions are found, and how well they solve the equation. *)
From Coq Require Import ZArith Reals List Lra Lia Psatz.
From Flocq Require Import Core.Core IEEE754.BinarySingleNaN.
From Flocq Require Mult_error.
From Verif Require Import Common FltModel FltFacts FltProps FExtFacts FRayModel FRayFacts FSphereProps FBoxMarginProps FMatModel FMatProps FMatBoundProps FFilmProps.
Import ListNotations.
Local Open Scope R_scope.

(* ----- exact algebra ----- *)

Lemma delta_lin : forall B C b2 m d h, 0 <= B -> 0 < h -> Rabs (b2 - B) <= u24 * Rabs B + h -> Rabs (m - C) <= u24 * Rabs C + h ->
  Rabs (d - (b2 - m)) <= u24 * Rabs (b2 - m) + h ->
  Rabs (d - (B - C)) <= 21 / 10 * u24 * (B + Rabs C) + 4 * h.
Proof.
  intros B C b2 m d h HB HH E1 E2 E3. rewrite (Rabs_pos_eq B HB) in E1. apply abs_both in E1, E2. unfold u24 in *.
  assert (P : - Rabs C <= C <= Rabs C) by (apply abs_both, Rle_refl). pose proof (Rabs_pos C) as PC.
  set (c := Rabs C) in *. clearbody c.
  assert (T : Rabs (b2 - m) <= B + c + / 16777216 * (B + c) + 2 * h) by (apply Rabs_le; lra).
  set (t := Rabs (b2 - m)) in *. clearbody t. apply abs_both in E3. apply Rabs_le. lra.
Qed.

Lemma prod_bound : forall x y t, 0 <= t -> Rabs y <= t -> Rabs (x * y) <= Rabs x * t.
Proof. intros x y t T Y. rewrite Rabs_mult. apply Rmult_le_compat_l; [apply Rabs_pos|exact Y]. Qed.

Lemma am_gm : forall b q, Rabs (b * q) <= (b * b + q * q) / 2.
Proof. intros b q. pose proof (Rle_0_sqr (b - q)). pose proof (Rle_0_sqr (b + q)). unfold Rsqr in *. apply Rabs_le. lra. Qed.

Lemma q_square : forall b s q, q = - (b + s) / 2 -> q * q <= (b * b + s * s) / 2.
Proof. intros b s q ->. pose proof (Rle_0_sqr (b - s)). unfold Rsqr in *. lra. Qed.

Lemma q_square_low : forall b s q, q = - (b + s) / 2 -> 0 <= b * s -> (b * b + s * s) / 4 <= q * q.
Proof. intros b s q -> H. lra. Qed.

Lemma core_identity : forall b s q ac, q = - (b + s) / 2 -> q * q + b * q + ac = (s * s - (b * b - 4 * ac)) / 4.
Proof. intros b s q ac ->. field. Qed.

Lemma theta_square : forall th, Rabs th <= 5 * u24 -> Rabs (2 * th + th * th) <= 12 * u24.
Proof.
  intros th H. apply abs_both in H. unfold u24 in *.
  assert (0 <= th * th <= 5 * / 16777216 * (5 * / 16777216)) by (split; [apply Rle_0_sqr|]; nra).
  apply Rabs_le. lra.
Qed.

Lemma root_far : forall a b c s q th E, 0 < a -> q = - (b + s) / 2 -> 0 <= E -> Rabs (s * s - (b * b - 4 * (a * c))) <= E ->
  Rabs th <= 5 * u24 -> let t := q / a * (1 + th) in
  a * Rabs (a * t * t + b * t + c) <= E / 2 + 20 * u24 * (b * b) + 35 * u24 * (a * Rabs c).
Proof.
  intros a b c s q th E A Q HE E0 T t.
  assert (AC : Rabs (a * c) = a * Rabs c) by (rewrite Rabs_mult, (Rabs_pos_eq a); lra).
  assert (PC : 0 <= a * Rabs c) by (rewrite <- AC; apply Rabs_pos).
  assert (BC : - (a * Rabs c) <= a * c <= a * Rabs c) by (apply abs_both; rewrite AC; lra).
  rewrite <- (Rabs_pos_eq a) at 1 by lra. rewrite <- Rabs_mult.
  replace (a * (a * t * t + b * t + c)) with ((q * q + b * q + a * c) + q * q * (2 * th + th * th) + b * q * th)
    by (unfold t; field; lra).
  rewrite (core_identity b s q (a * c) Q).
  set (e := s * s - (b * b - 4 * (a * c))) in *.
  pose proof (q_square b s q Q) as QQ. assert (Q0 : 0 <= q * q) by apply Rle_0_sqr. assert (B0 : 0 <= b * b) by apply Rle_0_sqr.
  assert (SS : s * s <= b * b + 4 * (a * Rabs c) + E) by (apply abs_both in E0; unfold e in E0; lra).
  pose proof (theta_square th T) as T2.
  eapply Rle_trans; [eapply Rle_trans; [apply Rabs_triang|apply Rplus_le_compat_r, Rabs_triang]|].
  assert (S1 : Rabs (q * q * (2 * th + th * th)) <= 12 * u24 * (q * q)).
  { eapply Rle_trans; [apply prod_bound; [|exact T2]; unfold u24; lra|]. rewrite (Rabs_pos_eq (q * q) Q0). lra. }
  assert (S2 : Rabs (b * q * th) <= 5 * u24 * Rabs (b * q)).
  { eapply Rle_trans; [apply prod_bound; [|exact T]; unfold u24; lra|]. lra. }
  assert (D : Rabs (e / 4) <= E / 4). { unfold Rdiv. rewrite Rabs_mult, (Rabs_pos_eq (/ 4)) by lra. lra. }
  pose proof (am_gm b q) as G.
  clearbody e. clear t T T2 E0 Q BC AC. unfold u24 in *.
  set (x1 := Rabs (e / 4)) in *. set (x2 := Rabs (q * q * (2 * th + th * th))) in *. set (x3 := Rabs (b * q * th)) in *.
  set (x4 := Rabs (b * q)) in *. set (qq := q * q) in *. set (B := b * b) in *. set (K := a * Rabs c) in *. set (ss := s * s) in *.
  clearbody x1 x2 x3 x4 qq B K ss. lra.
Qed.

Lemma q_dominates : forall a b c s q E, 0 < a -> q = - (b + s) / 2 -> 0 <= b * s -> Rabs (s * s - (b * b - 4 * (a * c))) <= E ->
  E <= / 100 * (b * b + 4 * (a * Rabs c)) -> a * Rabs c <= 11 / 10 * (q * q).
Proof.
  intros a b c s q E A Q BS E0 HE. pose proof (q_square_low b s q Q BS) as L. apply abs_both in E0.
  assert (B0 : 0 <= b * b) by apply Rle_0_sqr. assert (S0 : 0 <= s * s) by apply Rle_0_sqr.
  destruct (Rle_dec 0 c).
  - rewrite Rabs_pos_eq in * by assumption. lra.
  - rewrite Rabs_left in * by lra. replace (a * - c) with (- (a * c)) in * by ring. lra.
Qed.

Lemma root_near : forall a b c s q th E, 0 < a -> q = - (b + s) / 2 -> q <> 0 -> 0 <= b * s -> 0 <= E ->
  Rabs (s * s - (b * b - 4 * (a * c))) <= E -> E <= / 100 * (b * b + 4 * (a * Rabs c)) ->
  Rabs th <= 5 * u24 -> let t := c / q * (1 + th) in
  a * Rabs (a * t * t + b * t + c) <= 11 / 10 * (E / 2 + 20 * u24 * (b * b) + 35 * u24 * (a * Rabs c)).
Proof.
  intros a b c s q th E A Q Q1 BS HE E0 HE2 T t.
  pose proof (q_dominates a b c s q E A Q BS E0 HE2) as DOM.
  assert (AC : Rabs (a * c) = a * Rabs c) by (rewrite Rabs_mult, (Rabs_pos_eq a); lra).
  assert (PC : 0 <= a * Rabs c) by (rewrite <- AC; apply Rabs_pos).
  assert (BC : - (a * Rabs c) <= a * c <= a * Rabs c) by (apply abs_both; rewrite AC; lra).
  assert (Q0 : 0 < q * q) by (apply Rsqr_pos_lt; exact Q1). assert (B0 : 0 <= b * b) by apply Rle_0_sqr.
  rewrite <- (Rabs_pos_eq a) at 1 by lra. rewrite <- Rabs_mult.
  replace (a * (a * t * t + b * t + c)) with (a * c / (q * q) * ((q * q + b * q + a * c) + a * c * (2 * th + th * th) + b * q * th))
    by (unfold t; field; exact Q1).
  rewrite (core_identity b s q (a * c) Q).
  set (e := s * s - (b * b - 4 * (a * c))) in *.
  pose proof (q_square b s q Q) as QQ.
  assert (SS : s * s <= b * b + 4 * (a * Rabs c) + E) by (apply abs_both in E0; unfold e in E0; lra).
  pose proof (theta_square th T) as T2.
  rewrite Rabs_mult. apply Rmult_le_compat; try apply Rabs_pos.
  - unfold Rdiv. rewrite Rabs_mult, AC, (Rabs_pos_eq (/ (q * q))) by (apply Rlt_le, Rinv_0_lt_compat; exact Q0).
    apply (Rmult_le_reg_r (q * q)); [exact Q0|]. rewrite Rmult_assoc, Rinv_l by lra. lra.
  - eapply Rle_trans; [eapply Rle_trans; [apply Rabs_triang|apply Rplus_le_compat_r, Rabs_triang]|].
    assert (S1 : Rabs (a * c * (2 * th + th * th)) <= 12 * u24 * (a * Rabs c)).
    { eapply Rle_trans; [apply prod_bound; [|exact T2]; unfold u24; lra|]. rewrite AC. lra. }
    assert (S2 : Rabs (b * q * th) <= 5 * u24 * Rabs (b * q)).
    { eapply Rle_trans; [apply prod_bound; [|exact T]; unfold u24; lra|]. lra. }
    assert (D : Rabs (e / 4) <= E / 4). { unfold Rdiv. rewrite Rabs_mult, (Rabs_pos_eq (/ 4)) by lra. lra. }
    pose proof (am_gm b q) as G.
    clearbody e. clear t T T2 E0 Q BC AC DOM. unfold u24 in *.
    set (x1 := Rabs (e / 4)) in *. set (x2 := Rabs (a * c * (2 * th + th * th))) in *. set (x3 := Rabs (b * q * th)) in *.
    set (x4 := Rabs (b * q)) in *. set (qq := q * q) in *. set (B := b * b) in *. set (K := a * Rabs c) in *. set (ss := s * s) in *.
    clearbody x1 x2 x3 x4 qq B K ss. lra.
Qed.

(* ----- relative errors ----- *)

Lemma rel_rnd : forall x, bpow radix2 (-110) <= Rabs x -> exists e, Rabs e <= 1001 / 1000 * u24 /\ rnd x = x * (1 + e).
Proof.
  intros x L. assert (P : 0 < Rabs x) by (pose proof (bpow_gt_0 radix2 (-110)); lra).
  assert (N : x <> 0) by (intros ->; rewrite Rabs_R0 in P; lra).
  exists ((rnd x - x) / x). split; [|field; exact N].
  unfold Rdiv. rewrite Rabs_mult, Rabs_inv. apply (Rmult_le_reg_r (Rabs x)); [exact P|]. rewrite Rmult_assoc, Rinv_l, Rmult_1_r by lra.
  eapply Rle_trans; [apply rerr|].
  assert (H : h150 <= / 1000 * u24 * bpow radix2 (-110)).
  { unfold h150. replace (bpow radix2 (-150)) with (bpow radix2 (-40) * bpow radix2 (-110)) by (rewrite <- bpow_plus; reflexivity).
    apply Rmult_le_compat_r; [apply bpow_ge_0|]. rewrite <- u24_bpow.
    replace (bpow radix2 (-40)) with (bpow radix2 (-16) * bpow radix2 (-24)) by (rewrite <- bpow_plus; reflexivity).
    apply Rmult_le_compat_r; [apply bpow_ge_0|]. change (bpow radix2 (-16)) with (/ 65536). lra. }
  assert (/ 1000 * u24 * bpow radix2 (-110) <= / 1000 * u24 * Rabs x) by (apply Rmult_le_compat_l; [unfold u24; lra|exact L]).
  lra.
Qed.

Lemma rel_mul3 : forall e1 e2 e3, Rabs e1 <= 1001 / 1000 * u24 -> Rabs e2 <= 1001 / 1000 * u24 -> Rabs e3 <= 1001 / 1000 * u24 ->
  Rabs ((1 + e1) * (1 + e2) * (1 + e3) - 1) <= 31 / 10 * u24.
Proof.
  intros e1 e2 e3 A B C. apply abs_both in A, B, C. unfold u24 in *.
  assert (P : - / 1000000 * / 16777216 <= e1 * e2 <= / 1000000 * / 16777216) by nra.
  assert (Q : - / 1000000 * / 16777216 <= e1 * e3 <= / 1000000 * / 16777216) by nra.
  assert (S : - / 1000000 * / 16777216 <= e2 * e3 <= / 1000000 * / 16777216) by nra.
  assert (T : - / 1000000 * / 16777216 <= e1 * e2 * e3 <= / 1000000 * / 16777216) by (clear - P C; nra).
  apply Rabs_le. replace ((1 + e1) * (1 + e2) * (1 + e3) - 1) with (e1 + e2 + e3 + e1 * e2 + e1 * e3 + e2 * e3 + e1 * e2 * e3) by ring. lra.
Qed.

Lemma rel_times : forall n e, Rabs n <= 31 / 10 * u24 -> Rabs e <= 1001 / 1000 * u24 -> Rabs ((1 + n) * (1 + e) - 1) <= 5 * u24.
Proof.
  intros n e A B. apply abs_both in A, B. unfold u24 in *.
  assert (P : - / 1000000 * / 16777216 <= n * e <= / 1000000 * / 16777216) by nra.
  apply Rabs_le. replace ((1 + n) * (1 + e) - 1) with (n + e + n * e) by ring. lra.
Qed.

Lemma rel_over : forall n e, Rabs n <= 31 / 10 * u24 -> Rabs e <= 1001 / 1000 * u24 -> Rabs ((1 + e) / (1 + n) - 1) <= 5 * u24.
Proof.
  intros n e A B. apply abs_both in A, B. unfold u24 in *.
  replace ((1 + e) / (1 + n) - 1) with ((e - n) / (1 + n)) by (field; lra).
  unfold Rdiv. rewrite Rabs_mult. rewrite (Rabs_pos_eq (/ (1 + n))) by (apply Rlt_le, Rinv_0_lt_compat; lra).
  apply (Rmult_le_reg_r (1 + n)); [lra|]. rewrite Rmult_assoc, Rinv_l, Rmult_1_r by lra.
  assert (Rabs (e - n) <= 42 / 10 * / 16777216) by (apply Rabs_le; lra). lra.
Qed.

(* ----- the code ----- *)

(* coefficients far from overflow and underflow; the last may be 0 *)
Definition solvable (a b c : f32) : Prop :=
  fin a /\ fin b /\ fin c /\ bpow radix2 (-30) <= val a <= bpow radix2 30 /\ Rabs (val b) <= bpow radix2 40 /\
  Rabs (val c) <= bpow radix2 40 /\ (val c = 0 \/ bpow radix2 (-40) <= Rabs (val c)).

Definition f_delta (a b c : f32) : f32 := fsub (fmul b b) (fmul (fmul (of_Z 4) a) c).

Lemma pow_mult : forall e f, bpow radix2 e * bpow radix2 f = bpow radix2 (e + f).
Proof. intros. rewrite bpow_plus. reflexivity. Qed.

Lemma abs_prod : forall x y e f, Rabs x <= bpow radix2 e -> Rabs y <= bpow radix2 f -> Rabs (x * y) <= bpow radix2 (e + f).
Proof. intros. rewrite Rabs_mult, bpow_plus. apply Rmult_le_compat; try apply Rabs_pos; assumption. Qed.

Lemma four_a : forall a, fin a -> bpow radix2 (-30) <= val a <= bpow radix2 30 ->
  fin (fmul (of_Z 4) a) /\ val (fmul (of_Z 4) a) = 4 * val a.
Proof.
  intros a F (L & U). destruct (of_Z_exact 4 ltac:(lia)) as (F4 & V4).
  assert (A : Rabs (4 * val a) <= bpow radix2 (2 + 30)).
  { apply abs_prod; [rewrite Rabs_pos_eq by lra; apply Rle_refl|]. rewrite Rabs_pos_eq; [exact U|]. pose proof (bpow_gt_0 radix2 (-30)). lra. }
  destruct (fmul_val (of_Z 4) a F4 F) as (G & V).
  { rewrite V4. apply (small_127 _ 32); [lia|exact A]. }
  split; [exact G|]. rewrite V, V4. change 4 with (bpow radix2 2). rewrite Rmult_comm. apply rnd_fits.
  apply (Mult_error.mult_bpow_pos_exact_FLT radix2 (-149) 24 (val a) 2); [apply fits_val|lia].
Qed.

Lemma delta_val : forall a b c, solvable a b c ->
  fin (f_delta a b c) /\ Rabs (val (f_delta a b c)) <= bpow radix2 90 /\
  Rabs (val (f_delta a b c) - (val b * val b - 4 * (val a * val c))) <=
    21 / 10 * u24 * (val b * val b + 4 * (val a * Rabs (val c))) + 4 * h150.
Proof.
  intros a b c (FA & FB & FC & A & B & C & _). destruct (four_a a FA A) as (F4 & V4).
  assert (PA : 0 < val a) by (pose proof (bpow_gt_0 radix2 (-30)); lra).
  pose proof (abs_prod _ _ 40 40 B B) as BB. change (40 + 40)%Z with 80%Z in BB.
  assert (A4 : Rabs (4 * val a) <= bpow radix2 42).
  { eapply Rle_trans; [apply (abs_prod 4 (val a) 2 30); [rewrite Rabs_pos_eq by lra; apply Rle_refl|rewrite Rabs_pos_eq; lra]|apply bpow_le; lia]. }
  pose proof (abs_prod _ _ 42 40 A4 C) as AC. change (42 + 40)%Z with 82%Z in AC.
  destruct (fmul_val b b FB FB) as (F1 & V1); [apply (small_127 _ 80); [lia|exact BB]|].
  destruct (fmul_val (fmul (of_Z 4) a) c F4 FC) as (F2 & V2); [rewrite V4; apply (small_127 _ 82); [lia|exact AC]|].
  rewrite V4 in V2.
  assert (R1 : Rabs (val (fmul b b)) <= bpow radix2 82) by (rewrite V1; apply rnd_abs; [lia|]; eapply Rle_trans; [exact BB|apply bpow_le; lia]).
  assert (R2 : Rabs (- val (fmul (fmul (of_Z 4) a) c)) <= bpow radix2 82) by (rewrite Rabs_Ropp, V2; apply rnd_abs; [lia|exact AC]).
  pose proof (sum_bound _ _ 82 R1 R2) as S. change (82 + 1)%Z with 83%Z in S.
  destruct (fsub_val (fmul b b) (fmul (fmul (of_Z 4) a) c) F1 F2) as (F3 & V3); [apply (small_127 _ 83); [lia|exact S]|].
  unfold f_delta. split; [exact F3|]. split.
  { rewrite V3. eapply Rle_trans; [apply (rnd_abs _ 83); [lia|exact S]|apply bpow_le; lia]. }
  rewrite V3. assert (H : 0 < h150) by apply bpow_gt_0.
  assert (AB : Rabs (4 * val a * val c) = 4 * (val a * Rabs (val c))).
  { rewrite !Rabs_mult, (Rabs_pos_eq 4), (Rabs_pos_eq (val a)); lra. }
  pose proof (delta_lin (val b * val b) (4 * val a * val c) (val (fmul b b)) (val (fmul (fmul (of_Z 4) a) c)) 
    (rnd (val (fmul b b) - val (fmul (fmul (of_Z 4) a) c))) h150) as D.
  rewrite AB in D. replace (4 * (val a * val c)) with (4 * val a * val c) by ring.
  apply D; [apply Rle_0_sqr|exact H|rewrite V1; apply rerr|rewrite V2, <- AB; apply rerr|apply rerr].
Qed.

Lemma tangent_val : fin f_tangent /\ 999 / 10000000 <= val f_tangent <= 1001 / 10000000.
Proof.
  split; [vm_compute; reflexivity|].
  assert (E : val f_tangent = IZR 13743895 * bpow radix2 (-37)).
  { apply lit_val. vm_compute. reflexivity. }
  rewrite E. change (bpow radix2 (-37)) with (/ 137438953472). lra.
Qed.

Lemma val_min : forall x : f32, 0 < val x -> bpow radix2 (-149) <= val x.
Proof. intros x H. pose proof (val_not_tiny x) as N. rewrite (Rabs_pos_eq (val x)) in N by lra. apply N. lra. Qed.

Lemma rel_sum : forall b s0 e, 0 <= b * s0 -> b + s0 <> 0 -> Rabs e <= 1001 / 1000 * u24 ->
  exists e', Rabs e' <= 1001 / 1000 * u24 /\ b + s0 * (1 + e) = (b + s0) * (1 + e').
Proof.
  intros b s0 e P N E. exists (s0 / (b + s0) * e). split; [|field; exact N].
  assert (F : Rabs (s0 / (b + s0)) <= 1).
  { unfold Rdiv. rewrite Rabs_mult, Rabs_inv. apply (Rmult_le_reg_r (Rabs (b + s0))); [apply Rabs_pos_lt; exact N|].
    rewrite Rmult_assoc, Rinv_l, Rmult_1_l, Rmult_1_r by (apply Rabs_no_R0; exact N).
    apply Rsqr_le_abs_0. unfold Rsqr. pose proof (Rle_0_sqr b) as Q. unfold Rsqr in Q. lra. }
  rewrite Rabs_mult. pose proof (Rabs_pos e). rewrite <- (Rmult_1_l (1001 / 1000 * u24)). apply Rmult_le_compat; try apply Rabs_pos; assumption.
Qed.

Lemma sqrt_between : forall x, bpow radix2 (-149) <= x -> x <= bpow radix2 90 -> bpow radix2 (-75) <= sqrt x <= bpow radix2 45.
Proof.
  intros x L U. split.
  - rewrite <- (sqrt_square (bpow radix2 (-75))) by apply bpow_ge_0. apply sqrt_le_1_alt. rewrite pow_mult. eapply Rle_trans; [|exact L]. apply bpow_le; lia.
  - rewrite <- (sqrt_square (bpow radix2 45)) by apply bpow_ge_0. apply sqrt_le_1_alt. rewrite pow_mult. exact U.
Qed.

Lemma half_val : fin (fnum (-1) (-1)) /\ val (fnum (-1) (-1)) = - / 2.
Proof.
  split; [vm_compute; reflexivity|]. rewrite (lit_neg _ 8388608 (-24)) by (vm_compute; reflexivity).
  change (bpow radix2 (-24)) with (/ 16777216). lra.
Qed.

Definition f_q (b delta : f32) : f32 :=
  if flt b fzero then fmul (fnum (-1) (-1)) (fsub b (fsqrt delta)) else fmul (fnum (-1) (-1)) (fadd b (fsqrt delta)).

(* q is the half sum with the root of the computed discriminant, up to three roundings *)
Lemma q_val : forall b d, fin b -> fin d -> Rabs (val b) <= bpow radix2 40 -> 0 < val d <= bpow radix2 90 ->
  exists s n, s * s = val d /\ 0 <= val b * s /\ Rabs n <= 31 / 10 * u24 /\
    bpow radix2 (-76) <= Rabs (- (val b + s) / 2) <= bpow radix2 46 /\
    fin (f_q b d) /\ val (f_q b d) = - (val b + s) / 2 * (1 + n).
Proof.
  intros b d FB FD B (D0 & D1).
  destruct fzero_val as (F0 & V0). destruct half_val as (FH & VH).
  destruct (fsqrt_val d FD) as (FS & VS); [lra|].
  pose proof (sqrt_between _ (val_min d D0) D1) as (SL & SU).
  pose proof (sqrt_sqrt (val d) ltac:(lra)) as SQ.
  set (s0 := sqrt (val d)) in *. clearbody s0.
  assert (P75 : 0 < bpow radix2 (-75)) by apply bpow_gt_0.
  assert (S0 : 0 < s0) by lra.
  assert (UU : 0 < u24 <= / 1000000) by (unfold u24; lra).
  destruct (rel_rnd s0) as (e1 & E1 & Q1); [rewrite Rabs_pos_eq by lra; eapply Rle_trans; [|exact SL]; apply bpow_le; lia|].
  rewrite Q1 in VS.
  (* the signed root *)
  set (neg := flt b fzero).
  assert (SG : exists sg, (neg = true /\ sg = -1 \/ neg = false /\ sg = 1) /\ 0 <= val b * sg).
  { unfold neg. destruct (flt b fzero) eqn:E.
    - exists (-1). apply (flt_val _ _ FB F0) in E. rewrite V0 in E. split; [auto|lra].
    - exists 1. assert (~ val b < val fzero) by (rewrite <- (flt_val _ _ FB F0); congruence). rewrite V0 in H. split; [auto|lra]. }
  destruct SG as (sg & SG & BS).
  assert (SGV : sg = -1 \/ sg = 1) by (destruct SG as [[_ ->]|[_ ->]]; auto).
  assert (BP : 0 <= val b * (sg * s0)) by (replace (val b * (sg * s0)) with (val b * sg * s0) by ring; apply Rmult_le_pos; lra).
  assert (SUM : s0 <= Rabs (val b + sg * s0) <= bpow radix2 46).
  { assert (E46 : bpow radix2 46 = bpow radix2 45 + bpow radix2 45) by (rewrite <- double_bpow; reflexivity).
    assert (E40 : bpow radix2 40 <= bpow radix2 45) by (apply bpow_le; lia).
    apply abs_both in B. clear - SGV BS S0 SU E46 E40 B. destruct SGV as [-> | ->].
    - rewrite Rabs_left1; lra.
    - rewrite Rabs_pos_eq; lra. }
  assert (NZ : val b + sg * s0 <> 0) by (intro Z; rewrite Z, Rabs_R0 in SUM; lra).
  destruct (rel_sum (val b) (sg * s0) e1 BP NZ E1) as (e2 & E2 & Q2).
  (* the float sum *)
  assert (ONE : forall e, Rabs e <= 1001 / 1000 * u24 -> / 2 <= 1 + e <= 2) by (intros e He; apply abs_both in He; lra).
  assert (SZ : Rabs ((val b + sg * s0) * (1 + e2)) <= bpow radix2 47 /\ bpow radix2 (-76) <= Rabs ((val b + sg * s0) * (1 + e2))).
  { rewrite Rabs_mult. pose proof (ONE e2 E2) as O. rewrite (Rabs_pos_eq (1 + e2)) by lra.
    assert (E47 : bpow radix2 47 = bpow radix2 46 * 2) by (change 2 with (bpow radix2 1); rewrite <- bpow_plus; reflexivity).
    assert (E76 : bpow radix2 (-76) = bpow radix2 (-75) * / 2) by (change (/ 2) with (bpow radix2 (-1)); rewrite <- bpow_plus; reflexivity).
    rewrite E47, E76. split; apply Rmult_le_compat; try lra; try apply Rabs_pos. }
  assert (FSUM : exists x, fin x /\ val x = rnd ((val b + sg * s0) * (1 + e2)) /\ f_q b d = fmul (fnum (-1) (-1)) x).
  { unfold f_q. fold neg. rewrite <- Q2 in *. destruct SG as [[-> ->]|[-> ->]].
    - exists (fsub b (fsqrt d)).
      replace (val b + -1 * s0 * (1 + e1)) with (val b - val (fsqrt d)) in * by (rewrite VS; ring).
      destruct (fsub_val b (fsqrt d) FB FS) as (F & V); [apply (small_127 _ 47); [lia|apply SZ]|]. auto.
    - exists (fadd b (fsqrt d)).
      replace (val b + 1 * s0 * (1 + e1)) with (val b + val (fsqrt d)) in * by (rewrite VS; ring).
      destruct (fadd_val b (fsqrt d) FB FS) as (F & V); [apply (small_127 _ 47); [lia|apply SZ]|]. auto. }
  destruct FSUM as (x & FX & VX & EQ).
  destruct (rel_rnd ((val b + sg * s0) * (1 + e2))) as (e3 & E3 & Q3); [eapply Rle_trans; [|apply SZ]; apply bpow_le; lia|].
  rewrite Q3 in VX. pose proof (ONE e3 E3) as O3.
  assert (XZ : Rabs (- / 2 * val x) <= bpow radix2 47 /\ bpow radix2 (-78) <= Rabs (- / 2 * val x)).
  { rewrite VX, !Rabs_mult, Rabs_Ropp, (Rabs_pos_eq (/ 2)), (Rabs_pos_eq (1 + e3)) by lra. rewrite <- Rabs_mult.
    assert (E78 : bpow radix2 (-78) = / 4 * bpow radix2 (-76)) by (change (/ 4) with (bpow radix2 (-2)); rewrite <- bpow_plus; reflexivity).
    set (y := Rabs ((val b + sg * s0) * (1 + e2))) in *. clearbody y. rewrite E78. clear - SZ O3.
    pose proof (bpow_gt_0 radix2 (-76)). assert (0 < y) by lra. split; nra. }
  destruct (fmul_val (fnum (-1) (-1)) x FH FX) as (FQ & VQ); [rewrite VH; apply (small_127 _ 47); [lia|apply XZ]|].
  rewrite VH in VQ. destruct (rel_rnd (- / 2 * val x)) as (e4 & E4 & Q4); [eapply Rle_trans; [|apply XZ]; apply bpow_le; lia|].
  rewrite Q4, VX in VQ.
  exists (sg * s0), ((1 + e2) * (1 + e3) * (1 + e4) - 1).
  split; [destruct SGV as [-> | ->]; rewrite <- SQ; ring|]. split; [exact BP|]. split; [apply rel_mul3; assumption|]. split.
  { unfold Rdiv. rewrite Rabs_mult, Rabs_Ropp, (Rabs_pos_eq (/ 2)) by lra.
    assert (E76 : bpow radix2 (-76) = bpow radix2 (-75) * / 2) by (change (/ 2) with (bpow radix2 (-1)); rewrite <- bpow_plus; reflexivity).
    rewrite E76. lra. }
  rewrite EQ. split; [exact FQ|]. rewrite VQ. field.
Qed.

(* what the residual of a root may be, times a *)
Definition residual (a b c t : f32) : R := val a * Rabs (val a * val t * val t + val b * val t + val c).
Definition tolerance (a b c : f32) : R := u24 * (24 * (val b * val b) + 44 * (val a * Rabs (val c))) + bpow radix2 (-140).

Lemma h150_tiny : 0 < h150 /\ 3 * h150 <= bpow radix2 (-140).
Proof.
  split; [apply bpow_gt_0|]. unfold h150. replace (bpow radix2 (-140)) with (1024 * bpow radix2 (-150)).
  - pose proof (bpow_gt_0 radix2 (-150)). lra.
  - change 1024 with (bpow radix2 10). rewrite <- bpow_plus. reflexivity.
Qed.

Lemma solvable_a : forall a b c, solvable a b c -> 0 < val a.
Proof. intros a b c (_ & _ & _ & A & _). pose proof (bpow_gt_0 radix2 (-30)). lra. Qed.

Lemma far_root : forall a b c, solvable a b c -> 0 < val (f_delta a b c) ->
  let t := fdiv (f_q b (f_delta a b c)) a in fin t /\ residual a b c t <= tolerance a b c.
Proof.
  intros a b c SV D t. destruct (delta_val a b c SV) as (FD & UD & ED). pose proof (solvable_a _ _ _ SV) as PA.
  pose proof SV as (FA & FB & FC & A & B & C & _).
  destruct (q_val b (f_delta a b c) FB FD B) as (s & n & SS & BS & N & QB & FQ & VQ).
  { split; [exact D|]. rewrite Rabs_pos_eq in UD by lra. exact UD. }
  set (q0 := - (val b + s) / 2) in *. assert (HQ0 : q0 = - (val b + s) / 2) by reflexivity. clearbody q0.
  assert (UU : 0 < u24 <= / 1000000) by (unfold u24; lra).
  assert (N1 : / 2 <= 1 + n <= 2) by (apply abs_both in N; lra).
  assert (IA : bpow radix2 (-30) <= / val a <= bpow radix2 30).
  { split; [change (-30)%Z with (- (30))%Z|change 30%Z with (- - 30)%Z]; rewrite bpow_opp; (apply Rinv_le; [|lra]); [exact PA|apply bpow_gt_0]. }
  assert (TZ : Rabs (val (f_q b (f_delta a b c)) / val a) <= bpow radix2 77 /\ bpow radix2 (-107) <= Rabs (val (f_q b (f_delta a b c)) / val a)).
  { pose proof (bpow_gt_0 radix2 (-76)). pose proof (bpow_gt_0 radix2 (-30)). pose proof (Rabs_pos q0).
    rewrite VQ. unfold Rdiv. rewrite !Rabs_mult, (Rabs_pos_eq (1 + n)), (Rabs_pos_eq (/ val a)) by lra.
    replace (bpow radix2 77) with (bpow radix2 46 * 2 * bpow radix2 30) by (change 2 with (bpow radix2 1); rewrite <- !bpow_plus; reflexivity).
    replace (bpow radix2 (-107)) with (bpow radix2 (-76) * / 2 * bpow radix2 (-30)) by (change (/ 2) with (bpow radix2 (-1)); rewrite <- !bpow_plus; reflexivity).
    split; (apply Rmult_le_compat; [apply Rmult_le_pos; lra|lra|apply Rmult_le_compat; lra|lra]). }
  destruct (fdiv_val (f_q b (f_delta a b c)) a FQ) as (FT & VT); [lra|apply (small_127 _ 77); [lia|apply TZ]|].
  split; [exact FT|].
  destruct (rel_rnd (val (f_q b (f_delta a b c)) / val a)) as (e & E & Q); [eapply Rle_trans; [|apply TZ]; apply bpow_le; lia|].
  rewrite Q, VQ in VT.
  pose proof (rel_times n e N E) as TH.
  rewrite <- SS in ED.
  assert (E0 : 0 <= 21 / 10 * u24 * (val b * val b + 4 * (val a * Rabs (val c))) + 4 * h150) by (eapply Rle_trans; [apply Rabs_pos|exact ED]).
  pose proof (root_far (val a) (val b) (val c) s q0 ((1 + n) * (1 + e) - 1) _ PA HQ0 E0 ED TH) as RF. cbv zeta in RF.
  unfold residual. unfold t. rewrite VT.
  replace (q0 * (1 + n) / val a * (1 + e)) with (q0 / val a * (1 + ((1 + n) * (1 + e) - 1))) by (field; lra).
  eapply Rle_trans; [exact RF|]. destruct h150_tiny as (H0 & H). unfold tolerance, u24.
  assert (B0 : 0 <= val b * val b) by apply Rle_0_sqr. assert (C0 : 0 <= val a * Rabs (val c)) by (apply Rmult_le_pos; [lra|apply Rabs_pos]).
  set (x := val b * val b) in *. set (y := val a * Rabs (val c)) in *. clearbody x y. clear - H0 H B0 C0. lra.
Qed.

Lemma near_root : forall a b c, solvable a b c -> 0 < val (f_delta a b c) ->
  let t := fdiv c (f_q b (f_delta a b c)) in fin t /\ residual a b c t <= tolerance a b c.
Proof.
  intros a b c SV D t. destruct (delta_val a b c SV) as (FD & UD & ED). pose proof (solvable_a _ _ _ SV) as PA.
  pose proof SV as (FA & FB & FC & A & B & C & C1).
  destruct (q_val b (f_delta a b c) FB FD B) as (s & n & SS & BS & N & QB & FQ & VQ).
  { split; [exact D|]. rewrite Rabs_pos_eq in UD by lra. exact UD. }
  set (q0 := - (val b + s) / 2) in *. assert (HQ0 : q0 = - (val b + s) / 2) by reflexivity. clearbody q0.
  assert (UU : 0 < u24 <= / 1000000) by (unfold u24; lra).
  assert (N1 : / 2 <= 1 + n <= 2) by (apply abs_both in N; lra).
  assert (P76 : 0 < bpow radix2 (-76)) by apply bpow_gt_0.
  assert (QN : q0 <> 0) by (intros ->; rewrite Rabs_R0 in QB; lra).
  assert (VN : val (f_q b (f_delta a b c)) <> 0) by (rewrite VQ; apply Rmult_integral_contrapositive_currified; lra).
  destruct h150_tiny as (H0 & H).
  assert (B0 : 0 <= val b * val b) by apply Rle_0_sqr. assert (C0 : 0 <= val a * Rabs (val c)) by (apply Rmult_le_pos; [lra|apply Rabs_pos]).
  assert (QZ : bpow radix2 (-77) <= Rabs (val (f_q b (f_delta a b c))) <= bpow radix2 47).
  { rewrite VQ, Rabs_mult, (Rabs_pos_eq (1 + n)) by lra.
    replace (bpow radix2 47) with (bpow radix2 46 * 2) by (change 2 with (bpow radix2 1); rewrite <- !bpow_plus; reflexivity).
    replace (bpow radix2 (-77)) with (bpow radix2 (-76) * / 2) by (change (/ 2) with (bpow radix2 (-1)); rewrite <- !bpow_plus; reflexivity).
    pose proof (Rabs_pos q0). split; apply Rmult_le_compat; lra. }
  assert (IQ : bpow radix2 (-47) <= / Rabs (val (f_q b (f_delta a b c))) <= bpow radix2 77).
  { pose proof (bpow_gt_0 radix2 (-77)).
    split; [change (-47)%Z with (- (47))%Z|change 77%Z with (- - 77)%Z]; rewrite bpow_opp; (apply Rinv_le; lra). }
  assert (TU : Rabs (val c / val (f_q b (f_delta a b c))) <= bpow radix2 117).
  { unfold Rdiv. rewrite Rabs_mult, Rabs_inv. replace (bpow radix2 117) with (bpow radix2 40 * bpow radix2 77) by (rewrite <- bpow_plus; reflexivity).
    apply Rmult_le_compat; [apply Rabs_pos|apply Rlt_le, Rinv_0_lt_compat, Rabs_pos_lt; exact VN|exact C|apply IQ]. }
  destruct (fdiv_val c (f_q b (f_delta a b c)) FC VN) as (FT & VT); [apply (small_127 _ 117); [lia|exact TU]|].
  split; [exact FT|]. unfold residual, t.
  destruct C1 as [CZ|CL].
  - rewrite VT, CZ. unfold Rdiv. rewrite Rmult_0_l, rnd_0, !Rmult_0_r, !Rplus_0_r, Rabs_R0, Rmult_0_r.
    unfold tolerance. rewrite CZ, Rabs_R0. unfold u24. pose proof (bpow_gt_0 radix2 (-140)). lra.
  - assert (TL : bpow radix2 (-87) <= Rabs (val c / val (f_q b (f_delta a b c)))).
    { unfold Rdiv. rewrite Rabs_mult, Rabs_inv. replace (bpow radix2 (-87)) with (bpow radix2 (-40) * bpow radix2 (-47)) by (rewrite <- bpow_plus; reflexivity).
      apply Rmult_le_compat; [apply bpow_ge_0..|exact CL|apply IQ]. }
    destruct (rel_rnd (val c / val (f_q b (f_delta a b c)))) as (e & E & Q); [eapply Rle_trans; [|exact TL]; apply bpow_le; lia|].
    rewrite Q, VQ in VT.
    pose proof (rel_over n e N E) as TH.
    rewrite <- SS in ED.
    assert (E0 : 0 <= 21 / 10 * u24 * (val b * val b + 4 * (val a * Rabs (val c))) + 4 * h150) by (eapply Rle_trans; [apply Rabs_pos|exact ED]).
    assert (AC : bpow radix2 (-70) <= val a * Rabs (val c)).
    { replace (bpow radix2 (-70)) with (bpow radix2 (-30) * bpow radix2 (-40)) by (rewrite <- bpow_plus; reflexivity).
      apply Rmult_le_compat; try apply bpow_ge_0; lra. }
    assert (HB : 4 * h150 <= / 1000 * bpow radix2 (-70)).
    { unfold h150. replace (bpow radix2 (-150)) with (bpow radix2 (-80) * bpow radix2 (-70)) by (rewrite <- bpow_plus; reflexivity).
      assert (bpow radix2 (-80) <= bpow radix2 (-16)) by (apply bpow_le; lia). change (bpow radix2 (-16)) with (/ 65536) in H1.
      rewrite <- Rmult_assoc. apply Rmult_le_compat_r; [apply bpow_ge_0|lra]. }
    assert (E1 : 21 / 10 * u24 * (val b * val b + 4 * (val a * Rabs (val c))) + 4 * h150 <= / 100 * (val b * val b + 4 * (val a * Rabs (val c)))).
    { set (x := val b * val b) in *. set (y := val a * Rabs (val c)) in *. clearbody x y. unfold u24. clear - AC HB B0 C0. lra. }
    pose proof (root_near (val a) (val b) (val c) s q0 ((1 + e) / (1 + n) - 1) _ PA HQ0 QN BS E0 ED E1 TH) as RF. cbv zeta in RF.
    rewrite VT.
    replace (val c / (q0 * (1 + n)) * (1 + e)) with (val c / q0 * (1 + ((1 + e) / (1 + n) - 1))) by (field; split; [lra|exact QN]).
    eapply Rle_trans; [exact RF|]. unfold tolerance, u24.
    set (x := val b * val b) in *. set (y := val a * Rabs (val c)) in *. clearbody x y. clear - H0 H B0 C0. lra.
Qed.
