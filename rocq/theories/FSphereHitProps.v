(* Spheres in single precision: what is hit, and where. *)
From Coq Require Import ZArith Reals List Lra Lia Psatz Bool.
From Flocq Require Import Core.Core IEEE754.BinarySingleNaN.
From Flocq Require Mult_error.
From Verif Require Import Common FltModel FltFacts FltProps FExtFacts FRayModel FRayFacts FSphereProps FBoxMarginProps FMatModel FMatProps FMatBoundProps FFilmProps FQuadProps FQuadRootProps.
Import ListNotations.
Local Open Scope R_scope.

(* ----- specification ----- *)

Definition sq (v : fvec) : R := val (fx v) * val (fx v) + val (fy v) * val (fy v) + val (fz v) * val (fz v).
Definition inner (v w : fvec) : R := val (fx v) * val (fx w) + val (fy v) * val (fy w) + val (fz v) * val (fz w).
Definition finite_vec (v : fvec) : Prop := fin (fx v) /\ fin (fy v) /\ fin (fz v).

(* a ray in the space of the unit sphere: numbers, not too far, not too long or short a direction *)
Definition near_ray (r : fray) : Prop :=
  finite_vec (fr_o r) /\ finite_vec (fr_d r) /\ sq (fr_o r) <= bpow radix2 30 /\
  bpow radix2 (-20) <= sq (fr_d r) <= bpow radix2 20.

(* a quarter of the discriminant: |d|^2 times 1 minus the square of the distance of the line from the centre *)
Definition inside_by (r : fray) : R := inner (fr_d r) (fr_o r) * inner (fr_d r) (fr_o r) - sq (fr_d r) * (sq (fr_o r) - 1).

(* ----- dot products ----- *)

Lemma dot_lin : forall h p q s p' q' s1 s' s2 P Q S, 0 < h ->
  Rabs p <= P -> Rabs q <= Q -> Rabs s <= S ->
  Rabs (p' - p) <= / 16777216 * Rabs p + h -> Rabs (q' - q) <= / 16777216 * Rabs q + h -> Rabs (s' - s) <= / 16777216 * Rabs s + h ->
  Rabs (s1 - (p' + q')) <= / 16777216 * Rabs (p' + q') + h -> Rabs (s2 - (s1 + s')) <= / 16777216 * Rabs (s1 + s') + h ->
  Rabs (s2 - (p + q + s)) <= 31 / 10 * / 16777216 * (P + Q + S) + 8 * h.
Proof.
  intros h p q s p' q' s1 s' s2 P Q S H Hp Hq Hs E1 E2 E3 E4 E5.
  assert (D : forall x y X, Rabs x <= X -> Rabs (y - x) <= / 16777216 * Rabs x + h -> - (/ 16777216 * X + h) <= y - x <= / 16777216 * X + h).
  { clear - H. intros x y X A B. apply abs_both in B. lra. }
  apply (D _ _ P Hp) in E1. apply (D _ _ Q Hq) in E2. apply (D _ _ S Hs) in E3.
  pose proof (Rabs_pos p). pose proof (Rabs_pos q). pose proof (Rabs_pos s).
  apply abs_both in Hp, Hq, Hs.
  apply (D _ _ (P + Q + / 16777216 * (P + Q) + 2 * h)) in E4; [|apply Rabs_le; lra].
  set (X1 := P + Q + / 16777216 * (P + Q) + 2 * h) in *.
  apply (D _ _ (X1 + / 16777216 * X1 + h + S + / 16777216 * S + h)) in E5; [|apply Rabs_le; unfold X1 in *; lra].
  unfold X1 in *. clear X1 D. apply Rabs_le. lra.
Qed.

Definition span (v w : fvec) : R := Rabs (val (fx v) * val (fx w)) + Rabs (val (fy v) * val (fy w)) + Rabs (val (fz v) * val (fz w)).

Lemma dot_error : forall v w, finite_vec v -> finite_vec w -> span v w <= bpow radix2 60 ->
  fin (fv_dot v w) /\ Rabs (val (fv_dot v w)) <= bpow radix2 64 /\
  Rabs (val (fv_dot v w) - inner v w) <= 31 / 10 * u24 * span v w + 8 * h150.
Proof.
  intros v w (F1 & F2 & F3) (G1 & G2 & G3) B. unfold span in B. unfold fv_dot.
  pose proof (Rabs_pos (val (fx v) * val (fx w))) as P1. pose proof (Rabs_pos (val (fy v) * val (fy w))) as P2.
  pose proof (Rabs_pos (val (fz v) * val (fz w))) as P3.
  assert (B1 : Rabs (val (fx v) * val (fx w)) <= bpow radix2 60) by lra. assert (B2 : Rabs (val (fy v) * val (fy w)) <= bpow radix2 60) by lra.
  assert (B3 : Rabs (val (fz v) * val (fz w)) <= bpow radix2 60) by lra.
  destruct (fmul_val (fx v) (fx w) F1 G1) as (M1 & V1); [apply (small_127 _ 60); [lia|exact B1]|].
  destruct (fmul_val (fy v) (fy w) F2 G2) as (M2 & V2); [apply (small_127 _ 60); [lia|exact B2]|].
  destruct (fmul_val (fz v) (fz w) F3 G3) as (M3 & V3); [apply (small_127 _ 60); [lia|exact B3]|].
  assert (R1 : Rabs (val (fmul (fx v) (fx w))) <= bpow radix2 60) by (rewrite V1; apply rnd_abs; [lia|exact B1]).
  assert (R2 : Rabs (val (fmul (fy v) (fy w))) <= bpow radix2 60) by (rewrite V2; apply rnd_abs; [lia|exact B2]).
  assert (R3 : Rabs (val (fmul (fz v) (fz w))) <= bpow radix2 61) by (rewrite V3; apply rnd_abs; [lia|]; eapply Rle_trans; [exact B3|apply bpow_le; lia]).
  pose proof (sum_bound _ _ 60 R1 R2) as S1. change (60 + 1)%Z with 61%Z in S1.
  destruct (fadd_val _ _ M1 M2) as (M4 & V4); [apply (small_127 _ 61); [lia|exact S1]|].
  assert (R4 : Rabs (val (fadd (fmul (fx v) (fx w)) (fmul (fy v) (fy w)))) <= bpow radix2 61) by (rewrite V4; apply rnd_abs; [lia|exact S1]).
  pose proof (sum_bound _ _ 61 R4 R3) as S2. change (61 + 1)%Z with 62%Z in S2.
  destruct (fadd_val _ _ M4 M3) as (M5 & V5); [apply (small_127 _ 62); [lia|exact S2]|].
  split; [exact M5|]. split; [rewrite V5; eapply Rle_trans; [apply (rnd_abs _ 62); [lia|exact S2]|apply bpow_le; lia]|].
  rewrite V5. unfold inner, span.
  assert (U : forall x, Rabs (rnd x - x) <= / 16777216 * Rabs x + h150) by (intro x; apply rerr).
  assert (H : 0 < h150) by apply bpow_gt_0.
  eapply (dot_lin h150 _ _ _ (val (fmul (fx v) (fx w))) (val (fmul (fy v) (fy w))) (val (fadd (fmul (fx v) (fx w)) (fmul (fy v) (fy w))))
    (val (fmul (fz v) (fz w)))); try exact H; try apply Rle_refl.
  - rewrite V1. apply U.
  - rewrite V2. apply U.
  - rewrite V3. apply U.
  - rewrite V4. apply U.
  - apply U.
Qed.

Lemma span_self : forall v, span v v = sq v.
Proof. intro v. unfold span, sq. rewrite !Rabs_pos_eq by apply Rle_0_sqr. reflexivity. Qed.

Lemma span_square : forall v w, span v w * span v w <= sq v * sq w.
Proof.
  intros v w. unfold span, sq. rewrite !Rabs_mult.
  replace (val (fx v) * val (fx v)) with (Rabs (val (fx v)) * Rabs (val (fx v))) by (rewrite <- Rabs_mult; apply Rabs_pos_eq, Rle_0_sqr).
  replace (val (fy v) * val (fy v)) with (Rabs (val (fy v)) * Rabs (val (fy v))) by (rewrite <- Rabs_mult; apply Rabs_pos_eq, Rle_0_sqr).
  replace (val (fz v) * val (fz v)) with (Rabs (val (fz v)) * Rabs (val (fz v))) by (rewrite <- Rabs_mult; apply Rabs_pos_eq, Rle_0_sqr).
  replace (val (fx w) * val (fx w)) with (Rabs (val (fx w)) * Rabs (val (fx w))) by (rewrite <- Rabs_mult; apply Rabs_pos_eq, Rle_0_sqr).
  replace (val (fy w) * val (fy w)) with (Rabs (val (fy w)) * Rabs (val (fy w))) by (rewrite <- Rabs_mult; apply Rabs_pos_eq, Rle_0_sqr).
  replace (val (fz w) * val (fz w)) with (Rabs (val (fz w)) * Rabs (val (fz w))) by (rewrite <- Rabs_mult; apply Rabs_pos_eq, Rle_0_sqr).
  set (a := Rabs (val (fx v))). set (b := Rabs (val (fy v))). set (c := Rabs (val (fz v))).
  set (d := Rabs (val (fx w))). set (e := Rabs (val (fy w))). set (f := Rabs (val (fz w))). clearbody a b c d e f.
  pose proof (Rle_0_sqr (a * e - b * d)) as X. pose proof (Rle_0_sqr (a * f - c * d)) as Y. pose proof (Rle_0_sqr (b * f - c * e)) as Z. unfold Rsqr in *. lra.
Qed.

Lemma span_pos : forall v w, 0 <= span v w.
Proof. intros. unfold span. pose proof (Rabs_pos (val (fx v) * val (fx w))). pose proof (Rabs_pos (val (fy v) * val (fy w))). pose proof (Rabs_pos (val (fz v) * val (fz w))). lra. Qed.

Lemma inner_span : forall v w, Rabs (inner v w) <= span v w.
Proof. intros. unfold inner, span. eapply Rle_trans; [apply Rabs_triang|]. apply Rplus_le_compat_r, Rabs_triang. Qed.

Lemma sq_pos : forall v, 0 <= sq v.
Proof. intro v. rewrite <- span_self. apply span_pos. Qed.

(* ----- the coefficients ----- *)

Definition f_a (r : fray) : f32 := fv_dot (fr_d r) (fr_d r).
Definition f_b (r : fray) : f32 := fmul (of_Z 2) (fv_dot (fr_d r) (fr_o r)).
Definition f_c (r : fray) : f32 := fsub (fv_dot (fr_o r) (fr_o r)) fone.

Lemma fits_from_one : forall w, fits w -> w = 1 \/ bpow radix2 (-24) <= Rabs (w - 1).
Proof.
  intros w F. assert (F1 : fits 1) by (apply (fits_Z 1); lia).
  assert (E : bpow radix2 0 = 1) by reflexivity.
  destruct (Rtotal_order w 1) as [L|[?|G]]; [right|left; assumption|right].
  - assert (P : w <= pred radix2 (FLT_exp (-149) 24) 1) by (apply pred_ge_gt; [apply valid32|exact F|exact F1|exact L]).
    rewrite <- E, pred_bpow in P. replace (FLT_exp (-149) 24 0) with (-24)%Z in P by reflexivity. rewrite E in P.
    rewrite Rabs_left by lra. lra.
  - assert (P : succ radix2 (FLT_exp (-149) 24) 1 <= w) by (apply succ_le_lt; [apply valid32|exact F1|exact F|exact G]).
    rewrite succ_eq_pos in P by lra. rewrite <- E, ulp_bpow in P. replace (FLT_exp (-149) 24 (0 + 1)) with (-23)%Z in P by reflexivity. rewrite E in P.
    rewrite Rabs_pos_eq by lra. assert (bpow radix2 (-24) <= bpow radix2 (-23)) by (apply bpow_le; lia). lra.
Qed.

Lemma coefficients : forall r, near_ray r ->
  solvable (f_a r) (f_b r) (f_c r) /\
  Rabs (val (f_a r) - sq (fr_d r)) <= 32 / 10 * u24 * sq (fr_d r) /\
  Rabs (val (f_b r) - 2 * inner (fr_d r) (fr_o r)) <= 62 / 10 * u24 * span (fr_d r) (fr_o r) + 16 * h150 /\
  Rabs (val (f_c r) - (sq (fr_o r) - 1)) <= 42 / 10 * u24 * sq (fr_o r) + 11 / 10 * u24.
Proof.
  intros r (FO & FD & L & D1 & D2).
  pose proof (span_square (fr_d r) (fr_o r)) as SS. pose proof (span_pos (fr_d r) (fr_o r)) as SP. pose proof (sq_pos (fr_o r)) as L0.
  assert (P20 : 0 < bpow radix2 (-20)) by apply bpow_gt_0.
  assert (SB : span (fr_d r) (fr_o r) <= bpow radix2 25).
  { apply Rsqr_incr_0_var; [|apply bpow_ge_0]. unfold Rsqr. eapply Rle_trans; [exact SS|]. rewrite pow_mult.
    replace (bpow radix2 (25 + 25)) with (bpow radix2 20 * bpow radix2 30) by (rewrite <- bpow_plus; reflexivity). apply Rmult_le_compat; lra. }
  destruct (dot_error (fr_d r) (fr_d r) FD FD) as (FA & UA & EA); [rewrite span_self; eapply Rle_trans; [exact D2|apply bpow_le; lia]|].
  destruct (dot_error (fr_d r) (fr_o r) FD FO) as (FB & UB & EB); [eapply Rle_trans; [exact SB|apply bpow_le; lia]|].
  destruct (dot_error (fr_o r) (fr_o r) FO FO) as (FC & UC & EC); [rewrite span_self; eapply Rle_trans; [exact L|apply bpow_le; lia]|].
  rewrite span_self in EA, EC. change (inner (fr_d r) (fr_d r)) with (sq (fr_d r)) in EA. change (inner (fr_o r) (fr_o r)) with (sq (fr_o r)) in EC.
  destruct h150_small as (H & H16).
  assert (HT : 16 * h150 <= / 1000 * u24 * bpow radix2 (-20)).
  { rewrite H16. replace (bpow radix2 (-146)) with (bpow radix2 (-126) * bpow radix2 (-20)) by (rewrite <- bpow_plus; reflexivity).
    apply Rmult_le_compat_r; [apply bpow_ge_0|]. rewrite <- u24_bpow.
    replace (bpow radix2 (-126)) with (bpow radix2 (-102) * bpow radix2 (-24)) by (rewrite <- bpow_plus; reflexivity).
    apply Rmult_le_compat_r; [apply bpow_ge_0|]. assert (bpow radix2 (-102) <= bpow radix2 (-16)) by (apply bpow_le; lia).
    change (bpow radix2 (-16)) with (/ 65536) in H0. lra. }
  assert (HS : 16 * h150 <= / 1000 * u24) by (eapply Rle_trans; [exact HT|]; assert (bpow radix2 (-20) <= 1) by (change 1 with (bpow radix2 0); apply bpow_le; lia); unfold u24; lra).
  assert (EA' : Rabs (val (f_a r) - sq (fr_d r)) <= 32 / 10 * u24 * sq (fr_d r)).
  { eapply Rle_trans; [exact EA|]. unfold u24 in *. lra. }
  (* b: doubling is exact *)
  destruct (of_Z_exact 2 ltac:(lia)) as (F2 & V2).
  assert (UB' : Rabs (2 * val (fv_dot (fr_d r) (fr_o r))) <= bpow radix2 65).
  { replace 65%Z with (1 + 64)%Z by reflexivity. apply abs_prod; [rewrite Rabs_pos_eq by lra; apply Rle_refl|exact UB]. }
  destruct (fmul_val (of_Z 2) (fv_dot (fr_d r) (fr_o r)) F2 FB) as (FB2 & VB2); [rewrite V2; apply (small_127 _ 65); [lia|exact UB']|].
  assert (VB : val (f_b r) = 2 * val (fv_dot (fr_d r) (fr_o r))).
  { unfold f_b. rewrite VB2, V2. change 2 with (bpow radix2 1). rewrite (Rmult_comm (bpow radix2 1)). apply rnd_fits.
    apply (Mult_error.mult_bpow_pos_exact_FLT radix2 (-149) 24 _ 1); [apply fits_val|lia]. }
  assert (EB' : Rabs (val (f_b r) - 2 * inner (fr_d r) (fr_o r)) <= 62 / 10 * u24 * span (fr_d r) (fr_o r) + 16 * h150).
  { rewrite VB. replace (2 * val (fv_dot (fr_d r) (fr_o r)) - 2 * inner (fr_d r) (fr_o r)) with (2 * (val (fv_dot (fr_d r) (fr_o r)) - inner (fr_d r) (fr_o r))) by ring.
    rewrite Rabs_mult, (Rabs_pos_eq 2) by lra. lra. }
  (* c *)
  destruct fone_val as (F1 & V1).
  assert (UW : Rabs (val (fv_dot (fr_o r) (fr_o r)) - val fone) <= bpow radix2 65).
  { replace 65%Z with (64 + 1)%Z by reflexivity. apply sum_bound; [exact UC|]. rewrite V1, Rabs_Ropp, Rabs_R1. change 1 with (bpow radix2 0). apply bpow_le; lia. }
  destruct (fsub_val (fv_dot (fr_o r) (fr_o r)) fone FC F1) as (FC2 & VC2); [apply (small_127 _ 65); [lia|exact UW]|].
  rewrite V1 in VC2. set (w := val (fv_dot (fr_o r) (fr_o r))) in *.
  assert (VC : val (f_c r) = rnd (w - 1)) by exact VC2.
  assert (CC : val (f_c r) = 0 \/ bpow radix2 (-40) <= Rabs (val (f_c r))).
  { rewrite VC. destruct (fits_from_one w) as [-> | G]; [apply fits_val|left; rewrite Rminus_diag_eq, rnd_0; reflexivity|right].
    assert (bpow radix2 (-40) <= bpow radix2 (-24)) by (apply bpow_le; lia).
    destruct (Rle_dec 0 (w - 1)).
    - rewrite Rabs_pos_eq in G by assumption. apply rnd_le in G. rewrite (rnd_fits (bpow radix2 (-24))) in G by (apply fits_bpow; lia).
      pose proof (bpow_gt_0 radix2 (-24)). rewrite Rabs_pos_eq by lra. lra.
    - rewrite Rabs_left in G by lra. assert (G' : w - 1 <= - bpow radix2 (-24)) by lra. apply rnd_le in G'.
      rewrite (rnd_fits (- bpow radix2 (-24))) in G' by (apply fits_opp, fits_bpow; lia).
      pose proof (bpow_gt_0 radix2 (-24)). rewrite Rabs_left by lra. lra. }
  assert (EC' : Rabs (val (f_c r) - (sq (fr_o r) - 1)) <= 42 / 10 * u24 * sq (fr_o r) + 11 / 10 * u24).
  { rewrite VC. pose proof (rerr (w - 1)) as E. unfold u24 in *.
    assert (W : Rabs (w - 1) <= sq (fr_o r) + 1 + 31 / 10 * / 16777216 * sq (fr_o r) + 8 * h150) by (apply abs_both in EC; apply Rabs_le; lra).
    apply abs_both in E, EC. set (z := Rabs (w - 1)) in *. clearbody z. apply Rabs_le. lra. }
  split; [|auto].
  unfold solvable. split; [exact FA|]. split; [exact FB2|]. split; [exact FC2|].
  split; [|split; [|split; [|exact CC]]].
  - assert (bpow radix2 (-30) = / 1024 * bpow radix2 (-20)) by (change (/ 1024) with (bpow radix2 (-10)); rewrite <- bpow_plus; reflexivity).
    assert (bpow radix2 30 = 1024 * bpow radix2 20) by (change 1024 with (bpow radix2 10); rewrite <- bpow_plus; reflexivity).
    apply abs_both in EA'. unfold u24 in EA'. lra.
  - assert (bpow radix2 40 = 32768 * bpow radix2 25) by (change 32768 with (bpow radix2 15); rewrite <- bpow_plus; reflexivity).
    assert (1 <= bpow radix2 25) by (change 1 with (bpow radix2 0); apply bpow_le; lia).
    pose proof (inner_span (fr_d r) (fr_o r)) as I. apply abs_both in EB', I. unfold u24 in *. apply Rabs_le. lra.
  - assert (bpow radix2 40 = 1024 * bpow radix2 30) by (change 1024 with (bpow radix2 10); rewrite <- bpow_plus; reflexivity).
    assert (1 <= bpow radix2 30) by (change 1 with (bpow radix2 0); apply bpow_le; lia).
    apply abs_both in EC'. unfold u24 in *. apply Rabs_le. lra.
Qed.

(* ----- real arithmetic ----- *)

Lemma coef_bounds : forall D L P I a b c e, 0 < D -> 0 <= L -> 0 <= P -> P * P <= D * L -> Rabs I <= P ->
  Rabs (a - D) <= 32 / 10 * / 16777216 * D -> Rabs (b - 2 * I) <= 62 / 10 * / 16777216 * P + e ->
  Rabs (c - (L - 1)) <= 42 / 10 * / 16777216 * L + 11 / 10 * / 16777216 -> 0 < e -> e <= / 1000 * / 16777216 * D -> e <= / 1000 * / 16777216 ->
  9999 / 10000 * D <= a <= 10001 / 10000 * D /\ b * b <= 402 / 100 * (D * (L + 1)) /\ a * Rabs c <= 101 / 100 * (D * (L + 1)).
Proof.
  intros D L P I a b c e D0 L0 P0 PL IP Ha Hb Hc E0 E1 E2. apply abs_both in Ha, IP, Hb.
  assert (A : 9999 / 10000 * D <= a <= 10001 / 10000 * D) by lra. split; [exact A|]. split.
  - assert (B : - (2001 / 1000 * P + e) <= b <= 2001 / 1000 * P + e) by lra.
    assert (B2 : b * b <= (2001 / 1000 * P + e) * (2001 / 1000 * P + e)) by (apply (Rsqr_le_abs_1 b); rewrite (Rabs_pos_eq (_ + _)) by lra; apply Rabs_le; exact B).
    pose proof (Rle_0_sqr (P / 10 - 30 * e)) as X. unfold Rsqr in X.
    assert (EE : e * e <= / 1000 * e) by (apply Rmult_le_compat_r; lra). assert (0 <= D * L) by (apply Rmult_le_pos; lra). lra.
  - assert (C : Rabs c <= 1001 / 1000 * (L + 1)) by (apply abs_both in Hc; apply Rabs_le; lra).
    eapply Rle_trans; [apply Rmult_le_compat with (r2 := 10001 / 10000 * D); [lra|apply Rabs_pos|apply A|exact C]|].
    assert (0 <= D * (L + 1)) by (apply Rmult_le_pos; lra). lra.
Qed.

Lemma on_exact : forall D L P I a b c e t k, 0 < D -> 0 <= L -> 0 <= P -> P * P <= D * L -> Rabs I <= P ->
  Rabs (a - D) <= 32 / 10 * / 16777216 * D -> Rabs (b - 2 * I) <= 62 / 10 * / 16777216 * P + e ->
  Rabs (c - (L - 1)) <= 42 / 10 * / 16777216 * L + 11 / 10 * / 16777216 -> 0 < e -> e <= / 1000 * / 16777216 * D -> e <= / 1000 * / 16777216 ->
  0 <= k <= 26 / 1000000 ->
  a * Rabs (a * t * t + b * t + c) <= / 16777216 * (24 * (b * b) + 44 * (a * Rabs c)) + e + k ->
  (D * t) * (D * t) <= 61 / 10 * (D * (L + 1)) + 53 / 1000000 /\
  D * Rabs (D * t * t + 2 * I * t + (L - 1)) <= 190 * / 16777216 * (D * (L + 1)) + 262 / 10000000.
Proof.
  intros D L P I a b c e t k D0 L0 P0 PL IP Ha Hb Hc E0 E1 E2 K R.
  destruct (coef_bounds D L P I a b c e D0 L0 P0 PL IP Ha Hb Hc E0 E1 E2) as (A & B & C).
  assert (DL : 0 <= D * L) by (apply Rmult_le_pos; lra).
  set (F := a * t * t + b * t + c) in *.
  assert (R2 : a * Rabs F <= 142 * / 16777216 * (D * (L + 1)) + 26 / 1000000) by lra.
  pose proof (Rabs_pos F) as F0.
  assert (T1 : (a * t) * (a * t) <= 2 * (a * Rabs F) + b * b + 2 * (a * Rabs c)).
  { assert (E : (a * t) * (a * t) = a * F - b * (a * t) - a * c) by (unfold F; ring).
    assert (X : a * F <= a * Rabs F) by (apply Rmult_le_compat_l; [lra|apply Rle_abs]).
    assert (Y : - (a * c) <= a * Rabs c) by (rewrite <- Rabs_Ropp; replace (- (a * c)) with (a * - c) by ring; apply Rmult_le_compat_l; [lra|apply Rle_abs]).
    pose proof (Rle_0_sqr (b + a * t)) as Z. unfold Rsqr in Z. lra. }
  assert (T2 : (D * t) * (D * t) <= 61 / 10 * (D * (L + 1)) + 53 / 1000000).
  { assert (S : (9999 / 10000 * (D * t)) * (9999 / 10000 * (D * t)) <= (a * t) * (a * t)).
    { replace (9999 / 10000 * (D * t) * (9999 / 10000 * (D * t))) with ((9999 / 10000 * D) * (9999 / 10000 * D) * (t * t)) by ring.
      replace (a * t * (a * t)) with (a * a * (t * t)) by ring. apply Rmult_le_compat_r; [apply Rle_0_sqr|]. apply Rmult_le_compat; lra. }
    lra. }
  split; [exact T2|].
  assert (G : D * Rabs (D * t * t + 2 * I * t + (L - 1) - F) <= 64 / 10 * / 16777216 * ((D * t) * (D * t)) + 74 / 10 * / 16777216 * (D * (L + 1))).
  { replace (D * t * t + 2 * I * t + (L - 1) - F) with (- ((a - D) * (t * t) + (b - 2 * I) * t + (c - (L - 1)))) by (unfold F; ring). rewrite Rabs_Ropp.
    eapply Rle_trans; [apply Rmult_le_compat_l; [lra|]; eapply Rle_trans; [apply Rabs_triang|apply Rplus_le_compat_r, Rabs_triang]|].
    rewrite !Rabs_mult, !Rmult_plus_distr_l.
    assert (tt : 0 <= Rabs t * Rabs t) by apply Rle_0_sqr.
    assert (X1 : D * (Rabs (a - D) * (Rabs t * Rabs t)) <= 32 / 10 * / 16777216 * ((D * t) * (D * t))).
    { replace ((D * t) * (D * t)) with (D * (D * (Rabs t * Rabs t))) by (rewrite <- Rabs_mult, (Rabs_pos_eq (t * t)) by apply Rle_0_sqr; ring).
      replace (32 / 10 * / 16777216 * (D * (D * (Rabs t * Rabs t)))) with (D * (32 / 10 * / 16777216 * D * (Rabs t * Rabs t))) by ring.
      apply Rmult_le_compat_l; [lra|]. apply Rmult_le_compat_r; assumption. }
    assert (PT : P * (D * Rabs t) <= / 2 * (D * L + (D * t) * (D * t))).
    { pose proof (Rle_0_sqr (P - D * Rabs t)) as Z. unfold Rsqr in Z.
      replace ((D * t) * (D * t)) with ((D * Rabs t) * (D * Rabs t)) by (replace (D * Rabs t * (D * Rabs t)) with (D * D * (Rabs t * Rabs t)) by ring; rewrite <- Rabs_mult, (Rabs_pos_eq (t * t)) by apply Rle_0_sqr; ring). lra. }
    assert (ET : e * (D * Rabs t) <= / 1000 * / 16777216 * D + / 1000 * / 16777216 * ((D * t) * (D * t))).
    { assert (Y : D * Rabs t <= 1 + (D * t) * (D * t)).
      { pose proof (Rle_0_sqr (D * Rabs t - 1)) as Z. unfold Rsqr in Z.
        replace ((D * t) * (D * t)) with ((D * Rabs t) * (D * Rabs t)) by (replace (D * Rabs t * (D * Rabs t)) with (D * D * (Rabs t * Rabs t)) by ring; rewrite <- Rabs_mult, (Rabs_pos_eq (t * t)) by apply Rle_0_sqr; ring).
        pose proof (Rmult_le_pos D (Rabs t) (Rlt_le _ _ D0) (Rabs_pos t)). lra. }
      eapply Rle_trans; [apply Rmult_le_compat_l; [lra|exact Y]|].
      assert (Q : 0 <= (D * t) * (D * t)) by apply Rle_0_sqr.
      assert (e * ((D * t) * (D * t)) <= / 1000 * / 16777216 * ((D * t) * (D * t))) by (apply Rmult_le_compat_r; lra). lra. }
    assert (X2 : D * (Rabs (b - 2 * I) * Rabs t) <= 62 / 10 * / 16777216 * (P * (D * Rabs t)) + e * (D * Rabs t)).
    { replace (D * (Rabs (b - 2 * I) * Rabs t)) with (Rabs (b - 2 * I) * (D * Rabs t)) by ring.
      replace (62 / 10 * / 16777216 * (P * (D * Rabs t)) + e * (D * Rabs t)) with ((62 / 10 * / 16777216 * P + e) * (D * Rabs t)) by ring.
      apply Rmult_le_compat_r; [apply Rmult_le_pos; [lra|apply Rabs_pos]|exact Hb]. }
    assert (X3 : D * Rabs (c - (L - 1)) <= 42 / 10 * / 16777216 * (D * L) + 11 / 10 * / 16777216 * D).
    { replace (42 / 10 * / 16777216 * (D * L) + 11 / 10 * / 16777216 * D) with (D * (42 / 10 * / 16777216 * L + 11 / 10 * / 16777216)) by ring. apply Rmult_le_compat_l; [lra|exact Hc]. }
    assert (Q : 0 <= (D * t) * (D * t)) by apply Rle_0_sqr. lra. }
  assert (H : Rabs (D * t * t + 2 * I * t + (L - 1)) <= Rabs (D * t * t + 2 * I * t + (L - 1) - F) + Rabs F).
  { replace (D * t * t + 2 * I * t + (L - 1)) with ((D * t * t + 2 * I * t + (L - 1) - F) + F) at 1 by ring. apply Rabs_triang. }
  apply (Rmult_le_compat_l D) in H; [|lra]. rewrite Rmult_plus_distr_l in H.
  assert (DF : D * Rabs F <= 10002 / 10000 * (a * Rabs F)).
  { rewrite <- Rmult_assoc. apply Rmult_le_compat_r; [exact F0|]. lra. }
  lra.
Qed.

(* ----- the point that is reported ----- *)

Lemma apply_coord : forall o d t, fin o -> fin d -> fin t -> Rabs (val o) <= bpow radix2 60 -> Rabs (val d * val t) <= bpow radix2 60 ->
  let p := fadd o (fmul d t) in
  fin p /\ Rabs (val p - (val o + val d * val t)) <= / 16777216 * Rabs (val o + val d * val t) + 101 / 100 * / 16777216 * Rabs (val d * val t) + 3 * h150.
Proof.
  intros o d t FO FD FT BO BD p.
  destruct (fmul_val d t FD FT) as (M & V); [apply (small_127 _ 60); [lia|exact BD]|].
  assert (RB : Rabs (val (fmul d t)) <= bpow radix2 60) by (rewrite V; apply rnd_abs; [lia|exact BD]).
  destruct (fadd_val o (fmul d t) FO M) as (FP & VP); [apply (small_127 _ 61); [lia|]; apply (sum_bound _ _ 60); assumption|].
  split; [exact FP|]. unfold p. rewrite VP.
  pose proof (rerr (val d * val t)) as E1. rewrite <- V in E1. pose proof (rerr (val o + val (fmul d t))) as E2. unfold u24 in E1, E2.
  assert (H : 0 < h150) by apply bpow_gt_0.
  set (q := val d * val t) in *. set (m := val (fmul d t)) in *. set (z := val o) in *.
  assert (E3 : Rabs (z + m) <= Rabs (z + q) + Rabs (m - q)) by (replace (z + m) with (z + q + (m - q)) by ring; apply Rabs_triang).
  assert (E4 : Rabs (rnd (z + m) - (z + q)) <= Rabs (rnd (z + m) - (z + m)) + Rabs (m - q)).
  { replace (rnd (z + m) - (z + q)) with (rnd (z + m) - (z + m) + (m - q)) by ring. apply Rabs_triang. }
  pose proof (Rabs_pos q). pose proof (Rabs_pos (z + q)).
  set (g := Rabs (rnd (z + m) - (z + q))) in *. set (g1 := Rabs (rnd (z + m) - (z + m))) in *. set (g2 := Rabs (m - q)) in *.
  set (g3 := Rabs (z + m)) in *. set (g4 := Rabs (z + q)) in *. set (g5 := Rabs q) in *.
  clearbody g g1 g2 g3 g4 g5. clear - E1 E2 E3 E4 H H0 H1. lra.
Qed.

Lemma square_near : forall p e q h, 0 < h -> h <= / 16777216 * / 16777216 ->
  Rabs (p - e) <= / 16777216 * Rabs e + 101 / 100 * / 16777216 * Rabs q + 3 * h ->
  Rabs (p * p - e * e) <= 31 / 10 * / 16777216 * (e * e) + 11 / 10 * / 16777216 * (q * q) + 4 * h.
Proof.
  intros p e q h H0 H1 E.
  replace (p * p - e * e) with ((p - e) * (2 * e + (p - e))) by ring. rewrite Rabs_mult.
  assert (B : Rabs (2 * e + (p - e)) <= 2 * Rabs e + Rabs (p - e)) by (eapply Rle_trans; [apply Rabs_triang|]; rewrite (Rabs_mult 2 e), (Rabs_pos_eq 2) by lra; apply Rle_refl).
  replace (e * e) with (Rabs e * Rabs e) by (rewrite <- Rabs_mult; apply Rabs_pos_eq, Rle_0_sqr).
  replace (q * q) with (Rabs q * Rabs q) by (rewrite <- Rabs_mult; apply Rabs_pos_eq, Rle_0_sqr).
  pose proof (Rabs_pos e) as P1. pose proof (Rabs_pos q) as P2. pose proof (Rabs_pos (p - e)) as P3.
  eapply Rle_trans; [apply Rmult_le_compat_l; [exact P3|exact B]|].
  set (x := Rabs e) in *. set (y := Rabs q) in *. set (z := Rabs (p - e)) in *. clearbody x y z. clear B p e q.
  assert (ZX : z * x <= (/ 16777216 * x + 101 / 100 * / 16777216 * y + 3 * h) * x) by (apply Rmult_le_compat_r; assumption).
  assert (ZZ : z * z <= (/ 16777216 * x + 101 / 100 * / 16777216 * y + 3 * h) * (/ 16777216 * x + 101 / 100 * / 16777216 * y + 3 * h)) by (apply Rmult_le_compat; assumption).
  pose proof (Rle_0_sqr (x - y)) as S1. unfold Rsqr in S1.
  pose proof (Rle_0_sqr x) as SX. pose proof (Rle_0_sqr y) as SY. unfold Rsqr in SX, SY.
  assert (XY : x * y <= / 2 * (x * x + y * y)) by lra.
  assert (HX : h * x <= / 2 * h + / 2 * (/ 16777216 * / 16777216) * (x * x)).
  { assert (x <= / 2 * (1 + x * x)) by (pose proof (Rle_0_sqr (x - 1)) as S2; unfold Rsqr in S2; lra).
    assert (h * x <= h * (/ 2 * (1 + x * x))) by (apply Rmult_le_compat_l; lra).
    assert (h * (x * x) <= / 16777216 * / 16777216 * (x * x)) by (apply Rmult_le_compat_r; lra). lra. }
  assert (HY : h * y <= / 2 * h + / 2 * (/ 16777216 * / 16777216) * (y * y)).
  { assert (y <= / 2 * (1 + y * y)) by (pose proof (Rle_0_sqr (y - 1)) as S2; unfold Rsqr in S2; lra).
    assert (h * y <= h * (/ 2 * (1 + y * y))) by (apply Rmult_le_compat_l; lra).
    assert (h * (y * y) <= / 16777216 * / 16777216 * (y * y)) by (apply Rmult_le_compat_r; lra). lra. }
  assert (HH : h * h <= / 16777216 * / 16777216 * h) by (apply Rmult_le_compat_r; lra).
  lra.
Qed.

Lemma ray_hit : forall r distance t p, f_sphere r distance = Some (t, p) ->
  exists s1 s2, f_equation2 (f_a r) (f_b r) (f_c r) = Some (s1, s2) /\ (t = s1 \/ t = s2) /\ flt distance t = false /\ flt t f_self = false /\ p = f_apply r t.
Proof.
  intros r distance t p. unfold f_sphere. fold (f_a r) (f_b r) (f_c r). cbv zeta.
  destruct (f_equation2 (f_a r) (f_b r) (f_c r)) as [[s1 s2]|] eqn:E; [|discriminate].
  intro H. exists s1, s2. split; [reflexivity|].
  destruct (flt s2 s1); cbn [fst snd] in H.
  - destruct (flt distance s2) eqn:E1; [discriminate|]. destruct (flt s2 f_self) eqn:E2.
    + destruct (flt s1 f_self) eqn:E3; [discriminate|]. cbn [orb] in H. destruct (flt distance s1) eqn:E4; [discriminate|]. injection H as <- <-. auto.
    + injection H as <- <-. auto.
  - destruct (flt distance s1) eqn:E1; [discriminate|]. destruct (flt s1 f_self) eqn:E2.
    + destruct (flt s2 f_self) eqn:E3; [discriminate|]. cbn [orb] in H. destruct (flt distance s2) eqn:E4; [discriminate|]. injection H as <- <-. auto.
    + injection H as <- <-. auto.
Qed.

Lemma coord_small : forall v k, sq v <= bpow radix2 (k + k) -> Rabs (val (fx v)) <= bpow radix2 k /\ Rabs (val (fy v)) <= bpow radix2 k /\ Rabs (val (fz v)) <= bpow radix2 k.
Proof.
  intros v k H. unfold sq in H. pose proof (Rle_0_sqr (val (fx v))) as X. pose proof (Rle_0_sqr (val (fy v))) as Y. pose proof (Rle_0_sqr (val (fz v))) as Z. unfold Rsqr in *.
  rewrite bpow_plus in H. pose proof (bpow_ge_0 radix2 k) as P.
  assert (G : forall x, x * x <= bpow radix2 k * bpow radix2 k -> Rabs x <= bpow radix2 k).
  { intros x Q. rewrite <- (Rabs_pos_eq (bpow radix2 k)) by exact P. apply Rsqr_le_abs_0. exact Q. }
  split; [|split]; apply G; lra.
Qed.

(* what is called a hit lies on the sphere: up to 2^-16 of the square of how far away the ray
   starts, and, for a direction of length one, to 27 millionths (which grazing rays need) *)
Theorem float_sphere_on : forall r distance t p, near_ray r -> f_sphere r distance = Some (t, p) ->
  fin t /\ finite_vec p /\ val f_self <= val t /\ (fin distance -> val t <= val distance) /\
  (forall k, Rabs (val (fcoord k p) - (val (fcoord k (fr_o r)) + val (fcoord k (fr_d r)) * val t)) <=
     / 16777216 * Rabs (val (fcoord k (fr_o r)) + val (fcoord k (fr_d r)) * val t) + 101 / 100 * / 16777216 * Rabs (val (fcoord k (fr_d r)) * val t) + bpow radix2 (-148)) /\
  sq (fr_d r) * Rabs (sq p - 1) <= / 65536 * (sq (fr_d r) * (sq (fr_o r) + 1)) + 27 / 1000000.
Proof.
  intros r distance t p N H. destruct (ray_hit _ _ _ _ H) as (s1 & s2 & E & T & H1 & H2 & ->). clear H.
  destruct (coefficients r N) as (S & CA & CB & CC). destruct (float_equation2_roots _ _ _ _ _ S E) as (FS1 & FS2 & RS). clear E.
  assert (FT : fin t) by (destruct T; subst t; assumption).
  assert (RT : residual (f_a r) (f_b r) (f_c r) t <= tolerance (f_a r) (f_b r) (f_c r) + 26 / 1000000).
  { destruct RS as [(-> & _ & R)|(R1 & R2)]; [destruct T; subst t; exact R|]. destruct T; subst t; lra. }
  clear RS T FS1 FS2 s1 s2.
  destruct N as (FO & FD & L & D1 & D2).
  pose proof (span_square (fr_d r) (fr_o r)) as SS. pose proof (span_pos (fr_d r) (fr_o r)) as SP. pose proof (sq_pos (fr_o r)) as L0. pose proof (inner_span (fr_d r) (fr_o r)) as IS.
  assert (P20 : 0 < bpow radix2 (-20)) by apply bpow_gt_0.
  destruct h150_small as (HP & H16).
  assert (HT : bpow radix2 (-140) <= / 1000 * u24 * bpow radix2 (-20)).
  { replace (bpow radix2 (-140)) with (bpow radix2 (-96) * bpow radix2 (-24) * bpow radix2 (-20)) by (rewrite <- !bpow_plus; reflexivity).
    apply Rmult_le_compat_r; [apply bpow_ge_0|]. rewrite <- u24_bpow.
    apply Rmult_le_compat_r; [apply bpow_ge_0|]. assert (Q : bpow radix2 (-96) <= bpow radix2 (-16)) by (apply bpow_le; lia).
    change (bpow radix2 (-16)) with (/ 65536) in Q. lra. }
  assert (H40 : 16 * h150 <= bpow radix2 (-140)) by (rewrite H16; apply bpow_le; lia).
  assert (ED : bpow radix2 (-140) <= / 1000 * / 16777216 * sq (fr_d r)) by (unfold u24 in HT; lra).
  assert (E1 : bpow radix2 (-140) <= / 1000 * / 16777216).
  { assert (bpow radix2 (-20) <= 1) by (change 1 with (bpow radix2 0); apply bpow_le; lia). unfold u24 in HT. lra. }
  assert (E0 : 0 < bpow radix2 (-140)) by apply bpow_gt_0.
  unfold residual, tolerance, u24 in *.
  set (D := sq (fr_d r)) in *. set (Lo := sq (fr_o r)) in *. set (P := span (fr_d r) (fr_o r)) in *.
  destruct (on_exact D Lo P (inner (fr_d r) (fr_o r)) (val (f_a r)) (val (f_b r)) (val (f_c r)) (bpow radix2 (-140)) (val t) (26 / 1000000)) as (DT & G);
    try assumption; try lra.
  assert (D0 : 0 < D) by lra.
  assert (EQ : D * val t * val t + 2 * inner (fr_d r) (fr_o r) * val t + (Lo - 1) =
    (val (fx (fr_o r)) + val (fx (fr_d r)) * val t) * (val (fx (fr_o r)) + val (fx (fr_d r)) * val t) +
    (val (fy (fr_o r)) + val (fy (fr_d r)) * val t) * (val (fy (fr_o r)) + val (fy (fr_d r)) * val t) +
    (val (fz (fr_o r)) + val (fz (fr_d r)) * val t) * (val (fz (fr_o r)) + val (fz (fr_d r)) * val t) - 1) by (unfold D, Lo, sq, inner; ring).
  rewrite EQ in G. clear EQ.
  destruct (coord_small (fr_o r) 15 L) as (BO1 & BO2 & BO3). destruct (coord_small (fr_d r) 10 D2) as (BD1 & BD2 & BD3).
  (* the distance is bounded *)
  assert (TB : Rabs (val t) <= bpow radix2 50).
  { rewrite <- (Rabs_pos_eq (bpow radix2 50)) by apply bpow_ge_0. apply Rsqr_le_abs_0. unfold Rsqr.
    apply (Rmult_le_reg_l (D * D)); [apply Rmult_lt_0_compat; exact D0|].
    replace (D * D * (val t * val t)) with (D * val t * (D * val t)) by ring. eapply Rle_trans; [exact DT|].
    assert (X : 61 / 10 * (D * (Lo + 1)) <= D * bpow radix2 33).
    { replace (61 / 10 * (D * (Lo + 1))) with (D * (61 / 10 * (Lo + 1))) by ring. apply Rmult_le_compat_l; [lra|].
      replace (bpow radix2 33) with (8 * bpow radix2 30) by (change 8 with (bpow radix2 3); rewrite <- bpow_plus; reflexivity).
      assert (1024 <= bpow radix2 30) by (change 1024 with (bpow radix2 10); apply bpow_le; lia). lra. }
    assert (Y : 53 / 1000000 <= D * bpow radix2 33).
    { assert (Z : bpow radix2 (-20) * bpow radix2 33 <= D * bpow radix2 33) by (apply Rmult_le_compat_r; [apply bpow_ge_0|lra]).
      rewrite pow_mult in Z. change (bpow radix2 (-20 + 33)) with 8192 in Z. lra. }
    assert (Z : bpow radix2 (-20) * (bpow radix2 50 * bpow radix2 50) <= D * (bpow radix2 50 * bpow radix2 50)) by (apply Rmult_le_compat_r; [apply Rmult_le_pos; apply bpow_ge_0|lra]).
    rewrite (Rmult_assoc D D). 
    assert (W : D * (2 * bpow radix2 33) <= D * (D * (bpow radix2 50 * bpow radix2 50))).
    { apply Rmult_le_compat_l; [lra|]. eapply Rle_trans; [|exact Z]. change 2 with (bpow radix2 1). rewrite !pow_mult. apply bpow_le; lia. }
    lra. }
  assert (PB : forall x, Rabs x <= bpow radix2 10 -> Rabs (x * val t) <= bpow radix2 60) by (intros x B; replace 60%Z with (10 + 50)%Z by reflexivity; apply abs_prod; assumption).
  assert (OB : forall x, Rabs x <= bpow radix2 15 -> Rabs x <= bpow radix2 60) by (intros x B; eapply Rle_trans; [exact B|apply bpow_le; lia]).
  destruct FO as (FO1 & FO2 & FO3). destruct FD as (FD1 & FD2 & FD3).
  destruct (apply_coord _ _ t FO1 FD1 FT (OB _ BO1) (PB _ BD1)) as (K1 & A1).
  destruct (apply_coord _ _ t FO2 FD2 FT (OB _ BO2) (PB _ BD2)) as (K2 & A2).
  destruct (apply_coord _ _ t FO3 FD3 FT (OB _ BO3) (PB _ BD3)) as (K3 & A3).
  assert (H148 : 3 * h150 <= bpow radix2 (-148)).
  { replace (bpow radix2 (-148)) with (4 * h150); [lra|]. unfold h150. change 4 with (bpow radix2 2). rewrite <- bpow_plus. reflexivity. }
  split; [exact FT|]. split; [unfold finite_vec, f_apply; cbn [fx fy fz fcoord]; auto|].
  split; [assert (FS : fin f_self) by (vm_compute; reflexivity); apply Rnot_lt_le; intro Q; apply (flt_val _ _ FT FS) in Q; congruence|].
  split; [intro FDi; apply Rnot_lt_le; intro Q; apply (flt_val _ _ FDi FT) in Q; congruence|].
  split; [intros [|[|k]]; unfold f_apply; cbn [fcoord fx fy fz]; lra|].
  assert (HS : h150 <= / 16777216 * / 16777216).
  { unfold h150. replace (/ 16777216 * / 16777216) with (bpow radix2 (-48)). apply bpow_le; lia. change (/ 16777216) with (bpow radix2 (-24)). rewrite <- bpow_plus. reflexivity. }
  apply (square_near _ _ _ _ HP HS) in A1, A2, A3.
  unfold f_apply, sq. cbn [fcoord fx fy fz].
  set (e1 := val (fx (fr_o r)) + val (fx (fr_d r)) * val t) in *. set (e2 := val (fy (fr_o r)) + val (fy (fr_d r)) * val t) in *. set (e3 := val (fz (fr_o r)) + val (fz (fr_d r)) * val t) in *.
  set (p1 := val (fadd (fx (fr_o r)) (fmul (fx (fr_d r)) t))) in *. set (p2 := val (fadd (fy (fr_o r)) (fmul (fy (fr_d r)) t))) in *. set (p3 := val (fadd (fz (fr_o r)) (fmul (fz (fr_d r)) t))) in *.
  assert (QQ : D * (val (fx (fr_d r)) * val t * (val (fx (fr_d r)) * val t) + val (fy (fr_d r)) * val t * (val (fy (fr_d r)) * val t) + val (fz (fr_d r)) * val t * (val (fz (fr_d r)) * val t)) = D * val t * (D * val t)).
  { unfold D, sq. ring. }
  set (q1 := val (fx (fr_d r)) * val t * (val (fx (fr_d r)) * val t)) in *. set (q2 := val (fy (fr_d r)) * val t * (val (fy (fr_d r)) * val t)) in *. set (q3 := val (fz (fr_d r)) * val t * (val (fz (fr_d r)) * val t)) in *.
  set (Tq := D * val t * (D * val t)) in *.
  assert (BIG : Rabs (p1 * p1 + p2 * p2 + p3 * p3 - 1) <= Rabs (e1 * e1 + e2 * e2 + e3 * e3 - 1) + (31 / 10 * / 16777216 * (1 + Rabs (e1 * e1 + e2 * e2 + e3 * e3 - 1)) + 11 / 10 * / 16777216 * (q1 + q2 + q3) + 12 * h150)).
  { pose proof (Rle_abs (e1 * e1 + e2 * e2 + e3 * e3 - 1)) as RA.
    assert (TR : Rabs (p1 * p1 + p2 * p2 + p3 * p3 - 1) <= Rabs (e1 * e1 + e2 * e2 + e3 * e3 - 1) + (Rabs (p1 * p1 - e1 * e1) + Rabs (p2 * p2 - e2 * e2) + Rabs (p3 * p3 - e3 * e3))).
    { replace (p1 * p1 + p2 * p2 + p3 * p3 - 1) with ((e1 * e1 + e2 * e2 + e3 * e3 - 1) + ((p1 * p1 - e1 * e1) + (p2 * p2 - e2 * e2) + (p3 * p3 - e3 * e3))) by ring.
      eapply Rle_trans; [apply Rabs_triang|]. apply Rplus_le_compat_l. eapply Rle_trans; [apply Rabs_triang|]. apply Rplus_le_compat_r, Rabs_triang. }
    clear - TR RA A1 A2 A3. lra. }
  apply (Rmult_le_compat_l D) in BIG; [|lra]. eapply Rle_trans; [exact BIG|].
  set (z := Rabs (e1 * e1 + e2 * e2 + e3 * e3 - 1)) in *.
  replace (D * (z + (31 / 10 * / 16777216 * (1 + z) + 11 / 10 * / 16777216 * (q1 + q2 + q3) + 12 * h150))) with
    (D * z + 31 / 10 * / 16777216 * (D + D * z) + 11 / 10 * / 16777216 * (D * (q1 + q2 + q3)) + 12 * (h150 * D)) by ring.
  rewrite QQ. assert (HD : h150 * D <= / 16777216 * D) by (apply Rmult_le_compat_r; lra).
  assert (DLo : 0 <= D * Lo) by (apply Rmult_le_pos; lra).
  clearbody z Tq. clear - G DT HD D0 DLo HP. rewrite Rmult_plus_distr_l in *. lra.
Qed.
Print Assumptions float_sphere_on.
