(* The fraction of light reflected in single precision: it is a fraction. *)
From Coq Require Import ZArith Reals List Lra Lia Bool.
From Flocq Require Import Core.Core IEEE754.BinarySingleNaN.
From Flocq Require Mult_error.
From Verif Require Import Common FltModel FltFacts FltProps FExtFacts FRayModel FRayFacts FSphereProps FBoxMarginProps FMatProps FMatBoundProps FFilmProps FQuadProps FQuadRootProps FFresModel.
Import ListNotations.
Local Open Scope R_scope.

(* ----- dielectrics ----- *)

(* indices of refraction between 2^-20 and 2^20 *)
Definition index (e : f32) : Prop := fin e /\ bpow radix2 (-20) <= val e <= bpow radix2 20.

Lemma rnd_nonneg : forall x, 0 <= x -> 0 <= rnd x.
Proof. intros x H. rewrite <- rnd_0. apply rnd_le; exact H. Qed.

Lemma rnd_neg : forall x, rnd (- x) = - rnd x.
Proof. intro x. unfold rnd. apply round_NE_opp. Qed.

Lemma rnd_abs_le : forall x y, Rabs x <= y -> Rabs (rnd x) <= rnd y.
Proof.
  intros x y H. apply Rabs_le. apply abs_both in H. split; [rewrite <- rnd_neg|]; apply rnd_le; lra.
Qed.

Lemma rnd_one : rnd 1 = 1.
Proof. apply rnd_fits. change 1 with (IZR 1). apply fits_Z. cbn; lia. Qed.

Lemma unit_ratio : forall x y, Rabs x <= y -> 0 < y -> Rabs (x / y) <= 1.
Proof.
  intros x y H P. unfold Rdiv. rewrite Rabs_mult, (Rabs_pos_eq (/ y)) by (left; apply Rinv_0_lt_compat; exact P).
  apply (Rmult_le_reg_r y); [exact P|]. rewrite Rmult_assoc, Rinv_l, Rmult_1_r, Rmult_1_l by lra. exact H.
Qed.

Lemma one_127 : forall x, Rabs x <= 1 -> Rabs x <= bpow radix2 127.
Proof. intros x H. apply (small_127 _ 0); [lia|exact H]. Qed.

(* the amplitude of one polarisation *)
Lemma amplitude : forall x y, fin x -> fin y -> 0 <= val x <= bpow radix2 60 -> 0 < val y <= bpow radix2 60 ->
  fin (fdiv (fsub x y) (fadd x y)) /\ Rabs (val (fdiv (fsub x y) (fadd x y))) <= 1.
Proof.
  intros x y FX FY X Y.
  assert (D : Rabs (val x - val y) <= val x + val y) by (apply Rabs_le; lra).
  assert (B : Rabs (val x + val y) <= bpow radix2 127).
  { apply (small_127 _ 61); [lia|]. rewrite Rabs_pos_eq by lra. change 61%Z with (60 + 1)%Z. rewrite bpow_plus. change (bpow radix2 1) with 2. lra. }
  destruct (fadd_val x y FX FY B) as (FS & VS).
  destruct (fsub_val x y FX FY) as (FD & VD). { eapply Rle_trans; [exact D|]. rewrite Rabs_pos_eq in B by lra. exact B. }
  assert (P : 0 < val (fadd x y)).
  { rewrite VS. apply Rlt_le_trans with (val y); [lra|]. rewrite <- (rnd_fits (val y)) at 1 by apply fits_val. apply rnd_le; lra. }
  assert (Q : Rabs (val (fsub x y) / val (fadd x y)) <= 1).
  { apply unit_ratio; [|exact P]. rewrite VD, VS. apply rnd_abs_le; exact D. }
  destruct (fdiv_val (fsub x y) (fadd x y) FD) as (FQ & VQ); [lra|apply one_127; exact Q|].
  split; [exact FQ|]. rewrite VQ, <- rnd_one. apply rnd_abs_le; exact Q.
Qed.

Lemma mean_fraction : forall a b, fin a -> fin b -> Rabs (val a) <= 1 -> Rabs (val b) <= 1 ->
  fin (fdiv (fadd (fmul a a) (fmul b b)) (of_Z 2)) /\ 0 <= val (fdiv (fadd (fmul a a) (fmul b b)) (of_Z 2)) <= 1.
Proof.
  assert (SQ : forall a, fin a -> Rabs (val a) <= 1 -> fin (fmul a a) /\ 0 <= val (fmul a a) <= 1).
  { intros a FA A. assert (S : Rabs (val a * val a) <= 1).
    { rewrite Rabs_mult. replace 1 with (1 * 1) by ring. apply Rmult_le_compat; try apply Rabs_pos; exact A. }
    destruct (fmul_val a a FA FA) as (F & V); [apply one_127; exact S|]. split; [exact F|]. rewrite V. split.
    - apply rnd_nonneg. apply Rle_0_sqr.
    - rewrite <- rnd_one. apply rnd_le. apply abs_both in S. lra. }
  intros a b FA FB A B. destruct (SQ a FA A) as (FA2 & A2). destruct (SQ b FB B) as (FB2 & B2).
  destruct (fadd_val _ _ FA2 FB2) as (FS & VS). { apply (small_127 _ 1); [lia|]. change (bpow radix2 1) with 2. rewrite Rabs_pos_eq; lra. }
  assert (S2 : 0 <= val (fadd (fmul a a) (fmul b b)) <= 2).
  { rewrite VS. split; [apply rnd_nonneg; lra|]. rewrite <- (rnd_fits 2) by (change 2 with (IZR 2); apply fits_Z; cbn; lia). apply rnd_le; lra. }
  destruct (of_Z_exact 2) as (F2 & V2); [cbn; lia|].
  destruct (fdiv_val (fadd (fmul a a) (fmul b b)) (of_Z 2) FS) as (FD & VD).
  { rewrite V2; lra. } { rewrite V2. apply one_127. rewrite Rabs_pos_eq; lra. }
  split; [exact FD|]. rewrite VD, V2. split; [apply rnd_nonneg; lra|]. rewrite <- rnd_one. apply rnd_le. lra.
Qed.

Lemma fresnel_terms_range : forall ei et c k, index ei -> index et -> fin c -> fin k -> 0 <= val c <= 2 -> bpow radix2 (-12) <= val k <= bpow radix2 38 ->
  fin (f_fresnel_terms ei et c k) /\ 0 <= val (f_fresnel_terms ei et c k) <= 1.
Proof.
  intros ei et c k EI ET FC FK C K.
  assert (PR : forall e c, index e -> fin c -> 0 <= val c <= bpow radix2 38 -> fin (fmul e c) /\ 0 <= val (fmul e c) <= bpow radix2 60).
  { clear. intros e c (FE & E) FC C. assert (0 < bpow radix2 (-20)) by apply bpow_gt_0.
    assert (P : 0 <= val e * val c <= bpow radix2 58).
    { split; [apply Rmult_le_pos; lra|]. change 58%Z with (20 + 38)%Z. rewrite bpow_plus. apply Rmult_le_compat; lra. }
    destruct (fmul_val e c FE FC) as (F & V). { apply (small_127 _ 58); [lia|]. rewrite Rabs_pos_eq; lra. }
    split; [exact F|]. rewrite V. split; [apply rnd_nonneg; lra|]. apply Rle_trans with (bpow radix2 58); [|apply bpow_le; lia].
    rewrite <- (rnd_fits (bpow radix2 58)) by (apply fits_bpow; lia). apply rnd_le; lra. }
  assert (C38 : 0 <= val c <= bpow radix2 38) by (split; [lra|]; apply Rle_trans with (bpow radix2 1); [change (bpow radix2 1) with 2; lra|apply bpow_le; lia]).
  assert (PS : forall e, index e -> fin (fmul e k) /\ 0 < val (fmul e k) <= bpow radix2 60).
  { intros e E. assert (0 < bpow radix2 (-12)) by apply bpow_gt_0. destruct (PR e k E FK) as (F & U); [lra|]. split; [exact F|]. split; [|lra].
    destruct E as (FE & E). assert (P : bpow radix2 (-32) <= val e * val k).
    { change (-32)%Z with (-20 + -12)%Z. rewrite bpow_plus. apply Rmult_le_compat; try apply bpow_ge_0; lra. }
    assert (val e * val k <= bpow radix2 58) by (change 58%Z with (20 + 38)%Z; rewrite bpow_plus; apply Rmult_le_compat; try lra; pose proof (bpow_gt_0 radix2 (-20)); lra).
    pose proof (bpow_gt_0 radix2 (-32)).
    destruct (fmul_val e k FE FK) as (_ & V). { apply (small_127 _ 58); [lia|]. rewrite Rabs_pos_eq; lra. }
    rewrite V. apply Rlt_le_trans with (bpow radix2 (-32)); [assumption|]. rewrite <- (rnd_fits (bpow radix2 (-32))) by (apply fits_bpow; lia). apply rnd_le; exact P. }
  unfold f_fresnel_terms. cbv zeta.
  destruct (PR ei c EI FC C38) as (F1 & B1). destruct (PR et c ET FC C38) as (F2 & B2).
  destruct (PS ei EI) as (F3 & B3). destruct (PS et ET) as (F4 & B4).
  destruct (amplitude _ _ F1 F4 B1 B4) as (FA & A). destruct (amplitude _ _ F2 F3 B2 B3) as (FB & B).
  apply mean_fraction; assumption.
Qed.

Lemma max_zero : forall x, fin x -> fin (fmax fzero x) /\ val (fmax fzero x) = Rmax 0 (val x).
Proof.
  intros x F. destruct fzero_val as (FZ & VZ). unfold fmax, fgt. fold (flt x fzero). destruct (flt x fzero) eqn:E.
  - apply (flt_val _ _ F FZ) in E. rewrite VZ in E. split; [exact FZ|]. rewrite VZ, Rmax_left; lra.
  - split; [exact F|]. assert (~ val x < 0). { rewrite <- VZ. intro L. apply (flt_val _ _ F FZ) in L. congruence. } rewrite Rmax_right; lra.
Qed.

(* the cosine that belongs to a sine *)
Lemma cosine_of : forall s, fin s -> Rabs (val s) <= 2 ->
  let k := fsqrt (fmax fzero (fsub fone (fmul s s))) in fin k /\ val k = rnd (sqrt (Rmax 0 (rnd (1 - rnd (val s * val s))))) /\ 0 <= val k <= 1.
Proof.
  intros s F S. cbv zeta. destruct fone_val as (FO & VO).
  assert (Q : 0 <= val s * val s <= 4). { split; [apply Rle_0_sqr|]. replace (val s * val s) with (Rabs (val s) * Rabs (val s)) by (rewrite <- Rabs_mult; apply Rabs_pos_eq, Rle_0_sqr).
    replace 4 with (2 * 2) by ring. apply Rmult_le_compat; try apply Rabs_pos; exact S. }
  destruct (fmul_val s s F F) as (FM & VM). { apply (small_127 _ 2); [lia|]. change (bpow radix2 2) with 4. rewrite Rabs_pos_eq; lra. }
  assert (M : 0 <= val (fmul s s) <= 4). { rewrite VM. split; [apply rnd_nonneg; lra|]. rewrite <- (rnd_fits 4) by (change 4 with (IZR 4); apply fits_Z; cbn; lia). apply rnd_le; lra. }
  destruct (fsub_val fone (fmul s s) FO FM) as (FS & VS). { apply (small_127 _ 2); [lia|]. change (bpow radix2 2) with 4. rewrite VO. apply Rabs_le; lra. }
  destruct (max_zero _ FS) as (FX & VX).
  assert (U : 0 <= Rmax 0 (val (fsub fone (fmul s s))) <= 1).
  { split; [apply Rmax_l|]. apply Rmax_lub; [lra|]. rewrite VS, VO. apply Rle_trans with (rnd 1); [apply rnd_le; lra|rewrite rnd_one; lra]. }
  destruct (fsqrt_val _ FX) as (FQ & VQ); [rewrite VX; lra|]. split; [exact FQ|]. rewrite VQ, VX, VS, VM, VO. rewrite VS, VM, VO in U. split; [reflexivity|]. split.
  - apply rnd_nonneg, sqrt_pos.
  - apply Rle_trans with (rnd 1); [|rewrite rnd_one; lra]. apply rnd_le. eapply Rle_trans; [apply sqrt_le_1_alt; exact (proj2 U)|rewrite sqrt_1; lra].
Qed.

(* a float below one is below one by 2^-24 *)
Lemma below_one : forall s, val s < 1 -> val s <= 1 - u24.
Proof.
  intros s L. pose proof (fits_val s) as FS. pose proof (fits_bpow 0 ltac:(lia)) as F1.
  change 1 with (bpow radix2 0) in L at 1. apply (pred_ge_gt radix2 _ _ _ FS F1) in L. rewrite pred_bpow in L. rewrite <- u24_bpow. exact L.
Qed.

Lemma sine_below_one : forall s, fin s -> 0 <= val s < 1 ->
  let k := fsqrt (fmax fzero (fsub fone (fmul s s))) in fin k /\ bpow radix2 (-12) <= val k <= 1.
Proof.
  intros s F S. destruct (cosine_of s F) as (FK & VK & K); [rewrite Rabs_pos_eq; lra|]. cbv zeta in *. split; [exact FK|]. split; [|lra].
  rewrite VK. pose proof (below_one s) as B. specialize (B ltac:(lra)).
  assert (FB : fits (1 - u24)). { replace (1 - u24) with (IZR 16777215 * bpow radix2 (-24)) by (rewrite u24_bpow; unfold u24; lra). apply fits_scaled; cbn; lia. }
  assert (Q : rnd (val s * val s) <= 1 - u24).
  { rewrite <- (rnd_fits (1 - u24)) by exact FB. apply rnd_le. apply Rle_trans with (val s * 1); [apply Rmult_le_compat_l; lra|lra]. }
  assert (U : fits u24) by (rewrite <- u24_bpow; apply fits_bpow; lia).
  assert (W : u24 <= rnd (1 - rnd (val s * val s))) by (rewrite <- (rnd_fits u24) at 1 by exact U; apply rnd_le; lra).
  rewrite <- (rnd_fits (bpow radix2 (-12))) by (apply fits_bpow; lia). apply rnd_le.
  replace (bpow radix2 (-12)) with (sqrt u24).
  - apply sqrt_le_1_alt. eapply Rle_trans; [exact W|apply Rmax_r].
  - rewrite <- u24_bpow. change (bpow radix2 (-24)) with (bpow radix2 (-12 + -12)). rewrite bpow_plus. apply sqrt_square, bpow_ge_0.
Qed.

Lemma snell_val : forall ei et c, index ei -> index et -> fin c -> Rabs (val c) <= 2 ->
  fin (f_snell ei et c) /\ 0 <= val (f_snell ei et c) <= bpow radix2 60.
Proof.
  intros ei et c (FI & I) (FT & T) FC C. unfold f_snell. destruct (cosine_of c FC C) as (FK & _ & K). cbv zeta in *.
  set (k := fsqrt (fmax fzero (fsub fone (fmul c c)))) in *. clearbody k.
  assert (P20 : 0 < bpow radix2 (-20)) by apply bpow_gt_0.
  assert (IT : 0 < / val et <= bpow radix2 20).
  { split; [apply Rinv_0_lt_compat; lra|]. change 20%Z with (- - 20)%Z. rewrite bpow_opp. apply Rinv_le; lra. }
  assert (Q : 0 <= val ei / val et <= bpow radix2 40).
  { unfold Rdiv. split; [apply Rmult_le_pos; lra|]. change 40%Z with (20 + 20)%Z. rewrite bpow_plus. apply Rmult_le_compat; lra. }
  destruct (fdiv_val ei et FI) as (FD & VD); [lra|apply (small_127 _ 40); [lia|rewrite Rabs_pos_eq; lra]|].
  assert (D : 0 <= val (fdiv ei et) <= bpow radix2 40).
  { rewrite VD. split; [apply rnd_nonneg; lra|]. rewrite <- (rnd_fits (bpow radix2 40)) by (apply fits_bpow; lia). apply rnd_le; lra. }
  assert (M : 0 <= val (fdiv ei et) * val k <= bpow radix2 40).
  { split; [apply Rmult_le_pos; lra|]. rewrite <- (Rmult_1_r (bpow radix2 40)). apply Rmult_le_compat; lra. }
  destruct (fmul_val (fdiv ei et) k FD FK) as (FM & VM). { apply (small_127 _ 40); [lia|rewrite Rabs_pos_eq; lra]. }
  split; [exact FM|]. rewrite VM. split; [apply rnd_nonneg; lra|]. apply Rle_trans with (bpow radix2 40); [|apply bpow_le; lia].
  rewrite <- (rnd_fits (bpow radix2 40)) by (apply fits_bpow; lia). apply rnd_le; lra.
Qed.

Lemma fresnel_range : forall ei et c, index ei -> index et -> fin c -> 0 <= val c <= 2 ->
  fin (f_fresnel ei et c) /\ 0 <= val (f_fresnel ei et c) <= 1.
Proof.
  intros ei et c EI ET FC C. destruct (snell_val ei et c EI ET FC) as (FS & S); [rewrite Rabs_pos_eq; lra|].
  unfold f_fresnel. cbv zeta. destruct fone_val as (FO & VO). destruct (fle fone (f_snell ei et c)) eqn:E; [split; [exact FO|rewrite VO; lra]|].
  assert (L : val (f_snell ei et c) < 1).
  { apply Rnot_le_lt. intro L. rewrite <- VO in L. apply (fle_val _ _ FO FS) in L. congruence. }
  destruct (sine_below_one _ FS (conj (proj1 S) L)) as (FK & K). cbv zeta in *.
  apply fresnel_terms_range; try assumption. split; [apply K|]. apply Rle_trans with 1; [apply K|]. change 1 with (bpow radix2 0). apply bpow_le; lia.
Qed.

(* For any two indices between 2^-20 and 2^20, from either side and for every cosine (also one
   that rounding took above one), the fraction reflected by a dielectric is computed without
   overflow or division by zero and lies between 0 and 1, exactly. *)
Theorem float_dielectric_fraction : forall eta_i eta_t cosin, index eta_i -> index eta_t -> fin cosin -> Rabs (val cosin) <= 2 ->
  fin (f_dielectric eta_i eta_t cosin) /\ 0 <= val (f_dielectric eta_i eta_t cosin) <= 1.
Proof.
  intros i t c EI ET FC C. unfold f_dielectric. destruct fzero_val as (FZ & VZ). apply abs_both in C. destruct (flt c fzero) eqn:E.
  - apply (flt_val _ _ FC FZ) in E. rewrite VZ in E. destruct (neg_val c FC) as (FN & VN). apply fresnel_range; try assumption. rewrite VN. lra.
  - assert (~ val c < 0). { rewrite <- VZ. intro L. apply (flt_val _ _ FC FZ) in L. congruence. } apply fresnel_range; try assumption. lra.
Qed.
Print Assumptions float_dielectric_fraction.

(* glass from air, at an angle *)
Example float_dielectric_fraction_case : let glass := fnum 3 (-1) in let c := fnum 1 (-2) in
  index fone /\ index glass /\ fin c /\ Rabs (val c) <= 2 /\ val (f_dielectric fone glass c) = 8864757 / 33554432.
Proof.
  cbv zeta. destruct fone_val as (FO & VO).
  assert (N : val (fnum 3 (-1)) = 3 / 2) by (erewrite lit_val by (vm_compute; reflexivity); cbn; lra).
  assert (C : val (fnum 1 (-2)) = 1 / 4) by (erewrite lit_val by (vm_compute; reflexivity); cbn; lra).
  assert (V : val (f_dielectric fone (fnum 3 (-1)) (fnum 1 (-2))) = 8864757 / 33554432) by (erewrite lit_val by (vm_compute; reflexivity); cbn; lra).
  unfold index. rewrite N, C, V, VO. assert (B : bpow radix2 20 = 1048576) by reflexivity. assert (B' : bpow radix2 (-20) = / 1048576) by reflexivity. rewrite B, B'.
  rewrite Rabs_pos_eq by lra. repeat split; try lra; try reflexivity.
Qed.

(* ----- metals ----- *)

(* what is computed for one polarisation, from the sum of the squares, the mixed term and the last term *)
Lemma metal_fraction : forall T E C N M, fin T -> fin E -> fin C -> 0 <= val T <= bpow radix2 60 -> 0 <= val E <= bpow radix2 60 -> 0 <= val C <= 1 ->
  bpow radix2 (-60) <= N -> N * (1 - 5 * u24) <= val T + val E + val C <= N * (1 + 5 * u24) -> M - 5 * u24 * N <= val T - val E + val C <= M + 5 * u24 * N -> 0 <= M <= N ->
  let r := fdiv (fadd (fsub T E) C) (fadd (fadd T E) C) in
  fin r /\ - (8 * u24) <= val r <= 1 /\ (7 * u24 * N <= M -> 0 <= val r) /\ Rabs (val r - M / N) <= 20 * u24.
Proof.
  intros T E C N M FT FE FC BT BE BC PN (LD & UD') (LN & UN) PM. cbv zeta.
  assert (UD : val T + val E <= N * (1 + 5 * u24)) by lra.
  assert (BND : Rabs (val T + val E) <= bpow radix2 61).
  { rewrite Rabs_pos_eq by lra. change 61%Z with (60 + 1)%Z. rewrite bpow_plus. change (bpow radix2 1) with 2. lra. }
  assert (BMD : Rabs (val T - val E) <= bpow radix2 61).
  { apply abs_both in BND. apply Rabs_le. lra. }
  destruct (fadd_val T E FT FE) as (F1 & V1); [apply (small_127 _ 61); [lia|exact BND]|].
  destruct (fsub_val T E FT FE) as (F2 & V2); [apply (small_127 _ 61); [lia|exact BMD]|].
  assert (W : Rabs (val T - val E) <= val T + val E) by (apply Rabs_le; lra).
  assert (R1 : Rabs (rnd (val T - val E)) <= rnd (val T + val E)) by (apply rnd_abs_le; exact W).
  assert (R2 : rnd (val T - val E) <= rnd (val T + val E)) by (apply rnd_le; lra).
  assert (RB : rnd (val T + val E) <= bpow radix2 61).
  { rewrite <- (rnd_fits (bpow radix2 61)) by (apply fits_bpow; lia). apply rnd_le. apply abs_both in BND. lra. }
  assert (R0 : 0 <= rnd (val T + val E)) by (apply rnd_nonneg; lra).
  assert (B62 : bpow radix2 61 + 1 <= bpow radix2 62).
  { change 62%Z with (61 + 1)%Z. rewrite bpow_plus. change (bpow radix2 1) with 2. assert (1 <= bpow radix2 61) by (change 1 with (bpow radix2 0); apply bpow_le; lia). lra. }
  assert (SA : Rabs (rnd (val T + val E) + val C) <= bpow radix2 62) by (rewrite Rabs_pos_eq; lra).
  assert (SB : Rabs (rnd (val T - val E) + val C) <= bpow radix2 62) by (apply abs_both in R1; apply Rabs_le; lra).
  destruct (fadd_val (fadd T E) C F1 FC) as (F3 & V3); [rewrite V1; apply (small_127 _ 62); [lia|exact SA]|].
  destruct (fadd_val (fsub T E) C F2 FC) as (F4 & V4); [rewrite V2; apply (small_127 _ 62); [lia|exact SB]|].
  rewrite V1 in V3. rewrite V2 in V4.
  pose proof (rerr (val T + val E)) as E1. pose proof (rerr (val T - val E)) as E2.
  rewrite (Rabs_pos_eq (val T + val E)) in E1 by lra. apply abs_both in E1. apply abs_both in E2.
  assert (HH : h150 <= u24 * N * / 1000).
  { unfold h150. apply Rle_trans with (u24 * bpow radix2 (-60) * / 1000). 2: { unfold u24. lra. }
    rewrite <- u24_bpow. rewrite <- bpow_plus. apply Rle_trans with (bpow radix2 (-94)); [apply bpow_le; lia|].
    change (-94)%Z with ((-24 + -60) + -10)%Z. rewrite bpow_plus. apply Rmult_le_compat_l; [apply bpow_ge_0|]. change (bpow radix2 (-10)) with (/ 1024). lra. }
  assert (N0 : 0 < N) by (pose proof (bpow_gt_0 radix2 (-60)); lra).
  assert (H0 : 0 < h150) by apply h150_small.
  set (s := val T + val E) in *. set (d := val T - val E) in *. set (c := val C) in *.
  assert (SN : u24 * s <= u24 * N * (1 + 5 * u24)).
  { rewrite Rmult_assoc. apply Rmult_le_compat_l; [unfold u24; lra|exact UD]. }
  assert (DN : u24 * Rabs d <= u24 * N * (1 + 5 * u24)).
  { eapply Rle_trans; [|exact SN]. apply Rmult_le_compat_l; [unfold u24; lra|exact W]. }
  assert (PD : N * (1 - 7 * u24) <= rnd s + c) by (unfold u24 in *; lra).
  assert (PM' : M - 7 * u24 * N <= rnd d + c) by (unfold u24 in *; lra).
  assert (PD2 : rnd s + c <= N * (1 + 7 * u24)) by (unfold u24 in *; lra).
  assert (PM2 : rnd d + c <= M + 7 * u24 * N) by (unfold u24 in *; lra).
  clear E1 E2 SN DN HH H0.
  assert (DEN : 9999 / 10000 * N <= rnd (rnd s + c)).
  { pose proof (rerr (rnd s + c)) as E3. rewrite (Rabs_pos_eq (rnd s + c)) in E3 by (unfold c in *; lra). apply abs_both in E3.
    assert (h150 <= / 100000 * N). { apply Rle_trans with (bpow radix2 (-80)); [apply bpow_le; lia|]. change (-80)%Z with (-20 + -60)%Z. rewrite bpow_plus.
      change (bpow radix2 (-20)) with (/ 1048576). apply Rmult_le_compat; try lra. apply bpow_ge_0. }
    unfold u24 in *. lra. }
  assert (P : 0 < rnd (rnd s + c)) by lra.
  assert (IP : 0 < / rnd (rnd s + c)) by (apply Rinv_0_lt_compat; exact P).
  assert (CN : c <= N * (1 + 10 * u24) \/ True) by (right; exact I). clear CN.
  assert (NUM : - (7 * u24 * N) * (1 + u24) - h150 <= rnd (rnd d + c)).
  { destruct (Rle_dec 0 (rnd d + c)) as [G|G].
    - pose proof (rnd_nonneg _ G). assert (0 <= u24 * N) by (apply Rmult_le_pos; [unfold u24; lra|lra]). pose proof (proj1 h150_small). unfold u24 in *. lra.
    - pose proof (rerr (rnd d + c)) as E4. rewrite (Rabs_left (rnd d + c)) in E4 by lra. apply abs_both in E4. unfold u24 in *. lra. }
  assert (Q1 : rnd (rnd d + c) / rnd (rnd s + c) <= 1).
  { unfold Rdiv. apply (Rmult_le_reg_r (rnd (rnd s + c))); [exact P|]. rewrite Rmult_assoc, Rinv_l, Rmult_1_r, Rmult_1_l by lra. apply rnd_le; lra. }
  assert (HN : h150 <= / 100 * u24 * N).
  { apply Rle_trans with (bpow radix2 (-92)); [apply bpow_le; lia|]. change (-92)%Z with (-32 + -60)%Z. rewrite bpow_plus.
      change (bpow radix2 (-32)) with (/ 4294967296). unfold u24. apply Rmult_le_compat; try lra. apply bpow_ge_0. }
  assert (Q2 : - (71 / 10 * u24) <= rnd (rnd d + c) / rnd (rnd s + c)).
  { unfold Rdiv. apply (Rmult_le_reg_r (rnd (rnd s + c))); [exact P|]. replace (rnd (rnd d + c) * / rnd (rnd s + c) * rnd (rnd s + c)) with (rnd (rnd d + c)) by (field; lra).
    apply Rle_trans with (- (71 / 10 * u24) * (9999 / 10000 * N)).
    - assert (71 / 10 * u24 * (9999 / 10000 * N) <= 71 / 10 * u24 * rnd (rnd s + c)) by (apply Rmult_le_compat_l; [unfold u24; lra|exact DEN]). lra.
    - unfold u24 in *. lra. }
  destruct (fdiv_val (fadd (fsub T E) C) (fadd (fadd T E) C) F4) as (F5 & V5).
  { rewrite V3. lra. } { rewrite V3, V4. apply one_127. apply Rabs_le. unfold u24 in Q2. lra. }
  split; [exact F5|]. rewrite V5, V3, V4. split; [split|split].
  - rewrite <- (rnd_fits (- (8 * u24))). { apply rnd_le. unfold u24 in *; lra. } apply fits_opp. replace (8 * u24) with (bpow radix2 (-21)) by (cbn; unfold u24; lra). apply fits_bpow; lia.
  - apply Rle_trans with (rnd 1); [apply rnd_le; exact Q1|rewrite rnd_one; lra].
  - intro G. apply rnd_nonneg. unfold Rdiv. apply Rmult_le_pos; [|lra]. apply rnd_nonneg. lra.
  - pose proof (rerr (rnd s + c)) as G1. pose proof (rerr (rnd d + c)) as G2. rewrite (Rabs_pos_eq (rnd s + c)) in G1 by (unfold c in *; lra).
    assert (AD : Rabs (rnd d + c) <= N * (1 + 7 * u24)) by (apply Rabs_le; unfold u24 in *; lra).
    assert (UA : u24 * Rabs (rnd d + c) <= u24 * N * (1 + 7 * u24)) by (rewrite Rmult_assoc; apply Rmult_le_compat_l; [unfold u24; lra|exact AD]).
    apply abs_both in G1. apply abs_both in G2. set (num := rnd (rnd d + c)) in *. set (den := rnd (rnd s + c)) in *.
    assert (X1 : Rabs (num - M) <= 82 / 10 * u24 * N) by (apply Rabs_le; unfold u24 in *; lra).
    assert (X2 : Rabs (den - N) <= 82 / 10 * u24 * N) by (apply Rabs_le; unfold u24 in *; lra).
    assert (MN : 0 <= M / N <= 1).
    { split; [apply Rmult_le_pos; [lra|left; apply Rinv_0_lt_compat; lra]|]. apply (Rmult_le_reg_r N); [lra|]. unfold Rdiv. rewrite Rmult_assoc, Rinv_l, Rmult_1_r, Rmult_1_l; lra. }
    assert (X3 : Rabs (num - M - M / N * (den - N)) <= 164 / 10 * u24 * N).
    { unfold Rminus at 1. eapply Rle_trans; [apply Rabs_triang|]. rewrite Rabs_Ropp, Rabs_mult, (Rabs_pos_eq (M / N)) by lra.
      assert (M / N * Rabs (den - N) <= 1 * (82 / 10 * u24 * N)) by (apply Rmult_le_compat; [lra|apply Rabs_pos|lra|exact X2]). lra. }
    assert (X4 : Rabs (num / den - M / N) <= 165 / 10 * u24).
    { replace (num / den - M / N) with ((num - M - M / N * (den - N)) / den) by (field; lra). unfold Rdiv at 1. rewrite Rabs_mult, (Rabs_pos_eq (/ den)) by lra.
      apply (Rmult_le_reg_r den); [exact P|]. rewrite Rmult_assoc, Rinv_l, Rmult_1_r by lra. eapply Rle_trans; [exact X3|].
      apply Rle_trans with (165 / 10 * u24 * (9999 / 10000 * N)); [unfold u24; lra|]. apply Rmult_le_compat_l; [unfold u24; lra|exact DEN]. }
    pose proof (rerr (num / den)) as G3. assert (QA : Rabs (num / den) <= 1) by (apply Rabs_le; unfold u24 in Q2; lra).
    assert (H1 : h150 <= u24) by (rewrite <- u24_bpow; apply bpow_le; lia).
    apply abs_both in G3. apply abs_both in X4. apply Rabs_le. unfold u24 in *. lra.
Qed.

(* the rounded squares, mixed term and product of a metal *)
Lemma metal_numbers : forall n k c, index n -> fin k -> fin c -> 0 <= val k <= bpow radix2 20 -> 0 <= val c <= 1 ->
  let T := fadd (fmul n n) (fmul k k) in let C := fmul c c in let E := fmul n (fmul c (of_Z 2)) in
  fin T /\ fin C /\ fin E /\
  (val n * val n + val k * val k) * (1 - 21 / 10 * u24) <= val T <= (val n * val n + val k * val k) * (1 + 21 / 10 * u24) /\
  0 <= val C <= 1 /\ Rabs (val C - val c * val c) <= u24 * (val c * val c) + h150 /\
  0 <= val E /\ Rabs (val E - 2 * val n * val c) <= u24 * (2 * val n * val c) + h150.
Proof.
  intros n k c (FN & N) FK FC K C. cbv zeta.
  assert (P20 : 0 < bpow radix2 (-20)) by apply bpow_gt_0.
  assert (SQ : forall x, 0 <= x <= bpow radix2 20 -> 0 <= x * x <= bpow radix2 40).
  { intros x X. split; [apply Rle_0_sqr|]. change 40%Z with (20 + 20)%Z. rewrite bpow_plus. apply Rmult_le_compat; lra. }
  destruct (SQ (val n)) as (N0 & N1); [lra|]. destruct (SQ (val k)) as (K0 & K1); [lra|].
  destruct (fmul_val n n FN FN) as (F1 & V1); [apply (small_127 _ 40); [lia|rewrite Rabs_pos_eq; lra]|].
  destruct (fmul_val k k FK FK) as (F2 & V2); [apply (small_127 _ 40); [lia|rewrite Rabs_pos_eq; lra]|].
  assert (RB : forall x, 0 <= x <= bpow radix2 40 -> 0 <= rnd x <= bpow radix2 40).
  { intros x X. split; [apply rnd_nonneg; lra|]. rewrite <- (rnd_fits (bpow radix2 40)) by (apply fits_bpow; lia). apply rnd_le; lra. }
  assert (B1 := RB _ (conj N0 N1)). assert (B2 := RB _ (conj K0 K1)).
  destruct (fadd_val _ _ F1 F2) as (F3 & V3).
  { rewrite V1, V2. apply (small_127 _ 41); [lia|]. rewrite Rabs_pos_eq by lra. change 41%Z with (40 + 1)%Z. rewrite bpow_plus. change (bpow radix2 1) with 2. lra. }
  assert (C1 : 0 <= val c * val c <= 1). { split; [apply Rle_0_sqr|]. replace 1 with (1 * 1) by ring. apply Rmult_le_compat; lra. }
  destruct (fmul_val c c FC FC) as (F4 & V4); [apply one_127; rewrite Rabs_pos_eq; lra|].
  destruct (of_Z_exact 2) as (FT & VT); [cbn; lia|].
  destruct (fmul_val c (of_Z 2) FC FT) as (F5 & V5). { rewrite VT. apply (small_127 _ 1); [lia|]. change (bpow radix2 1) with 2. rewrite Rabs_pos_eq; lra. }
  assert (D : val (fmul c (of_Z 2)) = 2 * val c).
  { rewrite V5, VT, (Rmult_comm 2). apply rnd_fits. apply (Mult_error.mult_bpow_pos_exact_FLT radix2 (-149) 24 (val c) 1); [apply fits_val|lia]. }
  assert (M : 0 <= 2 * val n * val c <= bpow radix2 21).
  { split; [apply Rmult_le_pos; lra|]. change 21%Z with (1 + 20)%Z. rewrite bpow_plus. change (bpow radix2 1) with 2. rewrite <- (Rmult_1_r (2 * bpow radix2 20)). apply Rmult_le_compat; lra. }
  destruct (fmul_val n (fmul c (of_Z 2)) FN F5) as (F6 & V6).
  { rewrite D. apply (small_127 _ 21); [lia|]. replace (val n * (2 * val c)) with (2 * val n * val c) by ring. rewrite Rabs_pos_eq; lra. }
  rewrite D in V6. replace (val n * (2 * val c)) with (2 * val n * val c) in V6 by ring.
  split; [exact F3|]. split; [exact F4|]. split; [exact F6|]. split.
  - rewrite V3, V1, V2. pose proof (rerr (val n * val n)) as E1. pose proof (rerr (val k * val k)) as E2. pose proof (rerr (rnd (val n * val n) + rnd (val k * val k))) as E3.
    rewrite (Rabs_pos_eq (val n * val n)) in E1 by lra. rewrite (Rabs_pos_eq (val k * val k)) in E2 by lra. rewrite (Rabs_pos_eq (_ + _)) in E3 by lra.
    apply abs_both in E1. apply abs_both in E2. apply abs_both in E3.
    assert (NN : bpow radix2 (-40) <= val n * val n). { change (-40)%Z with (-20 + -20)%Z. rewrite bpow_plus. apply Rmult_le_compat; lra. }
    assert (H : h150 <= / 1000 * u24 * (val n * val n)).
    { apply Rle_trans with (bpow radix2 (-76)); [apply bpow_le; lia|]. change (-76)%Z with (-36 + -40)%Z. rewrite bpow_plus.
      change (bpow radix2 (-36)) with (/ 68719476736). unfold u24. apply Rmult_le_compat; try lra. apply bpow_ge_0. }
    pose proof (proj1 h150_small) as H0. clear - E1 E2 E3 H H0 N0 K0. set (a := val n * val n) in *. set (b := val k * val k) in *. clearbody a b.
    set (ra := rnd a) in *. set (rb := rnd b) in *. clearbody ra rb. set (h := h150) in *. clearbody h. unfold u24 in *. lra.
  - rewrite V4, V6. split; [split; [apply rnd_nonneg; lra|apply Rle_trans with (rnd 1); [apply rnd_le; lra|rewrite rnd_one; lra]]|].
    split; [rewrite <- (Rabs_pos_eq (val c * val c)) at 3 by lra; apply rerr|]. split; [apply rnd_nonneg; lra|].
    rewrite <- (Rabs_pos_eq (2 * val n * val c)) at 3 by lra. apply rerr.
Qed.

Lemma metal_cancel : forall x y z, x * x <= 250000 * z -> 7 * u24 * ((x + y) * (x + y) + z) <= (x - y) * (x - y) + z.
Proof.
  intros x y z H. set (w := x - y). replace (x + y) with (2 * x - w) by (unfold w; ring). clearbody w. clear y.
  assert (0 <= (x + w) * (x + w)) by apply Rle_0_sqr. assert (0 <= x * x) by apply Rle_0_sqr. assert (0 <= w * w) by apply Rle_0_sqr.
  replace ((2 * x - w) * (2 * x - w)) with (4 * (x * x) - 4 * (x * w) + w * w) by ring.
  replace ((x + w) * (x + w)) with (x * x + 2 * (x * w) + w * w) in H0 by ring. unfold u24. lra.
Qed.

(* the fraction reflected by a metal in exact arithmetic: the mean of the two polarisations *)
Definition metal_exact (n k c : R) : R :=
  (((n - c) * (n - c) + k * k) / ((n + c) * (n + c) + k * k) +
   ((n * c - 1) * (n * c - 1) + k * k * (c * c)) / ((n * c + 1) * (n * c + 1) + k * k * (c * c))) / 2.

(* For indices n between 2^-20 and 2^20, absorptions k up to 2^20 and cosines between 0 and 1 the
   fraction reflected by a metal is computed without overflow or division by zero, is at most 1
   exactly and at least -2^-21, and differs from the exact fraction by at most 2^-19; it is not
   negative when k is at least n / 500, as it is for every metal. *)
Theorem float_conductor_fraction : forall n k cosin, index n -> fin k -> fin cosin -> 0 <= val k <= bpow radix2 20 -> 0 <= val cosin <= 1 ->
  fin (f_conductor n k cosin) /\ - bpow radix2 (-21) <= val (f_conductor n k cosin) <= 1 /\
  (val n <= 500 * val k -> 0 <= val (f_conductor n k cosin)) /\
  Rabs (val (f_conductor n k cosin) - metal_exact (val n) (val k) (val cosin)) <= bpow radix2 (-19).
Proof.
  intros n k c IN FK FC K C. pose proof (metal_numbers n k c IN FK FC K C) as MN. cbv zeta in MN. destruct MN as (FT & F2 & FE & T & C01 & CE & E0 & EE).
  unfold f_conductor, metal_exact. cbv zeta. set (Tf := fadd (fmul n n) (fmul k k)) in *. set (Cf := fmul c c) in *. set (Ef := fmul n (fmul c (of_Z 2))) in *.
  clearbody Tf Cf Ef. destruct IN as (FN & N). destruct fone_val as (FO & VO).
  assert (P20 : 0 < bpow radix2 (-20)) by apply bpow_gt_0.
  assert (NN : bpow radix2 (-40) <= val n * val n <= bpow radix2 40).
  { split; [change (-40)%Z with (-20 + -20)%Z|change 40%Z with (20 + 20)%Z]; rewrite bpow_plus; apply Rmult_le_compat; lra. }
  assert (KK : 0 <= val k * val k <= bpow radix2 40).
  { split; [apply Rle_0_sqr|change 40%Z with (20 + 20)%Z]; rewrite bpow_plus; apply Rmult_le_compat; lra. }
  assert (B41 : bpow radix2 40 + bpow radix2 40 = bpow radix2 41) by (change 41%Z with (40 + 1)%Z; rewrite bpow_plus; change (bpow radix2 1) with 2; ring).
  assert (NC : 0 <= 2 * val n * val c <= bpow radix2 21).
  { split; [apply Rmult_le_pos; lra|]. change 21%Z with (1 + 20)%Z. rewrite bpow_plus. change (bpow radix2 1) with 2. rewrite <- (Rmult_1_r (2 * bpow radix2 20)). apply Rmult_le_compat; lra. }
  assert (C1 : 0 <= val c * val c <= 1). { split; [apply Rle_0_sqr|]. replace 1 with (1 * 1) by ring. apply Rmult_le_compat; lra. }
  assert (H40 : h150 <= / 1000 * u24 * (val n * val n)).
  { apply Rle_trans with (bpow radix2 (-76)); [apply bpow_le; lia|]. change (-76)%Z with (-36 + -40)%Z. rewrite bpow_plus.
    change (bpow radix2 (-36)) with (/ 68719476736). unfold u24. apply Rmult_le_compat; try lra. apply bpow_ge_0. }
  pose proof (proj1 h150_small) as H0.
  assert (H1 : bpow radix2 42 * h150 <= / 1000 * u24).
  { unfold h150. rewrite <- bpow_plus. apply Rle_trans with (bpow radix2 (-36)); [apply bpow_le; lia|]. change (bpow radix2 (-36)) with (/ 68719476736). unfold u24. lra. }
  assert (B42 : bpow radix2 42 = 4398046511104) by reflexivity. assert (B40 : bpow radix2 40 = 1099511627776) by reflexivity. assert (B21 : bpow radix2 21 = 2097152) by reflexivity.
  set (a := val n * val n + val k * val k) in *. assert (A : val n * val n <= a <= bpow radix2 41) by (unfold a; lra).
  assert (B60 : bpow radix2 60 = 1152921504606846976) by reflexivity.
  assert (BT : 0 <= val Tf <= bpow radix2 60). { rewrite B60. rewrite <- B41, B40 in A. pose proof (bpow_gt_0 radix2 (-40)). unfold u24 in T. lra. }
  apply abs_both in CE. apply abs_both in EE.
  assert (BE : 0 <= val Ef <= bpow radix2 60). { rewrite B60. rewrite B21 in NC. rewrite B42 in H1. unfold u24 in *. lra. }
  pose proof (bpow_gt_0 radix2 (-40)) as P40.
  (* first polarisation *)
  pose proof (metal_fraction Tf Ef Cf ((val n + val c) * (val n + val c) + val k * val k) ((val n - val c) * (val n - val c) + val k * val k) FT FE F2 BT BE C01) as Q1.
  cbv zeta in Q1.
  assert (N1 : (val n + val c) * (val n + val c) + val k * val k = a + 2 * val n * val c + val c * val c) by (unfold a; ring).
  assert (M1 : (val n - val c) * (val n - val c) + val k * val k = a - 2 * val n * val c + val c * val c) by (unfold a; ring).
  assert (M1' : 0 <= (val n - val c) * (val n - val c) + val k * val k) by (assert (0 <= (val n - val c) * (val n - val c)) by apply Rle_0_sqr; lra).
  rewrite N1, M1 in Q1. rewrite M1 in M1'.
  destruct Q1 as (FP & P & PP & PX).
  { apply Rle_trans with (bpow radix2 (-40)); [apply bpow_le; lia|lra]. }
  { clear - T CE EE H40 H0 A NC C1 P40 NN. unfold u24 in *; split; lra. }
  { clear - T CE EE H40 H0 A NC C1 P40 NN. unfold u24 in *; split; lra. }
  { split; [exact M1'|lra]. }
  (* second polarisation *)
  assert (TC : 0 <= val Tf * val Cf <= bpow radix2 60).
  { split; [apply Rmult_le_pos; lra|]. rewrite <- (Rmult_1_r (bpow radix2 60)). apply Rmult_le_compat; lra. }
  destruct (fmul_val Tf Cf FT F2) as (F3 & V3). { apply (small_127 _ 60); [lia|rewrite Rabs_pos_eq; lra]. }
  assert (B3 : 0 <= val (fmul Tf Cf) <= bpow radix2 60).
  { rewrite V3. split; [apply rnd_nonneg; lra|]. rewrite <- (rnd_fits (bpow radix2 60)) by (apply fits_bpow; lia). apply rnd_le; lra. }
  assert (AC : 0 <= a * (val c * val c)) by (apply Rmult_le_pos; lra).
  assert (A0 : 0 <= a * h150 <= / 1000 * u24).
  { split; [apply Rmult_le_pos; lra|]. eapply Rle_trans; [|exact H1]. apply Rmult_le_compat_r; [lra|]. eapply Rle_trans; [apply A|apply bpow_le; lia]. }
  assert (UP : val Tf * val Cf <= a * (val c * val c) * (1 + 32 / 10 * u24) + / 500 * u24).
  { apply Rle_trans with (a * (1 + 21 / 10 * u24) * (val c * val c * (1 + u24) + h150)).
    - apply Rmult_le_compat; lra.
    - set (p := a * (val c * val c)) in *. set (q := a * h150) in *. replace (a * (1 + 21 / 10 * u24) * (val c * val c * (1 + u24) + h150)) with ((1 + 21 / 10 * u24) * (p * (1 + u24) + q)) by (unfold p, q; ring).
      clear - AC A0. clearbody p q. unfold u24 in *. lra. }
  assert (LO : a * (val c * val c) * (1 - 32 / 10 * u24) - / 500 * u24 <= val Tf * val Cf).
  { apply Rle_trans with (a * (1 - 21 / 10 * u24) * val Cf).
    - apply Rle_trans with (a * (1 - 21 / 10 * u24) * (val c * val c * (1 - u24) - h150)).
      + set (p := a * (val c * val c)) in *. set (q := a * h150) in *. replace (a * (1 - 21 / 10 * u24) * (val c * val c * (1 - u24) - h150)) with ((1 - 21 / 10 * u24) * (p * (1 - u24) - q)) by (unfold p, q; ring).
        clear - AC A0. clearbody p q. unfold u24 in *. lra.
      + apply Rmult_le_compat_l; [|lra]. apply Rmult_le_pos; [lra|unfold u24; lra].
    - apply Rmult_le_compat_r; lra. }
  pose proof (rerr (val Tf * val Cf)) as E3. rewrite (Rabs_pos_eq (val Tf * val Cf)), <- V3 in E3 by lra. apply abs_both in E3.
  assert (H150 : h150 <= / 1000 * u24). { rewrite B42 in H1. lra. }
  pose proof (metal_fraction (fmul Tf Cf) Ef fone ((val n * val c + 1) * (val n * val c + 1) + val k * val k * (val c * val c))
    ((val n * val c - 1) * (val n * val c - 1) + val k * val k * (val c * val c)) F3 FE FO B3 BE) as Q2. cbv zeta in Q2. rewrite VO in Q2.
  assert (N2 : (val n * val c + 1) * (val n * val c + 1) + val k * val k * (val c * val c) = a * (val c * val c) + 2 * val n * val c + 1) by (unfold a; ring).
  assert (M2 : (val n * val c - 1) * (val n * val c - 1) + val k * val k * (val c * val c) = a * (val c * val c) - 2 * val n * val c + 1) by (unfold a; ring).
  assert (M2' : 0 <= (val n * val c - 1) * (val n * val c - 1) + val k * val k * (val c * val c)).
  { assert (0 <= (val n * val c - 1) * (val n * val c - 1)) by apply Rle_0_sqr. assert (0 <= val k * val k * (val c * val c)) by (apply Rmult_le_pos; lra). lra. }
  rewrite N2, M2 in Q2. rewrite M2 in M2'.
  destruct Q2 as (FR & RR & RP & RX).
  { lra. }
  { apply Rle_trans with (bpow radix2 0); [apply bpow_le; lia|]. change (bpow radix2 0) with 1. lra. }
  { clear - E3 UP LO EE H150 AC NC H0. set (p := a * (val c * val c)) in *. set (q := val Tf * val Cf) in *. set (m := 2 * val n * val c) in *. clearbody p q m. unfold u24 in *; split; lra. }
  { clear - E3 UP LO EE H150 AC NC H0. set (p := a * (val c * val c)) in *. set (q := val Tf * val Cf) in *. set (m := 2 * val n * val c) in *. clearbody p q m. unfold u24 in *; split; lra. }
  { split; [exact M2'|lra]. }
  assert (POS : val n <= 500 * val k -> 0 <= val (fdiv (fadd (fsub Tf Ef) Cf) (fadd (fadd Tf Ef) Cf)) /\ 0 <= val (fdiv (fadd (fsub (fmul Tf Cf) Ef) fone) (fadd (fadd (fmul Tf Cf) Ef) fone))).
  { intro G. assert (G2 : val n * val n <= 250000 * (val k * val k)).
    { replace (250000 * (val k * val k)) with (500 * val k * (500 * val k)) by ring. apply Rmult_le_compat; lra. }
    split; [apply PP; rewrite <- N1, <- M1; apply metal_cancel; exact G2|].
    apply RP. rewrite <- N2, <- M2. apply metal_cancel. replace (val n * val c * (val n * val c)) with (val n * val n * (val c * val c)) by ring.
    replace (250000 * (val k * val k * (val c * val c))) with (250000 * (val k * val k) * (val c * val c)) by ring. apply Rmult_le_compat_r; lra. }
  set (p := fdiv (fadd (fsub Tf Ef) Cf) (fadd (fadd Tf Ef) Cf)) in *. set (r := fdiv (fadd (fsub (fmul Tf Cf) Ef) fone) (fadd (fadd (fmul Tf Cf) Ef) fone)) in *.
  rewrite <- N1, <- M1 in PX. rewrite <- N2, <- M2 in RX.
  set (p0 := ((val n - val c) * (val n - val c) + val k * val k) / ((val n + val c) * (val n + val c) + val k * val k)) in *.
  set (r0 := ((val n * val c - 1) * (val n * val c - 1) + val k * val k * (val c * val c)) / ((val n * val c + 1) * (val n * val c + 1) + val k * val k * (val c * val c))) in *.
  clear - FP P FR RR POS PX RX. clearbody p r p0 r0.
  assert (U8 : 8 * u24 = bpow radix2 (-21)) by (unfold u24; cbn; lra).
  destruct (fadd_val p r FP FR) as (FS & VS). { apply (small_127 _ 1); [lia|]. change (bpow radix2 1) with 2. apply Rabs_le. unfold u24 in *. lra. }
  assert (S : - bpow radix2 (-20) <= val (fadd p r) <= 2).
  { rewrite VS. split.
    - rewrite <- (rnd_fits (- bpow radix2 (-20))) by (apply fits_opp, fits_bpow; lia). apply rnd_le. change (-20)%Z with (-21 + 1)%Z. rewrite bpow_plus. change (bpow radix2 1) with 2. lra.
    - apply Rle_trans with (rnd 2); [apply rnd_le; lra|]. rewrite rnd_fits; [lra|]. change 2 with (IZR 2); apply fits_Z; cbn; lia. }
  assert (B20 : bpow radix2 (-20) = 2 * bpow radix2 (-21)) by (change (-20)%Z with (-21 + 1)%Z; rewrite bpow_plus; change (bpow radix2 1) with 2; ring).
  destruct (of_Z_exact 2) as (F2 & V2); [cbn; lia|].
  destruct (fdiv_val (fadd p r) (of_Z 2) FS) as (FD & VD).
  { rewrite V2; lra. } { rewrite V2. apply one_127. apply Rabs_le. unfold u24 in *. lra. }
  split; [exact FD|]. rewrite VD, V2. split; [split|split].
  - rewrite <- (rnd_fits (- bpow radix2 (-21))) by (apply fits_opp, fits_bpow; lia). apply rnd_le. lra.
  - apply Rle_trans with (rnd 1); [apply rnd_le; lra|rewrite rnd_one; lra].
  - intro G. destruct (POS G). apply rnd_nonneg. assert (0 <= val (fadd p r)) by (rewrite VS; apply rnd_nonneg; lra). lra.
  - pose proof (rerr (val p + val r)) as E1. rewrite <- VS in E1. pose proof (rerr (val (fadd p r) / 2)) as E2.
    assert (A1 : Rabs (val p + val r) <= 2) by (apply Rabs_le; unfold u24 in *; lra). assert (A2 : Rabs (val (fadd p r) / 2) <= 1) by (apply Rabs_le; rewrite B20, <- U8 in S; unfold u24 in *; lra).
    assert (H1 : h150 <= u24) by (rewrite <- u24_bpow; apply bpow_le; lia). assert (B19 : bpow radix2 (-19) = 32 * u24) by (unfold u24; cbn; lra).
    apply abs_both in E1. apply abs_both in E2. apply abs_both in PX. apply abs_both in RX. rewrite B19. apply Rabs_le. clear - E1 E2 PX RX A1 A2 H1.
    assert (u24 * Rabs (val p + val r) <= u24 * 2) by (apply Rmult_le_compat_l; [unfold u24; lra|exact A1]).
    assert (u24 * Rabs (val (fadd p r) / 2) <= u24 * 1) by (apply Rmult_le_compat_l; [unfold u24; lra|exact A2]). unfold u24 in *. lra.
Qed.
Print Assumptions float_conductor_fraction.

(* copper, roughly, at an angle of 60 degrees *)
Example float_conductor_fraction_case : let n := fnum 3 (-2) in let k := fnum 5 (-1) in let c := fnum 1 (-1) in
  index n /\ fin k /\ fin c /\ 0 <= val k <= bpow radix2 20 /\ 0 <= val c <= 1 /\ val n <= 500 * val k /\ val (f_conductor n k c) = 11522684 / 16777216.
Proof.
  cbv zeta. assert (N : val (fnum 3 (-2)) = 3 / 4) by (erewrite (lit_val (fnum 3 (-2)) 12582912 (-24)) by (vm_compute; reflexivity); cbn; lra).
  assert (K : val (fnum 5 (-1)) = 5 / 2) by (erewrite (lit_val (fnum 5 (-1)) 10485760 (-22)) by (vm_compute; reflexivity); cbn; lra).
  assert (C : val (fnum 1 (-1)) = 1 / 2) by (erewrite (lit_val (fnum 1 (-1)) 8388608 (-24)) by (vm_compute; reflexivity); cbn; lra).
  assert (V : val (f_conductor (fnum 3 (-2)) (fnum 5 (-1)) (fnum 1 (-1))) = 11522684 / 16777216) by (erewrite lit_val by (vm_compute; reflexivity); cbn; lra).
  unfold index. rewrite N, K, C, V. assert (B : bpow radix2 20 = 1048576) by reflexivity. assert (B' : bpow radix2 (-20) = / 1048576) by reflexivity. rewrite B, B'.
  repeat split; try lra; try reflexivity.
Qed.

(* Without absorption the cancellation can make the fraction negative: index 1 + 1110 * 2^-23 and
   cosine 1 - 1998 * 2^-24. *)
Theorem float_conductor_negative_refuted : exists n k cosin, index n /\ fin k /\ fin cosin /\ 0 <= val k <= bpow radix2 20 /\ 0 <= val cosin <= 1 /\
  val (f_conductor n k cosin) < 0.
Proof.
  exists (fnum 8389718 (-23)), fzero, (fnum 16775218 (-24)). destruct fzero_val as (FZ & VZ). rewrite VZ.
  assert (N : val (fnum 8389718 (-23)) = 8389718 / 8388608) by (erewrite lit_val by (vm_compute; reflexivity); cbn; lra).
  assert (C : val (fnum 16775218 (-24)) = 16775218 / 16777216) by (erewrite lit_val by (vm_compute; reflexivity); cbn; lra).
  assert (V : val (f_conductor (fnum 8389718 (-23)) fzero (fnum 16775218 (-24))) = - (16776994 * bpow radix2 (-50))) by (erewrite lit_neg by (vm_compute; reflexivity); reflexivity).
  unfold index. rewrite N, C, V. assert (B : bpow radix2 20 = 1048576) by reflexivity. assert (B' : bpow radix2 (-20) = / 1048576) by reflexivity. rewrite B, B'. pose proof (bpow_gt_0 radix2 (-50)).
  repeat split; try lra; try reflexivity; exact FZ.
Qed.
Print Assumptions float_conductor_negative_refuted.
