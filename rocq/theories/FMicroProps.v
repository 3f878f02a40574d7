(* Blinn and Beckmann masking and rough reflection in single precision. *)
From Coq Require Import ZArith Reals List Lra Lia Bool.
From Flocq Require Import Core.Core IEEE754.BinarySingleNaN.
From Verif Require Import Common FltModel FltFacts FltProps FExtFacts FRayModel FSphereProps FBoxMarginProps FMatBoundProps FFilmProps FFresProps FTexModel FTexProps FltVecProps FSpecProps FNearFacts FMisProps FGgxModel FGgxProps FOrenProps FFresNearProps FMicroModel.
Local Open Scope R_scope.

(* numerator and denominator over the reals *)
Lemma ratio_real : forall c, 0 <= c <= 161 / 100 -> 3535 / 1000 * c + 2181 / 1000 * c * c <= 10001 / 10000 * (1 + 2276 / 1000 * c + 2577 / 1000 * c * c).
Proof. intros c C. pose proof (Rle_0_sqr (c - 1589 / 1000)) as S. unfold Rsqr in S. nra. Qed.

Lemma lit_parts :
  near (fnum 14826865 (-22)) (3535 / 1000) 4 2 /\ near (fnum 9147777 (-22)) (2181 / 1000) 3 2 /\ near (fnum 9546236 (-22)) (2276 / 1000) 3 2 /\ near (fnum 10808721 (-22)) (2577 / 1000) 3 2.
Proof. repeat split; try reflexivity; try (rewrite Rabs_pos_eq by lra; lra); (erewrite lit_val by (vm_compute; reflexivity)); apply Rabs_le; unfold u24; cbn; lra. Qed.

Lemma ratio_parts : forall c, fin c -> 0 <= val c <= 161 / 100 ->
  let n := fadd (fmul (fnum 14826865 (-22)) c) (fmul (fmul (fnum 9147777 (-22)) c) c) in
  let d := fadd (fadd fone (fmul (fnum 9546236 (-22)) c)) (fmul (fmul (fnum 10808721 (-22)) c) c) in
  near n (3535 / 1000 * val c + 2181 / 1000 * val c * val c) 12 80 /\ near d (1 + 2276 / 1000 * val c + 2577 / 1000 * val c * val c) 12 80.
Proof.
  intros c F C n d. destruct lit_parts as (K1 & K2 & K3 & K4). assert (NC : near c (val c) (161 / 100) 0) by (apply near_exact; [exact F|apply Rabs_le; lra]).
  assert (CC : 0 <= val c * val c <= 2593 / 1000) by (split; [apply Rmult_le_pos; lra|]; apply Rle_trans with (161 / 100 * (161 / 100)); [apply Rmult_le_compat; lra|lra]).
  assert (M1 : near (fmul (fnum 14826865 (-22)) c) (3535 / 1000 * val c) 6 11).
  { eapply near_weaken; [apply (near_mul _ _ _ _ _ _ _ _ 6 K1 NC); try lra; apply Rabs_le; lra|lra|lra]. }
  assert (M2 : near (fmul (fnum 9147777 (-22)) c) (2181 / 1000 * val c) 4 8).
  { eapply near_weaken; [apply (near_mul _ _ _ _ _ _ _ _ 4 K2 NC); try lra; apply Rabs_le; lra|lra|lra]. }
  assert (M3 : near (fmul (fnum 9546236 (-22)) c) (2276 / 1000 * val c) 4 8).
  { eapply near_weaken; [apply (near_mul _ _ _ _ _ _ _ _ 4 K3 NC); try lra; apply Rabs_le; lra|lra|lra]. }
  assert (M4 : near (fmul (fnum 10808721 (-22)) c) (2577 / 1000 * val c) 5 9).
  { eapply near_weaken; [apply (near_mul _ _ _ _ _ _ _ _ 5 K4 NC); try lra; apply Rabs_le; lra|lra|lra]. }
  assert (Q2 : near (fmul (fmul (fnum 9147777 (-22)) c) c) (2181 / 1000 * val c * val c) 6 20).
  { eapply near_weaken; [apply (near_mul _ _ _ _ _ _ _ _ 6 M2 NC); try lra; apply Rabs_le; lra|lra|lra]. }
  assert (Q4 : near (fmul (fmul (fnum 10808721 (-22)) c) c) (2577 / 1000 * val c * val c) 7 23).
  { eapply near_weaken; [apply (near_mul _ _ _ _ _ _ _ _ 7 M4 NC); try lra; apply Rabs_le; lra|lra|lra]. }
  destruct fone_val as (F1 & V1). assert (N1 : near fone 1 1 0) by (split; [exact F1|]; rewrite V1, Rminus_diag_eq, Rabs_R0, Rabs_R1 by reflexivity; lra).
  assert (A3 : near (fadd fone (fmul (fnum 9546236 (-22)) c)) (1 + 2276 / 1000 * val c) 5 14).
  { eapply near_weaken; [apply (near_add _ _ _ _ _ _ _ _ 5 N1 M3); try lra; apply Rabs_le; lra|lra|lra]. }
  split.
  - eapply near_weaken; [apply (near_add _ _ _ _ _ _ _ _ 12 M1 Q2); try lra; apply Rabs_le; lra|lra|lra].
  - eapply near_weaken; [apply (near_add _ _ _ _ _ _ _ _ 12 A3 Q4); try lra; apply Rabs_le; lra|lra|lra].
Qed.

(* the numerator is at least c *)
Lemma ratio_pos : forall c, fin c -> 0 <= val c <= 161 / 100 -> val c <= val (fadd (fmul (fnum 14826865 (-22)) c) (fmul (fmul (fnum 9147777 (-22)) c) c)).
Proof.
  intros c F C. assert (K1 : fin (fnum 14826865 (-22)) /\ val (fnum 14826865 (-22)) = 14826865 / 4194304) by (split; [reflexivity|erewrite lit_val by (vm_compute; reflexivity); cbn; lra]).
  assert (K2 : fin (fnum 9147777 (-22)) /\ val (fnum 9147777 (-22)) = 9147777 / 4194304) by (split; [reflexivity|erewrite lit_val by (vm_compute; reflexivity); cbn; lra]).
  destruct K1 as (F1 & V1). destruct K2 as (F2 & V2). set (k1 := fnum 14826865 (-22)) in *. set (k2 := fnum 9147777 (-22)) in *. clearbody k1 k2.
  assert (f8 : fits 8) by (change 8 with (bpow radix2 3); apply fits_bpow; lia).
  destruct (fmul_val k1 c F1 F) as (FA & VA); [rewrite V1; apply (small_127 _ 3); [lia|apply Rabs_le; cbn; lra]|].
  assert (A : val c <= val (fmul k1 c) <= 8). { rewrite VA, V1. apply rnd_between; [apply fits_val|exact f8|lra]. }
  destruct (fmul_val k2 c F2 F) as (FB & VB); [rewrite V2; apply (small_127 _ 3); [lia|apply Rabs_le; cbn; lra]|].
  assert (B : 0 <= val (fmul k2 c) <= 8). { rewrite VB, V2. apply rnd_between; [apply fits_0|exact f8|lra]. }
  assert (P : 0 <= val (fmul k2 c) * val c <= 16) by (split; [apply Rmult_le_pos; lra|]; apply Rle_trans with (8 * 2); [apply Rmult_le_compat; lra|lra]).
  destruct (fmul_val (fmul k2 c) c FB F) as (FD & VD); [apply (small_127 _ 4); [lia|rewrite Rabs_pos_eq by lra; cbn; lra]|].
  assert (D : 0 <= val (fmul (fmul k2 c) c) <= 16). { rewrite VD. apply rnd_between; [apply fits_0|change 16 with (bpow radix2 4); apply fits_bpow; lia|exact P]. }
  destruct (fadd_val _ _ FA FD) as (FE & VE); [apply (small_127 _ 5); [lia|apply Rabs_le; cbn; lra]|]. rewrite VE. rewrite <- (rnd_fits (val c)) by apply fits_val. apply rnd_le. lra.
Qed.

Lemma quotient_real : forall c n d, 0 <= c <= 161 / 100 -> c <= n -> Rabs (n - (3535 / 1000 * c + 2181 / 1000 * c * c)) <= 80 * u24 -> Rabs (d - (1 + 2276 / 1000 * c + 2577 / 1000 * c * c)) <= 80 * u24 ->
  0 < d <= 16 /\ c / 16 <= n / d <= 10001 / 10000 + / 50000.
Proof.
  intros c n d C N EN ED. pose proof (ratio_real c C) as R. apply abs_both in EN. apply abs_both in ED.
  assert (CC : 0 <= c * c <= 2593 / 1000) by (split; [apply Rmult_le_pos; lra|]; apply Rle_trans with (161 / 100 * (161 / 100)); [apply Rmult_le_compat; lra|lra]).
  unfold u24 in *. assert (D : 99 / 100 <= d <= 16) by lra. split; [lra|]. split.
  - apply Rmult_le_reg_r with d; [lra|]. unfold Rdiv at 2. rewrite Rmult_assoc, Rinv_l, Rmult_1_r by lra. apply Rle_trans with (c / 16 * 16); [apply Rmult_le_compat_l; lra|lra].
  - apply Rmult_le_reg_r with d; [lra|]. unfold Rdiv at 1. rewrite Rmult_assoc, Rinv_l, Rmult_1_r by lra. lra.
Qed.

Lemma ratio_range : forall c, fin c -> 0 <= val c -> fin (f_g1_ratio c) /\ 0 <= val (f_g1_ratio c) <= 10002 / 10000 /\ (bpow radix2 (-100) <= val c -> 0 < val (f_g1_ratio c)).
Proof.
  intros c F C. destruct fone_val as (F1 & V1). unfold f_g1_ratio. assert (K : fin (fnum 13421773 (-23)) /\ val (fnum 13421773 (-23)) = 13421773 / 8388608) by (split; [reflexivity|erewrite lit_val by (vm_compute; reflexivity); cbn; lra]). destruct K as (FK & VK).
  destruct (fle (fnum 13421773 (-23)) c) eqn:T; [split; [exact F1|]; rewrite V1; split; [lra|intros; lra]|].
  assert (L : val c <= 161 / 100). { destruct (Rle_or_lt (val (fnum 13421773 (-23))) (val c)) as [G|G]; [apply (fle_val _ _ FK F) in G; congruence|rewrite VK in G; lra]. } clear T FK VK.
  destruct (ratio_parts c F (conj C L)) as ((FN & EN & _) & (FD & ED & _)). pose proof (ratio_pos c F (conj C L)) as N. cbv zeta in *.
  set (n := fadd (fmul (fnum 14826865 (-22)) c) _) in *. set (d := fadd (fadd fone _) _) in *. clearbody n d.
  destruct (quotient_real _ _ _ (conj C L) N EN ED) as (D & Q). destruct (fdiv_val n d FN) as (FQ & VQ); [lra|apply (small_127 _ 1); [lia|rewrite Rabs_pos_eq by lra; cbn; lra]|].
  split; [exact FQ|]. rewrite VQ. split; [split; [apply rnd_nonneg; lra|]|].
  - pose proof (rerr (val n / val d)) as E. apply abs_both in E. rewrite (Rabs_pos_eq (val n / val d)) in E by lra. destruct h150_u24 as (H0 & H1). unfold u24 in *. lra.
  - intro P. apply Rlt_le_trans with (bpow radix2 (-104)); [apply bpow_gt_0|]. rewrite <- (rnd_fits (bpow radix2 (-104))) by (apply fits_bpow; lia). apply rnd_le. apply Rle_trans with (2 := proj1 Q).
    assert (W : bpow radix2 (-100) = 16 * bpow radix2 (-104)) by (change (-100)%Z with (4 + -104)%Z; rewrite bpow_plus; replace (bpow radix2 4) with 16 by (cbn; lra); reflexivity). lra.
Qed.

(* a positive float divided by one of positive sign is the rounded quotient or infinity *)
Lemma div_up : forall x y, fin x -> fin y -> 0 < val x -> Bsign y = false -> fdiv x y = B754_infinity false \/ (fin (fdiv x y) /\ 0 < val y /\ val (fdiv x y) = rnd (val x / val y)).
Proof.
  intros x y FX FY X S. destruct x as [s|s| |s m e h]; try discriminate; [cbn in X; lra|].
  assert (s = false) as -> by (destruct s; [pose proof (F2R_lt_0 radix2 (Float radix2 (Z.neg m) e) eq_refl) as L; unfold val, B2R in X; cbn in L, X; lra|reflexivity]).
  destruct y as [t|t| |t n k g]; try discriminate; cbn in S; subst t; [left; reflexivity|].
  set (x := B754_finite false m e h) in *. set (y := B754_finite false n k g) in *. assert (Y : 0 < val y) by (apply F2R_gt_0; reflexivity).
  pose proof (Bdiv_correct 24 128 prec24 emax128 mode_NE x y ltac:(unfold val in Y; lra)) as C. destruct (Rlt_bool _ _) in C.
  - right. destruct C as (C1 & C2 & _). split; [unfold fin, fdiv; rewrite C2; exact FX|]. split; [exact Y|exact C1].
  - left. apply sf_infinity. exact C.
Qed.

Lemma mul_sign : forall x y, fin x -> fin y -> Bsign x = false -> Bsign y = false -> Rabs (val x * val y) <= bpow radix2 127 -> Bsign (fmul x y) = false.
Proof.
  intros x y FX FY SX SY B. pose proof (Bmult_correct 24 128 prec24 emax128 mode_NE x y) as C. cbn [round_mode] in C. change (round radix2 (SpecFloat.fexp 24 128) ZnearestE (B2R x * B2R y)) with (rnd (val x * val y)) in C.
  rewrite Rlt_bool_true in C by (apply rnd_small, B). destruct C as (_ & C2 & C3). unfold fmul. rewrite C3, SX, SY; [reflexivity|]. rewrite FX, FY in C2. destruct (Bmult mode_NE x y); try discriminate; reflexivity.
Qed.

Lemma pos_sign : forall x, fin x -> 0 < val x -> Bsign x = false.
Proof.
  intros x F P. destruct x as [s|s| |s m e h]; try discriminate; [cbn in P; lra|]. destruct s; [pose proof (F2R_lt_0 radix2 (Float radix2 (Z.neg m) e) eq_refl) as L; unfold val, B2R in P; cbn in L, P; lra|reflexivity].
Qed.

Lemma ratio_inf : f_g1_ratio (B754_infinity false) = fone.
Proof. reflexivity. Qed.

(* Beckmann masking: for every finite roughness but -0 and every direction a number from 0 to
   1.0002, 0 in the surface and positive for cosines of at least 2^-100. *)
Lemma beckmann_one : forall r z, fin r -> r <> B754_zero true -> fin z ->
  let g := f_beckmann_g1 (f_beckmann r) z in
  fin g /\ 0 <= val g <= 10002 / 10000 /\ (val z = 0 -> val g = 0) /\ (bpow radix2 (-100) <= Rabs (val z) -> 0 < val g) /\ (1 <= Rabs (val z) -> val g = 1).
Proof.
  intros r z FR NR FZ. cbv zeta. destruct fzero_val as (F0 & V0). destruct fone_val as (F1 & V1). destruct (clamp_unit r FR) as (FA & VA).
  assert (SA : Bsign (f_beckmann r) = false).
  { unfold f_beckmann, f_clamp, fgt. fold (flt fone r). destruct (flt r fzero) eqn:E0; [reflexivity|]. destruct (flt fone r); [reflexivity|].
    assert (P : 0 <= val r). { apply Rnot_lt_le. intro L. rewrite <- V0 in L. apply (flt_val _ _ FR F0) in L. congruence. }
    destruct (Rle_lt_or_eq_dec _ _ P) as [Q|Q]; [apply pos_sign; assumption|]. symmetry in Q. destruct r as [s|s| |s m e h]; try discriminate; [destruct s; [congruence|reflexivity]|].
    exfalso. unfold val, B2R in Q. apply eq_0_F2R in Q. destruct s; discriminate. }
  fold (f_beckmann r) in FA, VA. assert (A : 0 <= val (f_beckmann r) <= 1) by (rewrite VA; split; [apply Rmax_l|apply Rmax_lub; [lra|apply Rmin_l]]). set (a := f_beckmann r) in *. clearbody a. clear VA FR NR r.
  destruct (abs_val z FZ) as (FC & VC). unfold f_beckmann_g1. cbv zeta. rewrite <- VC. pose proof (Rabs_pos (val z)) as C0. rewrite <- VC in C0.
  assert (Z0 : val z = 0 -> val (fabs z) = 0) by (intro H; rewrite VC, H; apply Rabs_R0). set (c := fabs z) in *. clearbody c. clear VC FZ. pose proof (bpow_gt_0 radix2 (-100)) as P100.
  assert (ZW : val z = 0 -> val c = 0) by exact Z0. clear Z0.
  destruct (Beqb c fzero) eqn:E; [apply (eqb_val _ _ FC F0) in E; rewrite V0 in E; rewrite V0; split; [exact F0|]; split; [lra|]; split; [reflexivity|]; split; intros; lra|].
  assert (CP : 0 < val c). { destruct (Rle_lt_or_eq_dec _ _ C0) as [Q|Q]; [exact Q|]. symmetry in Q. rewrite <- V0 in Q. apply (eqb_val _ _ FC F0) in Q. congruence. }
  destruct (fle fone c) eqn:T; [rewrite V1; split; [exact F1|]; split; [lra|]; split; [intro H; apply ZW in H; lra|split; [intros; lra|reflexivity]]|].
  assert (C1 : val c < 1). { apply Rnot_le_lt. intro L. rewrite <- V1 in L. apply (fle_val _ _ F1 FC) in L. congruence. }
  destruct (sine_below_one c FC) as (FS & S); [lra|]. cbv zeta in *. set (s := fsqrt _) in *. clearbody s. pose proof (bpow_gt_0 radix2 (-12)) as P12.
  assert (SB : 0 <= val s * val a <= 1) by (split; [apply Rmult_le_pos; lra|apply Rle_trans with (1 * 1); [apply Rmult_le_compat; lra|lra]]).
  assert (B127 : Rabs (val s * val a) <= bpow radix2 127) by (apply one_127; rewrite Rabs_pos_eq; lra).
  destruct (fmul_val s a FS FA B127) as (FD & VD). pose proof (mul_sign s a FS FA (pos_sign s FS ltac:(lra)) SA B127) as SD. assert (D : val (fmul s a) <= 1) by (rewrite VD; apply rnd_unit; exact SB). set (d := fmul s a) in *. clearbody d.
  destruct (div_up c d FC FD CP SD) as [I|(FQ & DP & VQ)]; [rewrite I, ratio_inf, V1; split; [exact F1|]; split; [lra|]; split; [intro H; apply ZW in H; lra|split; intros; lra]|].
  assert (Q : val c <= val (fdiv c d)). { rewrite VQ. rewrite <- (rnd_fits (val c)) at 1 by apply fits_val. apply rnd_le. unfold Rdiv. rewrite <- (Rmult_1_r (val c)) at 1. apply Rmult_le_compat_l; [lra|]. rewrite <- Rinv_1. apply Rinv_le_contravar; lra. }
  destruct (ratio_range (fdiv c d) FQ) as (FG & G & GP); [lra|]. split; [exact FG|]. split; [exact G|]. split; [intro H; apply ZW in H; lra|]. split; [intro H; apply GP; lra|intro H; lra].
Qed.

Lemma pair_range : forall g h, fin g -> fin h -> 0 <= val g <= 10002 / 10000 -> 0 <= val h <= 10002 / 10000 -> fin (fmul g h) /\ 0 <= val (fmul g h) <= 1001 / 1000 /\ (val g = 0 \/ val h = 0 -> val (fmul g h) = 0).
Proof.
  intros g h FG FH G H. assert (P : 0 <= val g * val h <= 10005 / 10000) by (split; [apply Rmult_le_pos; lra|apply Rle_trans with (10002 / 10000 * (10002 / 10000)); [apply Rmult_le_compat; lra|lra]]).
  destruct (fmul_val g h FG FH) as (F & V); [apply (small_127 _ 1); [lia|rewrite Rabs_pos_eq by lra; cbn; lra]|]. split; [exact F|]. rewrite V. split; [split; [apply rnd_nonneg; lra|]|].
  - pose proof (rerr (val g * val h)) as E. apply abs_both in E. rewrite (Rabs_pos_eq (val g * val h)) in E by lra. destruct h150_u24 as (H0 & H1). unfold u24 in *. lra.
  - intros [->| ->]; [rewrite Rmult_0_l|rewrite Rmult_0_r]; apply rnd_0.
Qed.

Theorem float_beckmann_masking : forall r, fin r -> r <> B754_zero true ->
  (forall z, fin z -> let g := f_beckmann_g1 (f_beckmann r) z in
     fin g /\ 0 <= val g <= 10002 / 10000 /\ (val z = 0 -> val g = 0) /\ (bpow radix2 (-100) <= Rabs (val z) -> 0 < val g) /\ (1 <= Rabs (val z) -> val g = 1)) /\
  (forall y z, fin y -> fin z -> let g := f_beckmann_g (f_beckmann r) y z in
     fin g /\ 0 <= val g <= 1001 / 1000 /\ (val y = 0 \/ val z = 0 -> val g = 0) /\ f_beckmann_g (f_beckmann r) z y = g).
Proof.
  intros r FR NR. split; [intros z FZ; apply beckmann_one; assumption|]. intros y z FY FZ. cbv zeta. destruct (beckmann_one r y FR NR FY) as (FG & G & G0 & _). destruct (beckmann_one r z FR NR FZ) as (FH & H & H0 & _). cbv zeta in *.
  unfold f_beckmann_g. destruct (pair_range _ _ FG FH G H) as (F & B & Z). split; [exact F|]. split; [exact B|]. split; [intros [K|K]; apply Z; auto|apply mul_comm].
Qed.
Print Assumptions float_beckmann_masking.

(* roughness 1/2, a cosine of 1/2 *)
Example beckmann_masking_case : flt (fnum 14 (-4)) (f_beckmann_g1 (f_beckmann (fnum 1 (-1))) (fnum 1 (-1))) = true /\ flt (f_beckmann_g1 (f_beckmann (fnum 1 (-1))) (fnum 1 (-1))) fone = true /\ fnum 1 (-1) <> B754_zero true.
Proof. split; [vm_compute; reflexivity|]. split; [vm_compute; reflexivity|]. intro H. apply (f_equal (fun x => B2SF x)) in H. vm_compute in H. discriminate. Qed.

(* The constructor keeps a roughness of -0, and every direction between the surface and the normal
   is then masked by something that is not a number. *)
Theorem float_beckmann_negative_zero_refuted : forall z, fin z -> 0 < Rabs (val z) < 1 -> f_beckmann_g1 (f_beckmann (B754_zero true)) z = B754_nan.
Proof.
  intros z FZ Z. destruct fzero_val as (F0 & V0). destruct fone_val as (F1 & V1). destruct (abs_val z FZ) as (FC & VC). unfold f_beckmann_g1. cbv zeta. rewrite <- VC in Z. set (c := fabs z) in *. clearbody c. clear VC FZ z.
  destruct (Beqb c fzero) eqn:E; [apply (eqb_val _ _ FC F0) in E; lra|]. destruct (fle fone c) eqn:T; [apply (fle_val _ _ F1 FC) in T; lra|].
  destruct (sine_below_one c FC) as (FS & S); [lra|]. cbv zeta in *. set (s := fsqrt _) in *. clearbody s. pose proof (bpow_gt_0 radix2 (-12)) as P12.
  pose proof (pos_sign s FS ltac:(lra)) as SS. pose proof (pos_sign c FC ltac:(lra)) as SC. change (f_beckmann (B754_zero true)) with (B754_zero true : f32).
  destruct s as [b|b| |b m e h]; try discriminate; [cbn in S; lra|]. cbn in SS. subst b. destruct c as [b|b| |b m' e' h']; try discriminate; cbn in SC; subst b. reflexivity.
Qed.
Print Assumptions float_beckmann_negative_zero_refuted.

Example beckmann_negative_zero_case : fin (fnum 1 (-1)) /\ f_beckmann_g1 (f_beckmann (B754_zero true)) (fnum 1 (-1)) = B754_nan.
Proof. split; reflexivity. Qed.

Lemma clamp_in : forall v lo hi, fin v -> fin lo -> fin hi -> val lo <= val hi -> fin (f_clamp v lo hi) /\ val lo <= val (f_clamp v lo hi) <= val hi.
Proof.
  intros v lo hi FV FL FH L. unfold f_clamp, fgt. fold (flt hi v). destruct (flt v lo) eqn:E0; [split; [exact FL|lra]|].
  assert (P : val lo <= val v). { apply Rnot_lt_le. intro K. apply (flt_val _ _ FV FL) in K. congruence. }
  destruct (flt hi v) eqn:E1; [split; [exact FH|lra]|]. assert (Q : val v <= val hi). { apply Rnot_lt_le. intro K. apply (flt_val _ _ FH FV) in K. congruence. } split; [exact FV|lra].
Qed.

(* the sine of a cosine below 1, without max *)
Lemma sine_plain : forall c, fin c -> 0 <= val c < 1 -> let s := fsqrt (fsub fone (fmul c c)) in fin s /\ bpow radix2 (-12) <= val s <= 1.
Proof.
  intros c F C. cbv zeta. destruct fone_val as (F1 & V1). destruct fzero_val as (F0 & V0). pose proof (unit_square (val c) ltac:(lra)) as Q. destruct (fmul_val c c F F) as (FM & VM); [apply one_127; rewrite Rabs_pos_eq; lra|].
  assert (M : 0 <= val (fmul c c) <= 1) by (rewrite VM; apply rnd_unit; exact Q). destruct (fsub_val fone (fmul c c) F1 FM) as (FS & VS); [rewrite V1; apply one_127; rewrite Rabs_pos_eq; lra|].
  assert (S : 0 <= val (fsub fone (fmul c c))) by (rewrite VS, V1; apply rnd_nonneg; lra).
  destruct (sine_below_one c F C) as (FK & K). cbv zeta in *. unfold fmax, fgt in FK, K. fold (flt (fsub fone (fmul c c)) fzero) in FK, K.
  destruct (flt (fsub fone (fmul c c)) fzero) eqn:E; [apply (flt_val _ _ FS F0) in E; lra|]. split; assumption.
Qed.

Lemma blinn_one : forall x z, fin x -> fin z ->
  let g := f_blinn_g1 (f_blinn x) z in
  fin g /\ 0 <= val g <= 10002 / 10000 /\ (val z = 0 -> val g = 0) /\ (bpow radix2 (-99) <= Rabs (val z) -> 0 < val g) /\ (1 <= Rabs (val z) -> val g = 1).
Proof.
  intros x z FX FZ. cbv zeta. destruct fzero_val as (F0 & V0). destruct fone_val as (F1 & V1). destruct (of_Z_exact 100000) as (FH & VH); [lia|].
  destruct (clamp_in x fzero (of_Z 100000) FX F0 FH) as (FE & E); [lra|]. fold (f_blinn x) in FE, E. rewrite V0, VH in E. set (e := f_blinn x) in *. clearbody e. clear x FX FH VH.
  destruct (abs_val z FZ) as (FC & VC). unfold f_blinn_g1. cbv zeta. rewrite <- VC. pose proof (Rabs_pos (val z)) as C0. rewrite <- VC in C0.
  assert (ZW : val z = 0 -> val (fabs z) = 0) by (intro H; rewrite VC, H; apply Rabs_R0). set (c := fabs z) in *. clearbody c. clear VC FZ. pose proof (bpow_gt_0 radix2 (-99)) as P99. pose proof (bpow_gt_0 radix2 (-100)) as P100.
  destruct (Beqb c fzero) eqn:EC; [apply (eqb_val _ _ FC F0) in EC; rewrite V0 in EC; rewrite V0; split; [exact F0|]; split; [lra|]; split; [reflexivity|]; split; intros; lra|].
  assert (CP : 0 < val c). { destruct (Rle_lt_or_eq_dec _ _ C0) as [Q|Q]; [exact Q|]. symmetry in Q. rewrite <- V0 in Q. apply (eqb_val _ _ FC F0) in Q. congruence. }
  destruct (fle fone c) eqn:T; [rewrite V1; split; [exact F1|]; split; [lra|]; split; [intro H; apply ZW in H; lra|split; [intros; lra|reflexivity]]|].
  assert (C1 : val c < 1). { apply Rnot_le_lt. intro L. rewrite <- V1 in L. apply (fle_val _ _ F1 FC) in L. congruence. }
  destruct (sine_plain c FC) as (FS & S); [lra|]. cbv zeta in *. set (s := fsqrt (fsub fone (fmul c c))) in *. clearbody s. pose proof (bpow_gt_0 radix2 (-12)) as P12.
  assert (H2 : fin (fnum 1 (-1)) /\ val (fnum 1 (-1)) = / 2) by (split; [reflexivity|erewrite lit_val by (vm_compute; reflexivity); cbn; lra]). destruct H2 as (F2 & V2). set (half := fnum 1 (-1)) in *. clearbody half.
  destruct (fmul_val half e F2 FE) as (FM & VM); [rewrite V2; apply (small_127 _ 16); [lia|rewrite Rabs_pos_eq by lra; cbn; lra]|]. rewrite V2 in VM.
  assert (M : 0 <= val (fmul half e) <= bpow radix2 16) by (rewrite VM; apply rnd_between; [apply fits_0|apply fits_bpow; lia|cbn; lra]). set (m := fmul half e) in *. clearbody m. clear VM V2 F2 half.
  assert (B17 : bpow radix2 16 = 65536) by (cbn; lra). rewrite B17 in M.
  destruct (fadd_val m fone FM F1) as (FT & VT); [rewrite V1; apply (small_127 _ 17); [lia|rewrite Rabs_pos_eq by lra; cbn; lra]|]. rewrite V1 in VT.
  assert (f1 : fits 1) by (change 1 with (bpow radix2 0); apply fits_bpow; lia).
  assert (TT : 1 <= val (fadd m fone) <= bpow radix2 18) by (rewrite VT; apply rnd_between; [exact f1|apply fits_bpow; lia|cbn; lra]). set (t := fadd m fone) in *. clearbody t. clear VT.
  destruct (fsqrt_val t FT) as (FU & VU); [lra|].
  assert (U : 1 <= val (fsqrt t) <= 512).
  { rewrite VU. apply rnd_between; [exact f1|change 512 with (bpow radix2 9); apply fits_bpow; lia|]. split; [rewrite <- sqrt_1; apply sqrt_le_1_alt; lra|]. rewrite <- (sqrt_square 512) by lra. apply sqrt_le_1_alt. apply Rle_trans with (1 := proj2 TT). cbn; lra. }
  set (u := fsqrt t) in *. clearbody u. clear VU TT FT t.
  destruct (div_up s c FS FC) as [I|(FQ & _ & VQ)]; [lra|apply pos_sign; assumption| |].
  - rewrite I. assert (W : fdiv u (B754_infinity false) = B754_zero false). { pose proof (pos_sign u FU ltac:(lra)) as SU. destruct u as [b|b| |b ? ? ?]; try discriminate; cbn in SU; subst b; reflexivity. }
    rewrite W. change (f_g1_ratio (B754_zero false)) with (f_g1_ratio fzero). destruct (ratio_range fzero F0) as (FG & G & _); [lra|]. split; [exact FG|]. split; [exact G|]. split; [intro H; apply ZW in H; lra|]. split; [|intro H; lra].
    intro H. exfalso. assert (X : Rabs (val s / val c) <= bpow radix2 127).
    { assert (IC : 0 < / val c <= bpow radix2 99) by (split; [apply Rinv_0_lt_compat; lra|]; change 99%Z with (- -99)%Z; rewrite bpow_opp; apply Rinv_le_contravar; lra). unfold Rdiv. rewrite Rabs_pos_eq by (apply Rmult_le_pos; lra).
      apply Rle_trans with (1 * bpow radix2 99); [apply Rmult_le_compat; lra|]. rewrite Rmult_1_l. apply bpow_le; lia. }
    destruct (fdiv_val s c FS ltac:(lra) X) as (FK & _). rewrite I in FK. discriminate.
  - assert (Q : bpow radix2 (-12) <= val (fdiv s c)). { rewrite VQ. rewrite <- (rnd_fits (bpow radix2 (-12))) by (apply fits_bpow; lia). apply rnd_le. unfold Rdiv. rewrite <- (Rmult_1_r (bpow radix2 (-12))). apply Rmult_le_compat; try lra. rewrite <- Rinv_1. apply Rinv_le_contravar; lra. }
    assert (QU : bpow radix2 (-99) <= val c -> val (fdiv s c) <= bpow radix2 99).
    { intro H. rewrite VQ. rewrite <- (rnd_fits (bpow radix2 99)) by (apply fits_bpow; lia). apply rnd_le. unfold Rdiv. rewrite <- (Rmult_1_l (bpow radix2 99)). apply Rmult_le_compat; try lra; [left; apply Rinv_0_lt_compat; lra|]. change 99%Z with (- -99)%Z. rewrite bpow_opp. apply Rinv_le_contravar; lra. }
    set (q := fdiv s c) in *. clearbody q. clear VQ.
    assert (IQ : 0 < / val q <= bpow radix2 12) by (split; [apply Rinv_0_lt_compat; lra|]; change 12%Z with (- -12)%Z; rewrite bpow_opp; apply Rinv_le_contravar; lra).
    destruct (fdiv_val u q FU) as (FK & VK); [lra|apply (small_127 _ 21); [lia|]; unfold Rdiv; rewrite Rabs_pos_eq by (apply Rmult_le_pos; lra); change (bpow radix2 21) with (bpow radix2 (9 + 12)); rewrite bpow_plus; apply Rmult_le_compat; try lra; cbn; lra|].
    destruct (ratio_range (fdiv u q) FK) as (FG & G & GP); [rewrite VK; apply rnd_nonneg; unfold Rdiv; apply Rmult_le_pos; lra|]. split; [exact FG|]. split; [exact G|]. split; [intro H; apply ZW in H; lra|]. split; [|intro H; lra].
    intro H. apply GP. rewrite VK. rewrite <- (rnd_fits (bpow radix2 (-100))) by (apply fits_bpow; lia). apply rnd_le. specialize (QU H). apply Rle_trans with (bpow radix2 (-99)); [apply bpow_le; lia|].
    unfold Rdiv. rewrite <- (Rmult_1_l (bpow radix2 (-99))). apply Rmult_le_compat; try lra. change (-99)%Z with (- (99))%Z. rewrite bpow_opp. apply Rinv_le_contravar; lra.
Qed.

(* Blinn masking: the same for every finite exponent. *)
Theorem float_blinn_masking : forall x, fin x ->
  (forall z, fin z -> let g := f_blinn_g1 (f_blinn x) z in
     fin g /\ 0 <= val g <= 10002 / 10000 /\ (val z = 0 -> val g = 0) /\ (bpow radix2 (-99) <= Rabs (val z) -> 0 < val g) /\ (1 <= Rabs (val z) -> val g = 1)) /\
  (forall y z, fin y -> fin z -> let g := f_blinn_g (f_blinn x) y z in
     fin g /\ 0 <= val g <= 1001 / 1000 /\ (val y = 0 \/ val z = 0 -> val g = 0) /\ f_blinn_g (f_blinn x) z y = g).
Proof.
  intros x FX. split; [intros z FZ; apply blinn_one; assumption|]. intros y z FY FZ. cbv zeta. destruct (blinn_one x y FX FY) as (FG & G & G0 & _). destruct (blinn_one x z FX FZ) as (FH & H & H0 & _). cbv zeta in *.
  unfold f_blinn_g. destruct (pair_range _ _ FG FH G H) as (F & B & Z). split; [exact F|]. split; [exact B|]. split; [intros [K|K]; apply Z; auto|apply mul_comm].
Qed.
Print Assumptions float_blinn_masking.

(* exponent 0, a cosine of 1/2 and one of 2^-140 *)
Example blinn_masking_case : flt (fnum 13 (-4)) (f_blinn_g1 (f_blinn fzero) (fnum 1 (-1))) = true /\ flt (f_blinn_g1 (f_blinn fzero) (fnum 1 (-1))) fone = true /\ B2SF (f_blinn_g1 (f_blinn fzero) (fnum 1 (-140))) = B2SF fzero.
Proof. split; [vm_compute; reflexivity|]. split; [vm_compute; reflexivity|]. vm_compute; reflexivity. Qed.
