(* Oren-Nayar in single precision: reciprocal bit by bit, in range, Lambertian at sigma 0. *)
From Coq Require Import ZArith Reals List Lra Lia Bool.
From Flocq Require Import Core.Core Mult_error IEEE754.BinarySingleNaN.
From Verif Require Import Common FltModel FltFacts FltProps FExtFacts FRayModel FSphereProps FBoxMarginProps FMatBoundProps FFilmProps FFresProps FTexModel FTexProps FSpecProps FMisProps FGgxModel FGgxProps FOrenModel.
Local Open Scope R_scope.

Lemma mul_comm : forall x y : f32, fmul x y = fmul y x.
Proof.
  intros x y. destruct x as [s|s| |s m e h], y as [t|t| |t n k g]; try reflexivity; try (destruct s, t; reflexivity).
  set (x := B754_finite s m e h). set (y := B754_finite t n k g).
  pose proof (Bmult_correct 24 128 prec24 emax128 mode_NE x y) as C. pose proof (Bmult_correct 24 128 prec24 emax128 mode_NE y x) as D.
  rewrite (Rmult_comm (B2R y)) in D. destruct (Rlt_bool _ _) in C, D.
  - destruct C as (C1 & C2 & C3), D as (D1 & D2 & D3). unfold fmul. apply B2R_Bsign_inj; [rewrite C2; reflexivity|rewrite D2; reflexivity|congruence|].
    rewrite C3, D3; [cbn; apply xorb_comm| |]; (match goal with |- is_nan ?z = false => destruct z; try reflexivity; discriminate end).
  - apply B2SF_inj. unfold fmul. rewrite C, D. rewrite xorb_comm. reflexivity.
Qed.

Lemma add_comm : forall x y : f32, fadd x y = fadd y x.
Proof.
  intros x y. destruct (is_finite x) eqn:FX.
  - destruct (is_finite y) eqn:FY.
    + pose proof (Bplus_correct 24 128 prec24 emax128 mode_NE x y FX FY) as C. pose proof (Bplus_correct 24 128 prec24 emax128 mode_NE y x FY FX) as D.
      rewrite (Rplus_comm (B2R y)) in D. destruct (Rlt_bool _ _) in C, D.
      * destruct C as (C1 & C2 & C3), D as (D1 & D2 & D3). unfold fadd. apply B2R_Bsign_inj; [exact C2|exact D2|congruence|]. rewrite C3, D3. destruct (Rcompare _ _); try reflexivity. apply andb_comm.
      * destruct C as (C1 & C2), D as (D1 & D2). apply B2SF_inj. unfold fadd. rewrite C1, D1, C2. reflexivity.
    + destruct x as [s|s| |s m e h], y as [t|t| |t n k g]; try discriminate; reflexivity.
  - destruct x as [s|s| |s m e h]; try discriminate; destruct y as [t|t| |t n k g]; try reflexivity. destruct s, t; reflexivity.
Qed.

Lemma square_abs : forall x : f32, fmul x x = fmul (fabs x) (fabs x).
Proof.
  intro x. destruct x as [s|s| |s m e h]; try reflexivity; try (destruct s; reflexivity).
  apply B2SF_inj. unfold fmul, fabs. cbn [Babs Bmult]. rewrite !B2SF_SF2B. rewrite xorb_nilpotent. reflexivity.
Qed.

Lemma sin_theta_fin : forall z, fgt (f_sin_theta z) fzero = true -> fin z.
Proof. intros z H. destruct z as [s|s| |s m e h]; try reflexivity; [destruct s; vm_compute in H; discriminate|vm_compute in H; discriminate]. Qed.

Lemma abs_same : forall x y : f32, fin x -> fin y -> val (fabs x) = val (fabs y) -> fabs x = fabs y.
Proof.
  intros x y FX FY E. destruct (abs_val x FX) as (GX & _). destruct (abs_val y FY) as (GY & _). apply B2R_Bsign_inj; [exact GX|exact GY|exact E|].
  unfold fabs. rewrite !Bsign_Babs. reflexivity.
Qed.

(* For all values of the coefficients and all directions, whatever their coordinates are, the value
   is the same float when the two directions are exchanged. *)
Theorem float_oren_reciprocal : forall a b wo wi, f_oren_value a b wo wi = f_oren_value a b wi wo.
Proof.
  intros a b wo wi. unfold f_oren_value. cbv zeta. rewrite (andb_comm (fgt (f_sin_theta (fz wo)) fzero)).
  destruct (fgt (f_sin_theta (fz wi)) fzero) eqn:SI; [|reflexivity]. destruct (fgt (f_sin_theta (fz wo)) fzero) eqn:SO; [|reflexivity]. cbn [andb].
  pose proof (sin_theta_fin _ SI) as FI. pose proof (sin_theta_fin _ SO) as FO. destruct (abs_val _ FI) as (GI & _). destruct (abs_val _ FO) as (GO & _).
  rewrite (mul_comm (f_cos_phi (fx wo) _)), (mul_comm (f_sin_phi (f_cos_phi (fx wo) _))).
  set (mc := fmax fzero _). clearbody mc. do 2 f_equal. unfold fgt. fold (flt (fabs (fz wo)) (fabs (fz wi))). fold (flt (fabs (fz wi)) (fabs (fz wo))).
  destruct (flt (fabs (fz wo)) (fabs (fz wi))) eqn:E1; destruct (flt (fabs (fz wi)) (fabs (fz wo))) eqn:E2; try reflexivity.
  - apply (flt_val _ _ GO GI) in E1. apply (flt_val _ _ GI GO) in E2. lra.
  - assert (E : fabs (fz wi) = fabs (fz wo)).
    { apply abs_same; [exact FI|exact FO|]. apply Rle_antisym; apply Rnot_lt_le; intro L; [apply (flt_val _ _ GO GI) in L|apply (flt_val _ _ GI GO) in L]; congruence. }
    unfold f_sin_theta. rewrite (square_abs (fz wi)), (square_abs (fz wo)), E. reflexivity.
Qed.
Print Assumptions float_oren_reciprocal.

(* sigma 1/2, two directions with different angles *)
Example oren_case : B2SF (f_oren_value (f_oren_a (fnum 1 (-1))) (f_oren_b (fnum 1 (-1))) (mk_fvec (fnum 3 (-2)) fzero (fnum 1 (-1))) (mk_fvec (fnum 1 (-2)) fzero (fnum 3 (-2)))) = SpecFloat.S754_finite false 10511823 (-25).
Proof. vm_compute. reflexivity. Qed.

Lemma minus_one : fin (of_Z (-1)) /\ val (of_Z (-1)) = -1.
Proof. destruct (of_Z_exact (-1)) as (F & V); [cbn; lia|]. split; [exact F|exact V]. Qed.

(* the quotient is a number or an infinity, so the clamped quotient is in [-1, 1] *)
Lemma cos_phi_val : forall x s, fin x -> fin s -> 0 < val s -> fin (f_cos_phi x s) /\ -1 <= val (f_cos_phi x s) <= 1.
Proof.
  intros x s FX FS S. destruct minus_one as (FN & VN). destruct fone_val as (F1 & V1). unfold f_cos_phi.
  pose proof (Bdiv_correct 24 128 prec24 emax128 mode_NE x s ltac:(unfold val in S; lra)) as C.
  assert (K : fin (fdiv x s) \/ exists t, fdiv x s = B754_infinity t).
  { destruct (Rlt_bool _ _) in C.
    - left. destruct C as (_ & C & _). unfold fin, fdiv. rewrite C. exact FX.
    - right. exists (xorb (Bsign x) (Bsign s)). apply B2SF_inj. exact C. }
  set (q := fdiv x s) in *. clearbody q. clear C. destruct K as [F|(t & E)].
  - unfold f_clamp, fgt. fold (flt fone q). destruct (flt q (of_Z (-1))) eqn:E0; [split; [exact FN|lra]|]. destruct (flt fone q) eqn:E1; [split; [exact F1|lra]|].
    split; [exact F|]. split; apply Rnot_lt_le; intro L.
    + rewrite <- VN in L. apply (flt_val _ _ F FN) in L. congruence.
    + rewrite <- V1 in L. apply (flt_val _ _ F1 F) in L. congruence.
  - subst q. assert (G : f_clamp (B754_infinity t) (of_Z (-1)) fone = if t then of_Z (-1) else fone) by (destruct t; reflexivity). rewrite G. destruct t; split; try assumption; lra.
Qed.

Lemma one_minus_square : forall c, fin c -> -1 <= val c <= 1 -> fin (fsub fone (fmul c c)) /\ 0 <= val (fsub fone (fmul c c)) <= 1.
Proof.
  intros c F C. destruct fone_val as (F1 & V1). assert (S : 0 <= val c * val c <= 1).
  { replace (val c * val c) with (Rabs (val c) * Rabs (val c)) by (rewrite <- Rabs_mult; apply Rabs_pos_eq, Rle_0_sqr). apply unit_square. split; [apply Rabs_pos|apply Rabs_le; exact C]. }
  destruct (fmul_val c c F F) as (FM & VM); [apply one_127; rewrite Rabs_pos_eq; lra|]. pose proof (rnd_unit _ S) as S1. rewrite <- VM in S1.
  destruct (fsub_val fone (fmul c c) F1 FM) as (FD & VD); [rewrite V1; apply one_127, Rabs_le; lra|]. split; [exact FD|]. rewrite VD, V1. apply rnd_unit; lra.
Qed.

Lemma sqrt_unit : forall x, 0 <= x <= 1 -> 0 <= sqrt x <= 1.
Proof. intros x X. split; [apply sqrt_pos|]. rewrite <- sqrt_1. apply sqrt_le_1_alt; lra. Qed.

Lemma sin_phi_val : forall c, fin c -> -1 <= val c <= 1 -> fin (f_sin_phi c) /\ 0 <= val (f_sin_phi c) <= 1.
Proof.
  intros c F C. destruct (one_minus_square c F C) as (FD & D). unfold f_sin_phi. destruct (fsqrt_val _ FD) as (FS & VS); [lra|]. pose proof (rnd_unit _ (sqrt_unit _ D)) as S. rewrite <- VS in S.
  destruct (max_zero _ FS) as (FM & VM). split; [exact FM|]. rewrite VM, Rmax_right; lra.
Qed.

Lemma sin_theta_val : forall z, fin z -> Rabs (val z) <= bpow radix2 60 -> fin (f_sin_theta z) /\ 0 <= val (f_sin_theta z) <= 1.
Proof.
  intros z F Z. destruct fone_val as (F1 & V1). assert (S : 0 <= val z * val z <= bpow radix2 120).
  { replace (val z * val z) with (Rabs (val z) * Rabs (val z)) by (rewrite <- Rabs_mult; apply Rabs_pos_eq, Rle_0_sqr). pose proof (Rabs_pos (val z)). split; [apply Rmult_le_pos; lra|]. change 120%Z with (60 + 60)%Z. rewrite bpow_plus. apply Rmult_le_compat; lra. }
  destruct (fmul_val z z F F) as (FM & VM); [apply (small_127 _ 120); [lia|rewrite Rabs_pos_eq; lra]|].
  assert (M : 0 <= val (fmul z z) <= bpow radix2 120) by (rewrite VM; apply rnd_between; [apply fits_0|apply fits_bpow; lia|exact S]). unfold f_sin_theta. set (m := fmul z z) in *. clearbody m.
  assert (B : 1 <= bpow radix2 120) by (change 1 with (bpow radix2 0); apply bpow_le; lia).
  destruct (fsub_val fone m F1 FM) as (FD & VD); [rewrite V1; apply (small_127 _ 120); [lia|apply Rabs_le; lra]|].
  assert (D1 : val (fsub fone m) <= 1) by (rewrite VD, V1; apply Rle_trans with (rnd 1); [apply rnd_le; lra|rewrite rnd_one; lra]).
  destruct (max_zero _ FD) as (FX & VX). assert (X : 0 <= val (fmax fzero (fsub fone m)) <= 1) by (rewrite VX; split; [apply Rmax_l|apply Rmax_lub; lra]).
  destruct (fsqrt_val _ FX) as (FS & VS); [lra|]. split; [exact FS|]. rewrite VS. apply rnd_unit, sqrt_unit, X.
Qed.

Lemma fits_double : forall x, fits x -> fits (2 * x).
Proof.
  intros x F. apply FLT_format_generic in F; [|reflexivity]. destruct F as [f E M L]. apply generic_format_FLT. exists (Float radix2 (Fnum f) (Fexp f + 1)); cbn; [|exact M|lia].
  rewrite E. unfold F2R. cbn [Fnum Fexp]. rewrite bpow_plus. cbn. ring.
Qed.

(* the coefficients *)
Lemma oren_coefficients : forall sigma, fin sigma -> Rabs (val sigma) <= bpow radix2 60 ->
  fin (f_oren_a sigma) /\ / 2 <= val (f_oren_a sigma) <= 1 /\ fin (f_oren_b sigma) /\ 0 <= val (f_oren_b sigma) <= / 2 /\
  (val sigma = 0 -> val (f_oren_a sigma) = 1 /\ val (f_oren_b sigma) = 0).
Proof.
  intros sigma F Z. destruct fone_val as (F1 & V1). assert (S : 0 <= val sigma * val sigma <= bpow radix2 120).
  { replace (val sigma * val sigma) with (Rabs (val sigma) * Rabs (val sigma)) by (rewrite <- Rabs_mult; apply Rabs_pos_eq, Rle_0_sqr). pose proof (Rabs_pos (val sigma)). split; [apply Rmult_le_pos; lra|]. change 120%Z with (60 + 60)%Z. rewrite bpow_plus. apply Rmult_le_compat; lra. }
  destruct (fmul_val sigma sigma F F) as (FM & VM); [apply (small_127 _ 120); [lia|rewrite Rabs_pos_eq; lra]|].
  assert (M : 0 <= val (fmul sigma sigma) <= bpow radix2 120) by (rewrite VM; apply rnd_between; [apply fits_0|apply fits_bpow; lia|exact S]).
  assert (MZ : val sigma = 0 -> val (fmul sigma sigma) = 0) by (intro E; rewrite VM, E, Rmult_0_l; apply rnd_0).
  unfold f_oren_a, f_oren_b. cbv zeta. set (m := fmul sigma sigma) in *. clearbody m. clear VM S.
  assert (B : 2 <= bpow radix2 120) by (change 2 with (bpow radix2 1); apply bpow_le; lia). assert (B1 : bpow radix2 121 = 2 * bpow radix2 120) by (cbn; lra). assert (B2 : bpow radix2 122 = 4 * bpow radix2 120) by (cbn; lra).
  destruct (fnum_val 11072963 (-25)) as (FA & VA); [rewrite Rabs_pos_eq; cbn; lra|]. assert (A : / 4 <= val (fnum 11072963 (-25)) <= 1) by (rewrite VA; apply rnd_between; [change (/ 4) with (bpow radix2 (-2)); apply fits_bpow; lia|change 1 with (bpow radix2 0); apply fits_bpow; lia|cbn; lra]).
  destruct (fnum_val 12079596 (-27)) as (FC & VC); [rewrite Rabs_pos_eq; cbn; lra|]. assert (C : / 16 <= val (fnum 12079596 (-27)) <= 1) by (rewrite VC; apply rnd_between; [change (/ 16) with (bpow radix2 (-4)); apply fits_bpow; lia|change 1 with (bpow radix2 0); apply fits_bpow; lia|cbn; lra]).
  destruct (fnum_val 15099494 (-25)) as (FB & VB); [rewrite Rabs_pos_eq; cbn; lra|]. assert (BB : 0 <= val (fnum 15099494 (-25)) <= / 2) by (rewrite VB; apply rnd_between; [apply fits_0|change (/ 2) with (bpow radix2 (-1)); apply fits_bpow; lia|cbn; lra]).
  clear VA VB VC. set (ka := fnum 11072963 (-25)) in *. set (kb := fnum 15099494 (-25)) in *. set (kc := fnum 12079596 (-27)) in *. clearbody ka kb kc.
  (* a sum with a positive literal is at least the square and at least the literal *)
  assert (SUM : forall k, fin k -> / 16 <= val k <= 1 -> fin (fadd m k) /\ val m <= val (fadd m k) <= bpow radix2 121 /\ val k <= val (fadd m k)).
  { intros k FK K. destruct (fadd_val m k FM FK) as (FS & VS); [apply (small_127 _ 121); [lia|rewrite Rabs_pos_eq; lra]|]. split; [exact FS|]. rewrite VS. split; [split|].
    - rewrite <- (rnd_fits (val m) (fits_val m)) at 1. apply rnd_le; lra.
    - rewrite <- (rnd_fits (bpow radix2 121)) by (apply fits_bpow; lia). apply rnd_le; lra.
    - rewrite <- (rnd_fits (val k) (fits_val k)) at 1. apply rnd_le; lra. }
  destruct (SUM ka FA ltac:(lra)) as (FS & S1 & S2). destruct (SUM kc FC ltac:(lra)) as (FT & T1 & T2). set (s := fadd m ka) in *. set (t := fadd m kc) in *. clearbody s t. clear SUM.
  destruct (of_Z_exact 2) as (F2 & V2); [cbn; lia|]. destruct (fmul_val (of_Z 2) s F2 FS) as (FD & VD); [rewrite V2; apply (small_127 _ 122); [lia|rewrite Rabs_pos_eq; lra]|]. rewrite V2 in VD.
  assert (D : 2 * val m <= val (fmul (of_Z 2) s) /\ / 4 <= val (fmul (of_Z 2) s)).
  { assert (G : val s <= val (fmul (of_Z 2) s)) by (rewrite VD; rewrite <- (rnd_fits (val s) (fits_val s)) at 1; apply rnd_le; lra). split; [|lra]. rewrite VD. rewrite <- (rnd_fits (2 * val m)) by (apply fits_double, fits_val). apply rnd_le; lra. }
  destruct D as (D1 & D2). set (d := fmul (of_Z 2) s) in *. clearbody d. clear VD.
  assert (Q : 0 <= val m / val d <= / 2).
  { unfold Rdiv. split; [apply Rmult_le_pos; [lra|left; apply Rinv_0_lt_compat; lra]|]. apply (Rmult_le_reg_r (val d)); [lra|]. rewrite Rmult_assoc, Rinv_l by lra. lra. }
  destruct (fdiv_val m d FM) as (FQ & VQ); [lra|apply one_127; rewrite Rabs_pos_eq; lra|].
  assert (Q2 : 0 <= val (fdiv m d) <= / 2) by (rewrite VQ; apply rnd_between; [apply fits_0|change (/ 2) with (bpow radix2 (-1)); apply fits_bpow; lia|exact Q]).
  assert (QZ : val m = 0 -> val (fdiv m d) = 0) by (intro E; rewrite VQ, E; unfold Rdiv; rewrite Rmult_0_l; apply rnd_0). set (q := fdiv m d) in *. clearbody q. clear VQ Q.
  destruct (fsub_val fone q F1 FQ) as (FR & VR); [rewrite V1; apply one_127, Rabs_le; lra|]. rewrite V1 in VR.
  assert (PB : 0 <= val kb * val m <= val m) by (split; [apply Rmult_le_pos; lra|apply Rle_trans with (1 * val m); [apply Rmult_le_compat_r; lra|lra]]).
  assert (PH : val kb * val m <= / 2 * val m) by (apply Rmult_le_compat_r; lra).
  destruct (fmul_val kb m FB FM) as (FP & VP); [apply (small_127 _ 120); [lia|rewrite Rabs_pos_eq; lra]|].
  assert (P : 0 <= val (fmul kb m) <= / 2 * val t).
  { rewrite VP. split; [apply rnd_nonneg; lra|]. destruct (Rle_or_lt (bpow radix2 (-100)) (val m)) as [L|L].
    - replace (/ 2 * val t) with (rnd (/ 2 * val m) + / 2 * (val t - val m)).
      + assert (rnd (val kb * val m) <= rnd (/ 2 * val m)) by (apply rnd_le; exact PH). lra.
      + replace (rnd (/ 2 * val m)) with (/ 2 * val m); [lra|]. symmetry. apply rnd_fits. change (/ 2) with (bpow radix2 (-1)). rewrite Rmult_comm. apply mult_bpow_exact_FLT; [apply fits_val|].
        assert (mag radix2 (val m) > -100)%Z by (apply Z.lt_gt, mag_gt_bpow; rewrite Rabs_pos_eq; [exact L|lra]). lia.
    - apply Rle_trans with (rnd (val m)); [apply rnd_le; lra|]. rewrite (rnd_fits (val m) (fits_val m)). assert (bpow radix2 (-100) <= / 32) by (change (/ 32) with (bpow radix2 (-5)); apply bpow_le; lia). lra. }
  assert (PZ : val m = 0 -> val (fmul kb m) = 0) by (intro E; rewrite VP, E, Rmult_0_r; apply rnd_0). set (n := fmul kb m) in *. clearbody n. clear VP.
  assert (Q3 : 0 <= val n / val t <= / 2).
  { unfold Rdiv. split; [apply Rmult_le_pos; [lra|left; apply Rinv_0_lt_compat; lra]|]. apply (Rmult_le_reg_r (val t)); [lra|]. rewrite Rmult_assoc, Rinv_l by lra. lra. }
  destruct (fdiv_val n t FP) as (FW & VW); [lra|apply one_127; rewrite Rabs_pos_eq; lra|].
  split; [exact FR|]. split; [|split; [exact FW|split]].
  - rewrite VR. apply rnd_between; [change (/ 2) with (bpow radix2 (-1)); apply fits_bpow; lia|change 1 with (bpow radix2 0); apply fits_bpow; lia|lra].
  - rewrite VW. apply rnd_between; [apply fits_0|change (/ 2) with (bpow radix2 (-1)); apply fits_bpow; lia|exact Q3].
  - intro E. specialize (MZ E). rewrite VR, VW, (QZ MZ), (PZ MZ). unfold Rdiv. rewrite Rmult_0_l, rnd_0, Rminus_0_r. split; [apply rnd_one|reflexivity].
Qed.

Lemma diffuse_val : fin f_diffuse /\ 3183 / 10000 <= val f_diffuse <= 3184 / 10000.
Proof. split; [reflexivity|]. unfold f_diffuse. erewrite lit_val by (vm_compute; reflexivity). cbn. lra. Qed.

(* the factor of the coefficient B *)
Lemma oren_factor : forall b wo wi, fin b -> 0 <= val b <= / 2 -> fin (fx wo) -> fin (fz wo) -> fin (fx wi) -> fin (fz wi) ->
  Rabs (val (fz wo)) <= bpow radix2 60 -> Rabs (val (fz wi)) <= bpow radix2 60 -> fgt (f_sin_theta (fz wi)) fzero = true -> fgt (f_sin_theta (fz wo)) fzero = true ->
  let mc := fmax fzero (fadd (fmul (f_cos_phi (fx wi) (f_sin_theta (fz wi))) (f_cos_phi (fx wo) (f_sin_theta (fz wo)))) (fmul (f_sin_phi (f_cos_phi (fx wi) (f_sin_theta (fz wi)))) (f_sin_phi (f_cos_phi (fx wo) (f_sin_theta (fz wo)))))) in
  fin (fmul b mc) /\ 0 <= val (fmul b mc) <= 1 /\ (val b = 0 -> val (fmul b mc) = 0).
Proof.
  intros b wo wi FB B FXO FZO FXI FZI ZO ZI SI SO. cbv zeta. destruct fzero_val as (F0 & V0).
  destruct (sin_theta_val _ FZI ZI) as (FSI & _). destruct (sin_theta_val _ FZO ZO) as (FSO & _).
  unfold fgt in SI, SO. apply (flt_val _ _ F0 FSI) in SI. apply (flt_val _ _ F0 FSO) in SO. rewrite V0 in SI, SO.
  destruct (cos_phi_val (fx wi) _ FXI FSI SI) as (FCI & CI). destruct (cos_phi_val (fx wo) _ FXO FSO SO) as (FCO & CO).
  set (ci := f_cos_phi (fx wi) _) in *. set (co := f_cos_phi (fx wo) _) in *. clearbody ci co. clear SI SO FSI FSO.
  destruct (sin_phi_val ci FCI CI) as (FPI & PI1). destruct (sin_phi_val co FCO CO) as (FPO & PO1). set (si := f_sin_phi ci) in *. set (so := f_sin_phi co) in *. clearbody si so.
  assert (P1 : Rabs (val ci * val co) <= 1) by (rewrite Rabs_mult; rewrite <- (Rmult_1_l 1); apply Rmult_le_compat; try apply Rabs_pos; apply Rabs_le; lra).
  destruct (fmul_val ci co FCI FCO) as (F1 & V1); [apply one_127; exact P1|]. pose proof P1 as Q1. apply abs_both in Q1.
  assert (R1 : -1 <= val (fmul ci co) <= 1) by (rewrite V1; apply rnd_between; [apply (fits_Z (-1)); cbn; lia|apply (fits_Z 1); cbn; lia|lra]).
  assert (P2 : 0 <= val si * val so <= 1) by (split; [apply Rmult_le_pos; lra|rewrite <- (Rmult_1_l 1); apply Rmult_le_compat; lra]).
  destruct (fmul_val si so FPI FPO) as (F2 & V2); [apply one_127; rewrite Rabs_pos_eq; lra|]. pose proof (rnd_unit _ P2) as R2. rewrite <- V2 in R2.
  set (p := fmul ci co) in *. set (r := fmul si so) in *. clearbody p r. clear V1 V2 P1 P2 Q1.
  destruct (fadd_val p r F1 F2) as (F3 & V3); [apply (small_127 _ 1); [lia|cbn; apply Rabs_le; lra]|].
  assert (R3 : val (fadd p r) <= 2) by (rewrite V3; apply Rle_trans with (rnd 2); [apply rnd_le; lra|rewrite rnd_fits; [lra|change 2 with (bpow radix2 1); apply fits_bpow; lia]]).
  destruct (max_zero _ F3) as (F4 & V4). assert (R4 : 0 <= val (fmax fzero (fadd p r)) <= 2) by (rewrite V4; split; [apply Rmax_l|apply Rmax_lub; lra]). set (mc := fmax fzero (fadd p r)) in *. clearbody mc.
  assert (P5 : 0 <= val b * val mc <= 1) by (split; [apply Rmult_le_pos; lra|apply Rle_trans with (/ 2 * 2); [apply Rmult_le_compat; lra|lra]]).
  destruct (fmul_val b mc FB F4) as (F5 & V5); [apply one_127; rewrite Rabs_pos_eq; lra|]. split; [exact F5|]. rewrite V5. split; [apply rnd_unit; exact P5|]. intro E. rewrite E, Rmult_0_l. apply rnd_0.
Qed.

(* For every sigma up to 2^60 and all finite directions at least one of which is 2^-60 or more away
   from the surface, the value is a number, positive, and at most (1 + 1/m) times 0.32, where m is
   the larger cosine; for sigma 0 it is the value of a Lambertian surface, the float nearest to
   1/pi, exactly. *)
Theorem float_oren_range : forall sigma wo wi, fin sigma -> Rabs (val sigma) <= bpow radix2 60 -> fin (fx wo) -> fin (fz wo) -> fin (fx wi) -> fin (fz wi) ->
  let m := Rmax (Rabs (val (fz wo))) (Rabs (val (fz wi))) in bpow radix2 (-60) <= m <= bpow radix2 60 ->
  let v := f_oren_value (f_oren_a sigma) (f_oren_b sigma) wo wi in
  fin v /\ 159 / 1000 <= val v <= 32 / 100 * (1 + / m) /\ (val sigma = 0 -> B2SF v = SpecFloat.S754_finite false 10680707 (-25)).
Proof.
  intros sigma wo wi FS SG FXO FZO FXI FZI m M v. destruct (oren_coefficients sigma FS SG) as (FA & A & FB & B & AB). unfold v. clear v. set (a := f_oren_a sigma) in *. set (b := f_oren_b sigma) in *. clearbody a b.
  pose proof (bpow_gt_0 radix2 (-60)) as P60. assert (ZO : Rabs (val (fz wo)) <= bpow radix2 60) by (apply Rle_trans with m; [apply Rmax_l|lra]). assert (ZI : Rabs (val (fz wi)) <= bpow radix2 60) by (apply Rle_trans with m; [apply Rmax_r|lra]).
  assert (IM : 0 < / m <= bpow radix2 60) by (split; [apply Rinv_0_lt_compat; lra|change 60%Z with (- -60)%Z; rewrite bpow_opp; apply Rinv_le_contravar; lra]).
  destruct diffuse_val as (FD & D).
  assert (KEY : exists k, f_oren_value a b wo wi = fmul f_diffuse k /\ fin k /\ val a <= val k <= (1 + / m) * (1 + / 1000) /\ (val b = 0 -> val k = val a)).
  { unfold f_oren_value. cbv zeta. destruct (andb _ _) eqn:E; [|exists a; split; [reflexivity|split; [exact FA|split; [|reflexivity]]]; assert (0 < / m * (1 + / 1000)) by (apply Rmult_lt_0_compat; lra); rewrite Rmult_plus_distr_r; lra].
    apply andb_true_iff in E. destruct E as (SI & SO). destruct (oren_factor b wo wi FB B FXO FZO FXI FZI ZO ZI SI SO) as (FP & P & PZ). cbv zeta in FP, P, PZ.
    set (p := fmul b _) in *. clearbody p. destruct (sin_theta_val _ FZI ZI) as (FSI & RI). destruct (sin_theta_val _ FZO ZO) as (FSO & RO).
    destruct (abs_val _ FZI) as (GI & WI). destruct (abs_val _ FZO) as (GO & WO).
    set (t := if fgt (fabs (fz wi)) (fabs (fz wo)) then fdiv (f_sin_theta (fz wi)) (fabs (fz wi)) else fdiv (f_sin_theta (fz wo)) (fabs (fz wo))).
    set (s := if fgt (fabs (fz wi)) (fabs (fz wo)) then f_sin_theta (fz wo) else f_sin_theta (fz wi)).
    assert (S : fin s /\ 0 <= val s <= 1) by (unfold s; clear t s; destruct (fgt (fabs (fz wi)) (fabs (fz wo))); [exact (conj FSO RO)|exact (conj FSI RI)]). destruct S as (FSS & S).
    assert (TAN : forall sn z, fin sn -> 0 <= val sn <= 1 -> fin z -> val z = m -> fin (fdiv sn z) /\ 0 <= val (fdiv sn z) <= / m * (1 + / 10000)).
    { intros sn z FN N FZ Z. assert (Q : 0 <= val sn / val z <= / m) by (rewrite Z; unfold Rdiv; split; [apply Rmult_le_pos; lra|]; apply Rle_trans with (1 * / m); [apply Rmult_le_compat_r; lra|lra]).
      destruct (fdiv_val sn z FN) as (FQ & VQ); [lra|apply (small_127 _ 60); [lia|rewrite Rabs_pos_eq; lra]|]. split; [exact FQ|]. rewrite VQ. split; [apply rnd_nonneg; lra|].
      apply Rle_trans with (rnd (/ m)); [apply rnd_le; lra|]. destruct (rel_error (/ m)) as (e & E & V).
      - rewrite Rabs_pos_eq by lra. apply Rle_trans with (bpow radix2 (-60)); [apply bpow_le; lia|]. change (-60)%Z with (- (60))%Z. rewrite bpow_opp. apply Rinv_le_contravar; lra.
      - rewrite V. apply abs_both in E. apply Rmult_le_compat_l; [lra|]. unfold u24 in E. lra. }
    assert (T : fin t /\ 0 <= val t <= / m * (1 + / 10000)).
    { unfold t, fgt. fold (flt (fabs (fz wo)) (fabs (fz wi))). destruct (flt (fabs (fz wo)) (fabs (fz wi))) eqn:E.
      - apply (flt_val _ _ GO GI) in E. rewrite WO, WI in E. apply TAN; try assumption. rewrite WI. symmetry. apply Rmax_right. lra.
      - assert (L : Rabs (val (fz wi)) <= Rabs (val (fz wo))). { apply Rnot_lt_le. intro L. rewrite <- WO, <- WI in L. apply (flt_val _ _ GO GI) in L. congruence. }
        apply TAN; try assumption. rewrite WO. symmetry. apply Rmax_left. lra. }
    destruct T as (FT & T). clear TAN. clearbody s t. clear SI SO RI RO GI GO WI WO FSI FSO.
    assert (P2 : 0 <= val p * val s <= 1) by (split; [apply Rmult_le_pos; lra|rewrite <- (Rmult_1_l 1); apply Rmult_le_compat; lra]).
    destruct (fmul_val p s FP FSS) as (F2 & V2); [apply one_127; rewrite Rabs_pos_eq; lra|]. pose proof (rnd_unit _ P2) as R2. rewrite <- V2 in R2.
    assert (Z2 : val b = 0 -> val (fmul p s) = 0) by (intro E; rewrite V2, (PZ E), Rmult_0_l; apply rnd_0). set (q := fmul p s) in *. clearbody q. clear V2 P2.
    assert (P3 : 0 <= val q * val t <= val t) by (split; [apply Rmult_le_pos; lra|apply Rle_trans with (1 * val t); [apply Rmult_le_compat_r; lra|lra]]).
    assert (T61 : val t <= bpow radix2 61). { apply Rle_trans with (bpow radix2 60 * 2); [|cbn; lra]. apply Rle_trans with (/ m * (1 + / 10000)); [lra|]. apply Rmult_le_compat; lra. }
    destruct (fmul_val q t F2 FT) as (F3 & V3); [apply (small_127 _ 61); [lia|rewrite Rabs_pos_eq; lra]|].
    assert (R3 : 0 <= val (fmul q t) <= val t) by (rewrite V3; apply rnd_between; [apply fits_0|apply fits_val|exact P3]).
    assert (Z3 : val b = 0 -> val (fmul q t) = 0) by (intro E; rewrite V3, (Z2 E), Rmult_0_l; apply rnd_0). set (r := fmul q t) in *. clearbody r. clear V3 P3.
    assert (B62 : 1 + bpow radix2 61 <= bpow radix2 62) by (cbn; lra).
    destruct (fadd_val a r FA F3) as (F4 & V4); [apply (small_127 _ 62); [lia|rewrite Rabs_pos_eq; lra]|]. exists (fadd a r). split; [reflexivity|]. split; [exact F4|]. rewrite V4. split; [split|].
    - rewrite <- (rnd_fits (val a) (fits_val a)) at 1. apply rnd_le; lra.
    - destruct (rel_error (val a + val r)) as (e & E & V); [rewrite Rabs_pos_eq by lra; apply Rle_trans with (/ 2); [change (/ 2) with (bpow radix2 (-1)); apply bpow_le; lia|lra]|]. rewrite V. apply abs_both in E.
      apply Rle_trans with ((1 + / m * (1 + / 10000)) * (1 + / 10000)); [apply Rmult_le_compat; unfold u24 in E; lra|]. clear - IM. set (i := / m) in *. clearbody i. nra.
    - intro E. rewrite (Z3 E), Rplus_0_r. apply rnd_fits, fits_val. }
  destruct KEY as (k & EQ & FK & K & KZ). rewrite EQ. set (f := f_diffuse) in *.
  assert (IK : (1 + / m) * (1 + / 1000) <= bpow radix2 62).
  { apply Rle_trans with (bpow radix2 61 * 2); [|cbn; lra]. apply Rmult_le_compat; try lra. apply Rle_trans with (1 + bpow radix2 60); [lra|cbn; lra]. }
  assert (PR : val a * (3183 / 10000) <= val f * val k <= (1 + / m) * (1 + / 1000) * (3184 / 10000)).
  { split; [rewrite Rmult_comm; apply Rmult_le_compat; lra|rewrite Rmult_comm; apply Rmult_le_compat; lra]. }
  destruct (fmul_val f k FD FK) as (FV & VV); [apply (small_127 _ 62); [lia|rewrite Rabs_pos_eq by lra; lra]|]. split; [exact FV|]. split.
  - rewrite VV. destruct (rel_error (val f * val k)) as (e & E & V); [rewrite Rabs_pos_eq by lra; apply Rle_trans with (/ 8); [change (/ 8) with (bpow radix2 (-3)); apply bpow_le; lia|lra]|]. rewrite V. apply abs_both in E. unfold u24 in E. split.
    + apply Rle_trans with (/ 2 * (3183 / 10000) * (1 - / 10000)); [lra|]. apply Rmult_le_compat; lra.
    + apply Rle_trans with ((1 + / m) * (1 + / 1000) * (3184 / 10000) * (1 + / 10000)); [apply Rmult_le_compat; lra|]. clear - IM. set (i := / m) in *. clearbody i. nra.
  - intro E. destruct (AB E) as (A1 & B0). specialize (KZ B0). destruct fone_val as (F1 & V1). assert (EK : k = fone) by (apply same_float; [exact FK|exact F1|lra|lra]). rewrite EK. vm_compute. reflexivity.
Qed.
Print Assumptions float_oren_range.

(* both directions 60 degrees from the normal, sigma 1 *)
Example oren_range_case : bpow radix2 (-60) <= Rmax (Rabs (val (fnum 1 (-1)))) (Rabs (val (fnum 1 (-1)))) <= bpow radix2 60 /\
  B2SF (f_oren_value (f_oren_a fone) (f_oren_b fone) (mk_fvec (fnum 7 (-3)) fzero (fnum 1 (-1))) (mk_fvec (fnum 7 (-3)) fzero (fnum 1 (-1)))) = SpecFloat.S754_finite false 13279603 (-25).
Proof.
  split; [|vm_compute; reflexivity]. rewrite Rmax_left by lra. replace (val (fnum 1 (-1))) with (bpow radix2 (-1)); [|symmetry; erewrite lit_val by (vm_compute; reflexivity); cbn; lra].
  rewrite Rabs_pos_eq by apply bpow_ge_0. split; apply bpow_le; lia.
Qed.

(* If both directions lie in the surface the value is not a number that can be used: it is infinite
   or NaN, for every sigma and every position around the normal. *)
Theorem float_oren_range_refuted : forall sigma wo wi, fin sigma -> Rabs (val sigma) <= bpow radix2 60 -> fin (fx wo) -> fin (fz wo) -> fin (fx wi) -> fin (fz wi) ->
  val (fz wo) = 0 -> val (fz wi) = 0 -> is_finite (f_oren_value (f_oren_a sigma) (f_oren_b sigma) wo wi) = false.
Proof.
  intros sigma wo wi FS SG FXO FZO FXI FZI ZO ZI. destruct (oren_coefficients sigma FS SG) as (FA & A & FB & B & _). set (a := f_oren_a sigma) in *. set (b := f_oren_b sigma) in *. clearbody a b.
  assert (BO : Rabs (val (fz wo)) <= bpow radix2 60) by (rewrite ZO, Rabs_R0; apply bpow_ge_0). assert (BI : Rabs (val (fz wi)) <= bpow radix2 60) by (rewrite ZI, Rabs_R0; apply bpow_ge_0).
  assert (SZ : forall z, fin z -> val z = 0 -> f_sin_theta z = fone /\ fabs z = B754_zero false).
  { intros z F Z. destruct (zero_form z F Z) as (s & E). rewrite E. split; [|reflexivity]. apply B2SF_inj. destruct s; vm_compute; reflexivity. }
  destruct (SZ _ FZO ZO) as (SO & AO). destruct (SZ _ FZI ZI) as (SI & AI).
  assert (GT : fgt fone fzero = true) by (vm_compute; reflexivity).
  destruct (oren_factor b wo wi FB B FXO FZO FXI FZI BO BI ltac:(rewrite SI; exact GT) ltac:(rewrite SO; exact GT)) as (FP & P & _). cbv zeta in FP, P.
  unfold f_oren_value. cbv zeta. rewrite SI, SO, AI, AO in *. rewrite GT. cbn [andb]. assert (NS : fgt (B754_zero false) (B754_zero false) = false) by reflexivity. rewrite NS.
  assert (T : fdiv fone (B754_zero false) = B754_infinity false) by (apply sf_infinity; vm_compute; reflexivity). rewrite T. set (p := fmul b _) in *. clearbody p.
  destruct fone_val as (F1 & V1). destruct (fmul_val p fone FP F1) as (FQ & VQ); [rewrite V1, Rmult_1_r; apply one_127; rewrite Rabs_pos_eq; lra|].
  assert (Q : 0 <= val (fmul p fone)) by (rewrite VQ, V1, Rmult_1_r; apply rnd_nonneg; lra). set (q := fmul p fone) in *. clearbody q.
  assert (I : fmul q (B754_infinity false) = B754_nan \/ fmul q (B754_infinity false) = B754_infinity false).
  { destruct q as [s|s| |s m e h]; try discriminate; [left; reflexivity|right]. pose proof (sign_val (B754_finite s m e h)) as SG2. cbn [Bsign] in SG2. destruct s; [|reflexivity]. exfalso.
    assert (N : val (B754_finite true m e h) < 0) by (unfold val, B2R; apply F2R_lt_0; reflexivity). lra. }
  destruct I as [I|I]; rewrite I.
  - destruct a as [s|s| |s m e h]; try discriminate; vm_compute; reflexivity.
  - assert (W : fadd a (B754_infinity false) = B754_infinity false) by (destruct a as [s|s| |s m e h]; try discriminate; reflexivity). rewrite W. vm_compute. reflexivity.
Qed.
Print Assumptions float_oren_range_refuted.

(* two directions in the surface *)
Example oren_grazing_case : B2SF (f_oren_value (f_oren_a fone) (f_oren_b fone) (mk_fvec fone fzero fzero) (mk_fvec fone fzero fzero)) = SpecFloat.S754_infinity false /\
  B2SF (f_oren_value (f_oren_a fone) (f_oren_b fone) (mk_fvec fone fzero fzero) (mk_fvec (of_Z (-1)) fzero fzero)) = SpecFloat.S754_nan.
Proof. split; vm_compute; reflexivity. Qed.
