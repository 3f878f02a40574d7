(* Rough reflection in single precision: reciprocal but for the Fresnel factor, defined, black across. *)
From Coq Require Import ZArith Reals List Lra Lia Bool.
From Flocq Require Import Core.Core Mult_error IEEE754.BinarySingleNaN.
From Verif Require Import Common FltModel FltFacts FltProps FExtFacts FRayModel FSphereProps FBoxMarginProps FMatBoundProps FFilmProps FFresModel FFresProps FFresNearProps FTexModel FTexProps FSpecProps FNearFacts FMisProps FGgxModel FGgxProps FOrenProps FltVecProps FVecEqProps FShadeProps FMicroModel FMicroProps.
Import ListNotations.
Local Open Scope R_scope.

(* four times a product of cosines does not depend on their order *)
Lemma four_swap : forall a b, fin a -> fin b -> Rabs (val a) <= 2 -> Rabs (val b) <= 2 -> fmul (fmul (of_Z 4) (fabs a)) (fabs b) = fmul (fmul (of_Z 4) (fabs b)) (fabs a) /\
  fin (fmul (fmul (of_Z 4) (fabs a)) (fabs b)) /\ val (fmul (fmul (of_Z 4) (fabs a)) (fabs b)) = rnd (4 * Rabs (val a) * Rabs (val b)).
Proof.
  assert (H : forall a b, fin a -> fin b -> Rabs (val a) <= 2 -> Rabs (val b) <= 2 -> let p := fmul (fmul (of_Z 4) (fabs a)) (fabs b) in fin p /\ val p = rnd (4 * Rabs (val a) * Rabs (val b)) /\ Bsign p = false).
  { intros a b FA FB A B p. unfold p. clear p. destruct (of_Z_exact 4) as (F4 & V4); [lia|]. destruct (abs_val a FA) as (GA & WA). destruct (abs_val b FB) as (GB & WB). pose proof (Rabs_pos (val a)) as PA. pose proof (Rabs_pos (val b)) as PB.
    assert (L : Rabs (val (of_Z 4) * val (fabs a)) <= bpow radix2 127) by (rewrite V4, WA; apply (small_127 _ 3); [lia|rewrite Rabs_pos_eq by lra; cbn; lra]).
    destruct (fmul_val _ _ F4 GA L) as (FM & VM). pose proof (mul_sign _ _ F4 GA eq_refl (abs_zero a FA) L) as SM.
    assert (X : fits (4 * val (fabs a))) by (rewrite Rmult_comm; change 4 with (bpow radix2 2); apply mult_bpow_pos_exact_FLT; [apply fits_val|lia]).
    rewrite V4, rnd_fits, WA in VM by exact X.
    assert (K : Rabs (val (fmul (of_Z 4) (fabs a)) * val (fabs b)) <= bpow radix2 127) by (rewrite VM, WB; apply (small_127 _ 4); [lia|]; rewrite Rabs_pos_eq by (apply Rmult_le_pos; lra); apply Rle_trans with (8 * 2); [apply Rmult_le_compat; lra|cbn; lra]).
    destruct (fmul_val _ _ FM GB K) as (FN & VN). rewrite VM, WB in VN. split; [exact FN|]. split; [exact VN|]. apply mul_sign; try assumption; apply abs_zero; exact FB. }
  intros a b FA FB A B. destruct (H a b FA FB A B) as (F1 & V1 & S1). destruct (H b a FB FA B A) as (F2 & V2 & S2). cbv zeta in *. split; [|split; assumption].
  apply B2R_Bsign_inj; [exact F1|exact F2| |congruence]. fold (val (fmul (fmul (of_Z 4) (fabs a)) (fabs b))). fold (val (fmul (fmul (of_Z 4) (fabs b)) (fabs a))). rewrite V1, V2. f_equal. ring.
Qed.

(* Two directions on different sides, or one in the surface, reflect nothing unless the product of
   the cosines vanishes; exchanging the directions changes nothing but the argument of the Fresnel
   factor: with a factor that does not depend on it the two values are the same float. The
   distribution is arbitrary, the masking any that is a product over the two directions. *)
Theorem float_rough_reciprocal : forall k D g wo wi, vfin wo -> vfin wi -> Rabs (val (fz wo)) <= 2 -> Rabs (val (fz wi)) <= 2 ->
  let value := f_rough_value (fun _ => k) D (fun a b => fmul (g a) (g b)) in
  value wi wo = value wo wi /\
  (forall eval, val (fz wo) * val (fz wi) < - bpow radix2 (-149) \/ val (fz wo) = 0 \/ val (fz wi) = 0 -> f_rough_value eval D (fun a b => fmul (g a) (g b)) wo wi = fzero).
Proof.
  intros k D g wo wi (_ & _ & FO) (_ & _ & FI) LO LI. cbv zeta. split.
  - unfold f_rough_value. cbv zeta. rewrite (mul_comm (fz wi) (fz wo)). destruct (flt (fmul (fz wo) (fz wi)) fzero); [reflexivity|]. cbn [fx fy fz]. rewrite (add_comm (fx wi)), (add_comm (fy wi)), (add_comm (fz wi)).
    rewrite (orb_comm (Beqb (fabs (fz wi)) fzero)). destruct (_ || _ || _); [reflexivity|]. destruct (four_swap (fz wo) (fz wi) FO FI LO LI) as (S & _). rewrite S, (mul_comm (g (fz wi))). reflexivity.
  - intros eval [N|Z].
    + unfold f_rough_value. destruct fzero_val as (F0 & V0). pose proof (bpow_gt_0 radix2 (-149)) as P149.
      destruct (fmul_val (fz wo) (fz wi) FO FI) as (FM & VM). { apply (small_127 _ 2); [lia|]. rewrite Rabs_mult. apply Rle_trans with (2 * 2); [apply Rmult_le_compat; try apply Rabs_pos; assumption|cbn; lra]. }
      assert (T : flt (fmul (fz wo) (fz wi)) fzero = true). { apply (flt_val _ _ FM F0). rewrite VM, V0. apply Rle_lt_trans with (- bpow radix2 (-149)); [|lra]. rewrite <- (rnd_fits (- bpow radix2 (-149))) by (apply fits_opp, fits_bpow; lia). apply rnd_le. lra. }
      rewrite T. reflexivity.
    + unfold f_rough_value. destruct (flt (fmul (fz wo) (fz wi)) fzero); [reflexivity|]. cbv zeta. destruct fzero_val as (F0 & V0). destruct (abs_val _ FO) as (GO & WO). destruct (abs_val _ FI) as (GI & WI).
      assert (T : Beqb (fabs (fz wo)) fzero || Beqb (fabs (fz wi)) fzero = true).
      { apply orb_true_iff. destruct Z as [Z|Z]; [left; apply (eqb_val _ _ GO F0); rewrite WO, Z, V0; apply Rabs_R0|right; apply (eqb_val _ _ GI F0); rewrite WI, Z, V0; apply Rabs_R0]. }
      rewrite T. reflexivity.
Qed.
Print Assumptions float_rough_reciprocal.

Lemma rough_form : forall eval D G wo wi, f_rough_value eval D G wo wi =
  (if flt (fmul (fz wo) (fz wi)) fzero then fzero
   else let wh := mk_fvec (fadd (fx wo) (fx wi)) (fadd (fy wo) (fy wi)) (fadd (fz wo) (fz wi)) in
     if Beqb (fabs (fz wo)) fzero || Beqb (fabs (fz wi)) fzero || (Beqb (fx wh) fzero && Beqb (fy wh) fzero && Beqb (fz wh) fzero) then fzero
     else fdiv (fmul (fmul (eval (fv_dot wi (f_normalize wh))) (D (fz (f_normalize wh)))) (G (fz wo) (fz wi))) (fmul (fmul (of_Z 4) (fabs (fz wo))) (fabs (fz wi)))).
Proof. intros. unfold f_rough_value. reflexivity. Qed.

(* Cosines up to 2^-77 on either side of the surface: with GGX both masking terms and four times the product of the
   cosines vanish, and the quotient is not a number. *)
Theorem float_rough_grazing_refuted : forall eval D r wo wi, vfin wo -> vfin wi -> fin r ->
  0 < val (fx wo) <= 1 -> 0 < val (fx wi) <= 1 -> 0 < Rabs (val (fz wo)) <= bpow radix2 (-77) -> 0 < Rabs (val (fz wi)) <= bpow radix2 (-77) ->
  f_rough_value eval D (f_ggx_g (f_ggx r)) wo wi = B754_nan.
Proof.
  intros eval D r wo wi (FXO & _ & FO) (FXI & _ & FI) FR XO XI ZO ZI. destruct fzero_val as (F0 & V0). assert (S2 : bpow radix2 (-77) <= 2) by (apply Rle_trans with (bpow radix2 1); [apply bpow_le; lia|cbn; lra]).
  assert (B77 : bpow radix2 (-77) < bpow radix2 (-75)) by (apply bpow_lt; lia).
  assert (PR : 0 <= Rabs (val (fz wo)) * Rabs (val (fz wi)) <= bpow radix2 (-154)). { split; [apply Rmult_le_pos; lra|]. change (-154)%Z with (-77 + -77)%Z. rewrite bpow_plus. apply Rmult_le_compat; lra. }
  assert (B154 : 4 * bpow radix2 (-154) < bpow radix2 (-150)). { replace 4 with (bpow radix2 2) by (cbn; lra). rewrite <- bpow_plus. apply bpow_lt. lia. } pose proof (bpow_gt_0 radix2 (-154)) as P154.
  rewrite rough_form. cbv zeta. cbn [fx fy fz].
  assert (T : flt (fmul (fz wo) (fz wi)) fzero = false).
  { destruct (fmul_val (fz wo) (fz wi) FO FI) as (FM & VM). { rewrite Rabs_mult. apply Rle_trans with (bpow radix2 (-154)); [lra|apply bpow_le; lia]. }
    destruct (flt (fmul (fz wo) (fz wi)) fzero) eqn:E; [|reflexivity]. exfalso. apply (flt_val _ _ FM F0) in E. rewrite VM, V0 in E.
    assert (Z : Rabs (rnd (val (fz wo) * val (fz wi))) = 0). { rewrite rnd_abs, Rabs_mult. apply tiny_zero. lra. } rewrite Rabs_left in Z by exact E. lra. }
  rewrite T.
  assert (NO : Beqb (fabs (fz wo)) fzero = false). { destruct (abs_val _ FO) as (G & W). destruct (Beqb (fabs (fz wo)) fzero) eqn:E; [apply (eqb_val _ _ G F0) in E; lra|reflexivity]. }
  assert (NI : Beqb (fabs (fz wi)) fzero = false). { destruct (abs_val _ FI) as (G & W). destruct (Beqb (fabs (fz wi)) fzero) eqn:E; [apply (eqb_val _ _ G F0) in E; lra|reflexivity]. }
  assert (NX : Beqb (fadd (fx wo) (fx wi)) fzero = false).
  { destruct (fadd_val _ _ FXO FXI) as (G & W). { apply (small_127 _ 1); [lia|rewrite Rabs_pos_eq by lra; cbn; lra]. } destruct (Beqb (fadd (fx wo) (fx wi)) fzero) eqn:E; [|reflexivity]. exfalso. apply (eqb_val _ _ G F0) in E. rewrite W, V0 in E.
    assert (L : val (fx wo) <= rnd (val (fx wo) + val (fx wi))) by (rewrite <- (rnd_fits (val (fx wo))) at 1 by apply fits_val; apply rnd_le; lra). lra. }
  rewrite NO, NI, NX. cbn [orb andb].
  assert (G0 : f_ggx_g (f_ggx r) (fz wo) (fz wi) = fzero). { unfold f_ggx_g, f_ggx_g1. rewrite (tiny_square _ FO), (tiny_square _ FI) by lra. reflexivity. } rewrite G0. clear G0 NO NI NX T.
  destruct (four_swap (fz wo) (fz wi) FO FI) as (_ & FV & VV); [lra|lra|]. rewrite tiny_zero in VV by lra. destruct (zero_form _ FV VV) as (s & ->).
  set (a := fmul (eval _) (D _)). clearbody a. destruct a as [t|t| |t m e h]; reflexivity.
Qed.
Print Assumptions float_rough_grazing_refuted.

(* one direction above the surface and one below *)
Example rough_grazing_case : let v z := mk_fvec fone fzero z in
  f_rough_value (fun _ => fone) (f_ggx_d (f_ggx (fnum 1 (-1)))) (f_ggx_g (f_ggx (fnum 1 (-1)))) (v (fnum 1 (-80))) (v (fnum (-1) (-80))) = B754_nan.
Proof. vm_compute. reflexivity. Qed.

(* the sum of two directions on one side, normalised *)
Lemma half_vector : forall wo wi, unit_v wo -> unit_v wi -> 0 < val (fz wo) * val (fz wi) -> bpow radix2 (-10) <= Rabs (val (fz wo)) -> bpow radix2 (-10) <= Rabs (val (fz wi)) ->
  let wh := mk_fvec (fadd (fx wo) (fx wi)) (fadd (fy wo) (fy wi)) (fadd (fz wo) (fz wi)) in
  fin (fz wh) /\ val (fz wh) <> 0 /\ vfin (f_normalize wh) /\ Rabs (length2 (f_normalize wh) - 1) <= 2 / 100000 /\ bpow radix2 (-74) <= Rabs (val (fz (f_normalize wh))).
Proof.
  intros wo wi UO UI S ZO ZI. cbv zeta. destruct (unit_le wo UO) as ((FXO & FYO & FZO) & _ & XO & YO & CO). destruct (unit_le wi UI) as ((FXI & FYI & FZI) & _ & XI & YI & CI).
  assert (ADD : forall a b, fin a -> fin b -> Rabs (val a) <= 1001 / 1000 -> Rabs (val b) <= 1001 / 1000 -> fin (fadd a b) /\ val (fadd a b) = rnd (val a + val b) /\ Rabs (val (fadd a b)) <= 21 / 10).
  { intros a b FA FB A B. apply abs_both in A. apply abs_both in B. destruct (fadd_val a b FA FB) as (F & V); [apply (small_127 _ 2); [lia|apply Rabs_le; cbn; lra]|]. split; [exact F|]. split; [exact V|]. rewrite V.
    pose proof (rerr (val a + val b)) as E. apply abs_both in E. assert (Rabs (val a + val b) <= 2002 / 1000) by (apply Rabs_le; lra). destruct h150_u24 as (H0 & H1). apply Rabs_le. unfold u24 in *. lra. }
  destruct (ADD _ _ FXO FXI XO XI) as (FX & _ & BX). destruct (ADD _ _ FYO FYI YO YI) as (FY & _ & BY). destruct (ADD _ _ FZO FZI CO CI) as (FZ & VZ & BZ). clear ADD XO YO XI YI.
  pose proof (bpow_gt_0 radix2 (-10)) as P10. assert (E10 : bpow radix2 (-10) = / 1024) by (cbn; lra). rewrite E10 in *.
  assert (LZ : / 512 <= Rabs (val (fadd (fz wo) (fz wi)))).
  { rewrite VZ, rnd_abs. rewrite <- (rnd_fits (/ 512)) by (replace (/ 512) with (bpow radix2 (-9)) by (cbn; lra); apply fits_bpow; lia). apply rnd_le.
    destruct (Rlt_or_le 0 (val (fz wo))) as [P|P].
    - assert (Q : 0 < val (fz wi)) by (apply Rmult_lt_reg_l with (val (fz wo)); lra). rewrite Rabs_pos_eq in ZO, ZI |- * by lra. lra.
    - assert (P' : val (fz wo) < 0) by (destruct P as [P|P]; [exact P|rewrite P in S; lra]). assert (Q : val (fz wi) < 0) by (apply Ropp_lt_cancel; apply Rmult_lt_reg_l with (- val (fz wo)); lra). rewrite Rabs_left in ZO, ZI |- * by lra. lra. }
  clear VZ. split; [exact FZ|]. split; [intro Z; cbn [fz] in Z; rewrite Z, Rabs_R0 in LZ; lra|].
  set (x := fadd (fx wo) (fx wi)) in *. set (y := fadd (fy wo) (fy wi)) in *. set (z := fadd (fz wo) (fz wi)) in *. clearbody x y z. set (wh := mk_fvec x y z). assert (VF : vfin wh) by (split; [exact FX|split; assumption]).
  assert (SQ : forall a, Rabs a <= 21 / 10 -> 0 <= a * a <= 441 / 100) by (intros a A; replace (a * a) with (Rabs a * Rabs a) by (rewrite <- Rabs_mult; apply Rabs_pos_eq, Rle_0_sqr); pose proof (Rabs_pos a); split; [apply Rmult_le_pos; lra|replace (441 / 100) with (21 / 10 * (21 / 10)) by field; apply Rmult_le_compat; lra]).
  assert (LL : / 262144 <= length2 wh <= 16).
  { unfold length2, wh. cbn [fx fy fz]. pose proof (SQ _ BX). pose proof (SQ _ BY). pose proof (SQ _ BZ). assert (/ 262144 <= val z * val z); [|lra]. replace (val z * val z) with (Rabs (val z) * Rabs (val z)) by (rewrite <- Rabs_mult; apply Rabs_pos_eq, Rle_0_sqr). replace (/ 262144) with (/ 512 * / 512) by field. apply Rmult_le_compat; lra. }
  assert (B : bpow radix2 (-100) <= length2 wh <= bpow radix2 100).
  { split; [apply Rle_trans with (bpow radix2 (-18)); [apply bpow_le; lia|cbn; cbn in LL; lra]|apply Rle_trans with (bpow radix2 4); [cbn; lra|apply bpow_le; lia]]. }
  assert (B74 : bpow radix2 (-74) <= / 16384) by (replace (/ 16384) with (bpow radix2 (-14)) by (cbn; lra); apply bpow_le; lia).
  destruct (normalize_cases wh VF B) as [(E & L)|(F & L & C)].
  - rewrite E. split; [exact VF|]. split; [lra|]. apply Rle_trans with (/ 512); [lra|exact LZ].
  - split; [exact F|]. split; [unfold u24 in L; lra|]. specialize (C z (fz (f_normalize wh)) ltac:(right; right; left; reflexivity)). apply Rle_trans with (/ 16384); [lra|].
    assert (SP : 0 < sqrt (length2 wh) <= 4). { split; [apply sqrt_lt_R0; lra|]. rewrite <- (sqrt_square 4) by lra. apply sqrt_le_1_alt. lra. } set (q := sqrt (length2 wh)) in *. clearbody q. set (w := val (fz (f_normalize wh))) in *. clearbody w.
    assert (I : / 2048 <= Rabs (val z / q)). { unfold Rdiv. rewrite Rabs_mult, (Rabs_pos_eq (/ q)) by (left; apply Rinv_0_lt_compat; lra). replace (/ 2048) with (/ 512 * / 4) by field. apply Rmult_le_compat; try lra. apply Rinv_le_contravar; lra. }
    clear - C I. assert (Rabs (val z / q) <= Rabs w + Rabs (w - val z / q)). { replace (val z / q) with (w + - (w - val z / q)) at 1 by ring. eapply Rle_trans; [apply Rabs_triang|]. rewrite Rabs_Ropp. lra. } unfold u24 in C. lra.
Qed.

(* GGX with a roughness of at least 2^-10, unit directions on one side with cosines of at least
   2^-10 and a Fresnel factor that is a fraction: the value is a number from 0 to 2^62. *)
Theorem float_rough_defined : forall eval r wo wi, (forall x, fin x -> Rabs (val x) <= 2 -> fin (eval x) /\ 0 <= val (eval x) <= 1) ->
  fin r -> bpow radix2 (-10) <= val r -> unit_v wo -> unit_v wi -> 0 < val (fz wo) * val (fz wi) -> bpow radix2 (-10) <= Rabs (val (fz wo)) -> bpow radix2 (-10) <= Rabs (val (fz wi)) ->
  let v := f_rough_value eval (f_ggx_d (f_ggx r)) (f_ggx_g (f_ggx r)) wo wi in fin v /\ 0 <= val v <= bpow radix2 62.
Proof.
  intros eval r wo wi EV FR R UO UI S ZO ZI. cbv zeta. rewrite rough_form. destruct fzero_val as (F0 & V0). destruct (half_vector wo wi UO UI S ZO ZI) as (FZ & NZ & VF & LN & ZN). cbv zeta in *.
  destruct (unit_le wo UO) as ((_ & _ & FZO) & _ & _ & _ & CO). destruct (unit_le wi UI) as ((FXI & FYI & FZI) & LI & XI & YI & CI).
  assert (B62 : 0 < bpow radix2 62) by apply bpow_gt_0.
  destruct (flt (fmul (fz wo) (fz wi)) fzero); [split; [exact F0|rewrite V0; lra]|]. destruct (_ || _ || _); [split; [exact F0|rewrite V0; lra]|].
  set (wh := f_normalize _) in *. clearbody wh. clear FZ NZ.
  destruct (unit_le wh (conj VF LN)) as (_ & LH & XH & YH & CH). destruct VF as (FXH & FYH & FZH).
  pose proof (dot3_near _ _ _ _ _ _ FXI FYI FZI FXH FYH FZH XI YI CI XH YH CH) as (FD & ED & _). fold (fv_dot wi wh) in FD, ED.
  assert (D2 : Rabs (val (fv_dot wi wh)) <= 2).
  { unfold length2 in LI, LH. clear - ED LI LH. set (d := val (fv_dot wi wh)) in *. clearbody d. apply abs_both in ED. revert ED LI LH. generalize (val (fx wi)) (val (fy wi)) (val (fz wi)) (val (fx wh)) (val (fy wh)) (val (fz wh)). intros a b c x y z ED LI LH.
    pose proof (Rle_0_sqr (a - x)). pose proof (Rle_0_sqr (b - y)). pose proof (Rle_0_sqr (c - z)). pose proof (Rle_0_sqr (a + x)). pose proof (Rle_0_sqr (b + y)). pose proof (Rle_0_sqr (c + z)). unfold Rsqr, u24 in *. apply Rabs_le. lra. }
  destruct (EV _ FD D2) as (FE & E). set (e := eval _) in *. clearbody e. clear EV D2 ED FD.
  destruct (float_ggx_defined r (fz wh) FR FZH R) as (FG & G); [right; lra|]. set (d := f_ggx_d _ _) in *. clearbody d.
  assert (B60 : bpow radix2 (-60) <= bpow radix2 (-10)) by (apply bpow_le; lia).
  destruct (float_ggx_masking r (fz wi) FR FZI) as (_ & M). destruct M as (_ & _ & _ & _ & M); [lra|]. destruct (M (fz wo) FZO) as (FM & MR & _); [lra|]. set (m := f_ggx_g _ _ _) in *. clearbody m. clear M.
  destruct (four_swap (fz wo) (fz wi) FZO FZI) as (_ & FI & VI); [lra|lra|].
  assert (I : bpow radix2 (-18) <= val (fmul (fmul (of_Z 4) (fabs (fz wo))) (fabs (fz wi)))).
  { rewrite VI. rewrite <- (rnd_fits (bpow radix2 (-18))) by (apply fits_bpow; lia). apply rnd_le. replace (bpow radix2 (-18)) with (4 * bpow radix2 (-10) * bpow radix2 (-10)) by (cbn; lra). pose proof (bpow_gt_0 radix2 (-10)). apply Rmult_le_compat; lra. }
  set (inv := fmul (fmul _ _) _) in *. clearbody inv. clear VI.
  assert (P1 : 0 <= val e * val d <= bpow radix2 42) by (split; [apply Rmult_le_pos; lra|rewrite <- (Rmult_1_l (bpow radix2 42)); apply Rmult_le_compat; lra]).
  destruct (fmul_val e d FE FG) as (FP & VP); [apply (small_127 _ 42); [lia|rewrite Rabs_pos_eq; lra]|]. assert (P : 0 <= val (fmul e d) <= bpow radix2 42) by (rewrite VP; apply rnd_between; [apply fits_0|apply fits_bpow; lia|exact P1]). set (p := fmul e d) in *. clearbody p.
  assert (Q1 : 0 <= val p * val m <= bpow radix2 42) by (split; [apply Rmult_le_pos; lra|rewrite <- (Rmult_1_r (bpow radix2 42)); apply Rmult_le_compat; lra]).
  destruct (fmul_val p m FP FM) as (FQ & VQ); [apply (small_127 _ 42); [lia|rewrite Rabs_pos_eq; lra]|]. assert (Q : 0 <= val (fmul p m) <= bpow radix2 42) by (rewrite VQ; apply rnd_between; [apply fits_0|apply fits_bpow; lia|exact Q1]). set (q := fmul p m) in *. clearbody q.
  pose proof (bpow_gt_0 radix2 (-18)) as P18. assert (II : 0 < / val inv <= bpow radix2 18) by (split; [apply Rinv_0_lt_compat; lra|change 18%Z with (- -18)%Z; rewrite bpow_opp; apply Rinv_le_contravar; lra]).
  assert (W : 0 <= val q / val inv <= bpow radix2 62). { unfold Rdiv. split; [apply Rmult_le_pos; lra|]. apply Rle_trans with (bpow radix2 42 * bpow radix2 18); [apply Rmult_le_compat; lra|]. rewrite <- bpow_plus. apply bpow_le; lia. }
  destruct (fdiv_val q inv FQ) as (FV & VV); [lra|apply (small_127 _ 62); [lia|rewrite Rabs_pos_eq; lra]|]. split; [exact FV|]. rewrite VV. apply rnd_between; [apply fits_0|apply fits_bpow; lia|exact W].
Qed.
Print Assumptions float_rough_defined.

(* glass of index 3/2 with roughness 1/2, seen and lit 60 degrees from the normal on opposite sides of it; the
   Fresnel factor meets the hypothesis for every index *)
Example rough_defined_case :
  let a := fnum 14529495 (-24) in let wo := mk_fvec a fzero (fnum 1 (-1)) in let wi := mk_fvec (fneg a) fzero (fnum 1 (-1)) in
  let v := f_rough_value (f_dielectric fone (fnum 3 (-1))) (f_ggx_d (f_ggx (fnum 1 (-1)))) (f_ggx_g (f_ggx (fnum 1 (-1)))) wo wi in
  flt (fnum 1 (-5)) v = true /\ flt v (fnum 1 (-2)) = true /\ B2SF (f_rough_value (f_dielectric fone (fnum 3 (-1))) (f_ggx_d (f_ggx (fnum 1 (-1)))) (f_ggx_g (f_ggx (fnum 1 (-1)))) wi wo) = B2SF v.
Proof. repeat split; vm_compute; reflexivity. Qed.
Example rough_fresnel_case : forall i t, index i -> index t -> forall x, fin x -> Rabs (val x) <= 2 -> fin (f_dielectric i t x) /\ 0 <= val (f_dielectric i t x) <= 1.
Proof. intros i t I T x F L. apply float_dielectric_fraction; assumption. Qed.
