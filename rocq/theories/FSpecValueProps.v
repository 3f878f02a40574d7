(* The value of refraction in single precision is the transmitted share. *)
From Coq Require Import ZArith Reals List Lra Lia Bool.
From Flocq Require Import Core.Core IEEE754.BinarySingleNaN.
From Verif Require Import Common FltModel FltFacts FltProps FExtFacts FRayModel FSphereProps FBoxMarginProps FMatBoundProps FFilmProps FTexModel FTexProps SpecularModel FFresModel FFresProps FFresNearProps FSpecModel FSpecProps FSpecNearProps.
Local Open Scope R_scope.

(* the share that Fresnel's equations let pass, for the indices in the order of the light and the
   cosines on both sides *)
Definition passed (ei et ci ct : R) : R :=
  1 - ((et * ci - ei * ct) / (et * ci + ei * ct) * ((et * ci - ei * ct) / (et * ci + ei * ct)) +
       (ei * ci - et * ct) / (ei * ci + et * ct) * ((ei * ci - et * ct) / (ei * ci + et * ct))) / 2.

Lemma refract_from_value : forall b ei et wo wi, index ei -> index et -> finite_vec wo -> Rabs (val (fz wo)) <= 1 -> (b = true -> 0 < val (fz wo)) ->
  let r := f_refract_from b ei et wo in fb_wi r = Some wi ->
  Rabs (val (fb_value r) * Rabs (val (fz wi)) - passed (val ei) (val et) (Rabs (val (fz wo))) (Rabs (val (fz wi))) * (val ei / val et * (val ei / val et))) <= bpow radix2 (-19) * (val ei / val et * (val ei / val et)).
Proof.
  intros b ei et wo wi IE IT (FX & FY & FZ) Z B. cbv zeta. assert (P10 : 0 < bpow radix2 (-10)) by apply bpow_gt_0.
  pose proof (refract_numbers ei et (fz wo) IE IT FZ ltac:(lra)) as N. cbv zeta in N.
  destruct N as (FE & F2 & FG & FS & _ & E & _ & E2 & VG & G & VS & S). destruct fone_val as (FO & VO).
  assert (G0 : 0 <= val (fsub fone (fmul (fz wo) (fz wo)))).
  { rewrite VG. apply rnd_nonneg. assert (ZZ : val (fz wo) * val (fz wo) <= 1) by (replace (val (fz wo) * val (fz wo)) with (Rabs (val (fz wo)) * Rabs (val (fz wo))) by (rewrite <- Rabs_mult; apply Rabs_pos_eq, Rle_0_sqr); pose proof (Rabs_pos (val (fz wo))); apply Rle_trans with (1 * 1); [apply Rmult_le_compat; lra|lra]).
    apply rnd_le in ZZ. rewrite rnd_one in ZZ. lra. }
  pose proof (bpow_gt_0 radix2 (-80)) as P80. assert (S0 : 0 <= val (fmul (fmul (fdiv ei et) (fdiv ei et)) (fsub fone (fmul (fz wo) (fz wo))))) by (rewrite VS; apply rnd_nonneg, Rmult_le_pos; lra).
  unfold f_refract_from. cbv zeta. set (eta := fdiv ei et) in *. set (s := fmul (fmul eta eta) (fsub fone (fmul (fz wo) (fz wo)))) in *. clearbody s. clear VS VG G G0 FG.
  destruct (fle fone s) eqn:L; cbn [fb_value fb_pdf fb_wi]; [discriminate|].
  assert (S1 : val s < 1). { apply Rnot_le_lt. intro H. rewrite <- VO in H. apply (fle_val _ _ FO FS) in H. congruence. }
  destruct (refract_cosine s FS (conj (proj1 S) S1)) as (FD & FK & VD & D & VK & K).
  assert (K1 : val (fsqrt (fsub fone s)) <= 1).
  { rewrite VK, <- rnd_one. apply rnd_le. rewrite <- sqrt_1. apply sqrt_le_1_alt. rewrite VD. rewrite <- rnd_one at 2. apply rnd_le. lra. }
  set (k := fsqrt (fsub fone s)) in *. clearbody k. clear FD VD VK D. pose proof (bpow_gt_0 radix2 (-12)) as P12. destruct (neg_val k FK) as (FNK & VNK).
  set (w := if b then fneg k else k). intro HW. assert (HZ : fz wi = w) by (injection HW as HW; subst wi; reflexivity). clear HW. rewrite HZ. clear HZ wi. cbn [fz].
  assert (W : fin w /\ Rabs (val w) = val k).
  { unfold w. destruct b; [split; [exact FNK|]; rewrite VNK, Rabs_Ropp; apply Rabs_pos_eq; lra|split; [exact FK|]; apply Rabs_pos_eq; lra]. }
  destruct W as (FW & AW). rewrite AW. set (c := if b then fz wo else fabs (fz wo)).
  assert (C : fin c /\ val c = Rabs (val (fz wo))).
  { unfold c. destruct b; [split; [exact FZ|]; symmetry; apply Rabs_pos_eq; specialize (B eq_refl); lra|apply abs_val; exact FZ]. }
  destruct C as (FC & VC). rewrite <- VC in *. assert (C0 : 0 <= val c <= 1) by (split; [rewrite VC; apply Rabs_pos|exact Z]).
  destruct (fresnel_terms_range ei et c k IE IT FC FK ltac:(lra)) as (FT & T).
  { split; [lra|]. apply Rle_trans with (bpow radix2 37); [lra|apply bpow_le; lia]. }
  pose proof (terms_near ei et c k (val k) 0 IE IT FC FK C0 ltac:(lra) ltac:(lra)) as TN.
  rewrite Rminus_diag_eq, Rabs_R0 in TN by reflexivity. unfold Rdiv at 1 in TN. rewrite Rmult_0_r, Rmult_0_l in TN. specialize (TN ltac:(lra)).
  unfold passed. fold (dielectric_terms (val ei) (val et) (val c) (val k)). change ((_ + _) / 2) with (dielectric_terms (val ei) (val et) (val c) (val k)).
  set (t := f_fresnel_terms ei et c k) in *. clearbody t. set (T0 := dielectric_terms (val ei) (val et) (val c) (val k)) in *. clearbody T0.
  destruct (fsub_val fone t FO FT) as (FV & VV). { rewrite VO. apply one_127, Rabs_le. lra. } rewrite VO in VV.
  assert (V : 0 <= val (fsub fone t) <= 1). { rewrite VV. apply rnd_between; [apply fits_0|change 1 with (bpow radix2 0); apply fits_bpow; lia|lra]. }
  destruct h150_u24 as (H0 & H1).
  assert (V1 : Rabs (val (fsub fone t) - (1 - T0)) <= 18 * u24).
  { pose proof (rerr (1 - val t)) as R1. rewrite <- VV in R1. assert (A1 : Rabs (1 - val t) <= 1) by (apply Rabs_le; lra). assert (u24 * Rabs (1 - val t) <= u24 * 1) by (apply Rmult_le_compat_l; [unfold u24; lra|exact A1]).
    apply abs_both in R1. apply abs_both in TN. apply Rabs_le. unfold u24 in *. lra. }
  set (v := fsub fone t) in *. clearbody v. clear VV TN FT T t.
  assert (SQ : forall e, index e -> fin (fmul e e) /\ bpow radix2 (-40) <= val (fmul e e) <= bpow radix2 40 /\ exists d, Rabs d <= 1001 / 1000 * u24 /\ val (fmul e e) = val e * val e * (1 + d)).
  { clear. intros e (FE & E). pose proof (bpow_gt_0 radix2 (-20)). pose proof (bpow_gt_0 radix2 (-40)).
    assert (EE : bpow radix2 (-40) <= val e * val e <= bpow radix2 40).
    { change (-40)%Z with (-20 + -20)%Z. change 40%Z with (20 + 20)%Z. rewrite !bpow_plus. split; apply Rmult_le_compat; lra. }
    destruct (fmul_val e e FE FE) as (F & V). { apply (small_127 _ 40); [lia|]. rewrite Rabs_pos_eq; lra. }
    split; [exact F|]. split; [rewrite V; apply pow_between; [lia|lia|exact EE]|]. rewrite V. apply rel_error. rewrite Rabs_pos_eq by lra. apply Rle_trans with (bpow radix2 (-40)); [apply bpow_le; lia|lra]. }
  destruct (SQ ei IE) as (FI2 & I2 & di & DI & VI). destruct (SQ et IT) as (FT2 & T2 & dt & DT & VT). pose proof (bpow_gt_0 radix2 (-40)) as P40.
  assert (Q : bpow radix2 (-80) <= val (fmul ei ei) / val (fmul et et) <= bpow radix2 80).
  { assert (bpow radix2 (-40) <= / val (fmul et et) <= bpow radix2 40).
    { split; [|change 40%Z with (- - 40)%Z; rewrite bpow_opp; apply Rinv_le; lra]. change (-40)%Z with (- (40))%Z. rewrite bpow_opp. apply Rinv_le; lra. }
    change (-80)%Z with (-40 + -40)%Z. change 80%Z with (40 + 40)%Z. rewrite !bpow_plus. split; apply Rmult_le_compat; lra. }
  destruct (fdiv_val (fmul ei ei) (fmul et et) FI2) as (FQ & VQ); [lra| |].
  { apply (small_127 _ 80); [lia|]. rewrite Rabs_pos_eq; lra. }
  assert (Q' : bpow radix2 (-80) <= val (fdiv (fmul ei ei) (fmul et et)) <= bpow radix2 80) by (rewrite VQ; apply pow_between; [lia|lia|exact Q]).
  (* the squared ratio is right up to 3.1 units *)
  destruct (ratio_pos ei et IE IT) as (RP & R80 & _ & RH). set (q0 := val ei / val et * (val ei / val et)) in *.
  assert (QE : Rabs (val (fdiv (fmul ei ei) (fmul et et)) - q0) <= 32 / 10 * u24 * q0).
  { destruct (rel_error (val (fmul ei ei) / val (fmul et et))) as (dq & DQ & EQ). { rewrite Rabs_pos_eq by lra. apply Rle_trans with (bpow radix2 (-80)); [apply bpow_le; lia|lra]. }
    rewrite VQ, EQ, VI, VT. destruct IE as (_ & IE). destruct IT as (_ & IT). pose proof (bpow_gt_0 radix2 (-20)) as P20. apply abs_both in DT.
    assert (DD : exists d', Rabs d' <= 1002 / 1000 * u24 /\ / (1 + dt) = 1 + d').
    { exists (- dt / (1 + dt)). assert (1 - u24 * 2 <= 1 + dt) by (unfold u24 in *; lra). split; [|field; unfold u24 in *; lra].
      unfold Rdiv. rewrite Rabs_mult, Rabs_Ropp. rewrite (Rabs_pos_eq (/ (1 + dt))) by (left; apply Rinv_0_lt_compat; unfold u24 in *; lra).
      apply (Rmult_le_reg_r (1 + dt)); [unfold u24 in *; lra|]. rewrite Rmult_assoc, Rinv_l by (unfold u24 in *; lra). rewrite Rmult_1_r.
      apply Rle_trans with (1001 / 1000 * u24); [apply Rabs_le; lra|]. apply Rle_trans with (1002 / 1000 * u24 * (1 - u24 * 2)); [unfold u24; lra|]. apply Rmult_le_compat_l; [unfold u24; lra|assumption]. }
    destruct DD as (d' & D' & ED).
    replace (val ei * val ei * (1 + di) / (val et * val et * (1 + dt)) * (1 + dq)) with (q0 * ((1 + di) * / (1 + dt) * (1 + dq))) by (unfold q0; field; unfold u24 in *; lra).
    rewrite ED. pose proof (two_rel di d' _ _ DI D' ltac:(unfold u24; lra) ltac:(unfold u24; lra)) as T1. set (f := (1 + di) * (1 + d') - 1) in *.
    pose proof (two_rel f dq _ _ T1 DQ ltac:(unfold u24; lra) ltac:(unfold u24; lra)) as T3. replace ((1 + f) * (1 + dq) - 1) with ((1 + di) * (1 + d') * (1 + dq) - 1) in T3 by (unfold f; ring).
    replace (q0 * ((1 + di) * (1 + d') * (1 + dq)) - q0) with (((1 + di) * (1 + d') * (1 + dq) - 1) * q0) by ring. rewrite Rabs_mult, (Rabs_pos_eq q0) by lra. apply Rmult_le_compat_r; [lra|]. unfold u24 in *. lra. }
  set (q := fdiv (fmul ei ei) (fmul et et)) in *. clearbody q. clear VQ Q VI VT I2 T2 DI DT FI2 FT2.
  assert (VQB : 0 <= val v * val q <= bpow radix2 80).
  { split; [apply Rmult_le_pos; lra|]. rewrite <- (Rmult_1_l (bpow radix2 80)). apply Rmult_le_compat; lra. }
  destruct (fmul_val v q FV FQ) as (FP & VP). { apply (small_127 _ 80); [lia|]. rewrite Rabs_pos_eq; lra. }
  assert (P : 0 <= val (fmul v q) <= bpow radix2 80) by (rewrite VP; apply rnd_between; [apply fits_0|apply fits_bpow; lia|exact VQB]).
  (* the product *)
  assert (PE : Rabs (val (fmul v q) - (1 - T0) * q0) <= 24 * u24 * q0).
  { pose proof (rerr (val v * val q)) as R1. rewrite <- VP, (Rabs_pos_eq (val v * val q)) in R1 by lra.
    assert (VQ1 : val v * val q <= val q) by (rewrite <- (Rmult_1_l (val q)) at 2; apply Rmult_le_compat_r; lra).
    assert (U1 : u24 * (val v * val q) <= u24 * val q) by (apply Rmult_le_compat_l; [unfold u24; lra|exact VQ1]).
    assert (X1 : Rabs (val v * (val q - q0)) <= 1 * (32 / 10 * u24 * q0)) by (apply mult_abs; [rewrite Rabs_pos_eq; lra|exact QE]).
    assert (X2 : Rabs ((val v - (1 - T0)) * q0) <= 18 * u24 * q0) by (rewrite Rabs_mult, (Rabs_pos_eq q0) by lra; apply Rmult_le_compat_r; lra).
    apply abs_both in R1. apply abs_both in X1. apply abs_both in X2. apply abs_both in QE.
    replace (val (fmul v q) - (1 - T0) * q0) with ((val (fmul v q) - val v * val q) + val v * (val q - q0) + (val v - (1 - T0)) * q0) by ring.
    set (vq := val v * val q) in *. set (a1 := val v * (val q - q0)) in *. set (a2 := (val v - (1 - T0)) * q0) in *. set (pp := val (fmul v q)) in *. set (vq1 := val q) in *. clearbody vq a1 a2 pp vq1 q0.
    clear - R1 U1 X1 X2 QE RH H0 H1 R80 P80. apply Rabs_le. unfold u24 in *. lra. }
  set (p := fmul v q) in *. clearbody p. destruct (abs_val w FW) as (FAW & VAW). rewrite AW in VAW.
  assert (IK : 0 < / val k <= bpow radix2 12). { split; [apply Rinv_0_lt_compat; lra|]. change 12%Z with (- - 12)%Z. rewrite bpow_opp. apply Rinv_le; lra. }
  assert (R92 : 0 <= val p / val k <= bpow radix2 92).
  { split; [apply Rmult_le_pos; lra|]. change 92%Z with (80 + 12)%Z. rewrite bpow_plus. apply Rmult_le_compat; lra. }
  destruct (fdiv_val p (fabs w) FP) as (FR & VR); [lra| |]. { rewrite VAW. apply (small_127 _ 92); [lia|]. rewrite Rabs_pos_eq; lra. }
  rewrite VR, VAW. pose proof (rerr (val p / val k)) as R2. rewrite (Rabs_pos_eq (val p / val k)) in R2 by lra.
  assert (R3 : Rabs ((rnd (val p / val k) - val p / val k) * val k) <= (u24 * (val p / val k) + h150) * val k) by (rewrite Rabs_mult, (Rabs_pos_eq (val k)) by lra; apply Rmult_le_compat_r; lra).
  assert (EK : val p / val k * val k = val p) by (field; lra).
  replace ((rnd (val p / val k) - val p / val k) * val k) with (rnd (val p / val k) * val k - val p) in R3 by (rewrite Rmult_minus_distr_r, EK; reflexivity).
  replace ((u24 * (val p / val k) + h150) * val k) with (u24 * val p + h150 * val k) in R3 by (rewrite Rmult_plus_distr_r, Rmult_assoc, EK; reflexivity).
  assert (HK : h150 * val k <= h150 * 1) by (apply Rmult_le_compat_l; lra).
  assert (PQ : val p <= 2 * q0).
  { assert (VQ1 : val v * val q <= val q) by (rewrite <- (Rmult_1_l (val q)) at 2; apply Rmult_le_compat_r; lra). apply Rle_trans with (val q).
    - rewrite VP. apply Rle_trans with (rnd (val q)); [apply rnd_le; exact VQ1|rewrite (rnd_fits _ (fits_val q)); lra].
    - apply abs_both in QE. clear - QE R80 P80. unfold u24 in *. lra. }
  apply abs_both in R3. apply abs_both in PE. set (vk := rnd (val p / val k) * val k) in *. set (tq := (1 - T0) * q0) in *. clearbody vk tq. replace (bpow radix2 (-19)) with (32 * u24) by (unfold u24; cbn; lra).
  clear - R3 PE PQ HK H0 H1 RH R80 P80. clearbody q0. apply Rabs_le. unfold u24 in *. lra.
Qed.

(* For any two indices between 2^-20 and 2^20, from either side: whenever a direction is returned,
   the value times its cosine is what Fresnel's equations let pass between the two cosines, times
   the squared ratio of the indices (radiance is compressed with the solid angle), up to 2^-19 of that ratio. *)
Theorem float_refract_value : forall eta_i eta_t wo wi, index eta_i -> index eta_t -> finite_vec wo -> Rabs (val (fz wo)) <= 1 ->
  let ei := if Rlt_dec 0 (val (fz wo)) then val eta_i else val eta_t in
  let et := if Rlt_dec 0 (val (fz wo)) then val eta_t else val eta_i in
  fb_wi (f_refract eta_i eta_t wo) = Some wi ->
  Rabs (val (fb_value (f_refract eta_i eta_t wo)) * Rabs (val (fz wi)) -
        passed ei et (Rabs (val (fz wo))) (Rabs (val (fz wi))) * (ei / et * (ei / et))) <= bpow radix2 (-19) * (ei / et * (ei / et)).
Proof.
  intros i t wo wi II IT F Z. cbv zeta. unfold f_refract, fgt. fold (flt fzero (fz wo)). destruct fzero_val as (FZ & VZ). pose proof F as (_ & _ & FW).
  destruct (flt fzero (fz wo)) eqn:E.
  - apply (flt_val _ _ FZ FW) in E. rewrite VZ in E. destruct (Rlt_dec 0 (val (fz wo))) as [_|N]; [|lra]. apply refract_from_value; try assumption. intros _; exact E.
  - destruct (Rlt_dec 0 (val (fz wo))) as [L|_]; [rewrite <- VZ in L; apply (flt_val _ _ FZ FW) in L; congruence|]. apply refract_from_value; try assumption. discriminate.
Qed.
Print Assumptions float_refract_value.

(* glass with index 3/2 in air along the normal: 24/25 pass, times 4/9 *)
Example refract_value_case :
  match fb_wi (f_refract fone (fnum 3 (-1)) (mk_fvec fzero fzero fone)) with
  | Some wi => (B2SF (fz wi), B2SF (fb_value (f_refract fone (fnum 3 (-1)) (mk_fvec fzero fzero fone)))) = (SpecFloat.S754_finite true 8388608 (-23), SpecFloat.S754_finite false 14316557 (-25))
  | None => False
  end.
Proof. vm_compute. reflexivity. Qed.
