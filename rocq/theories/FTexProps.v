(* Texture look ups in single precision. *)
From Coq Require Import ZArith Reals List Lra Lia Bool.
From Flocq Require Import Core.Core IEEE754.BinarySingleNaN.
From Flocq Require Mult_error.
From Verif Require Import Common FltModel FltFacts FltProps FExtFacts FRayModel FRayFacts FSphereProps FBoxMarginProps FMatProps FMatBoundProps FFilmProps FQuadProps FFresProps FFresNearProps FTexModel.
Import ListNotations.
Local Open Scope R_scope.

(* ----- differences that are exact ----- *)

Lemma fits_grid : forall x p, fits x -> bpow radix2 p <= x -> (-126 <= p)%Z -> exists n, x = IZR n * bpow radix2 (p - 23).
Proof.
  intros x p F L P. unfold fits, generic_format, F2R in F. cbn [Fnum Fexp] in F. set (m := Ztrunc (scaled_mantissa radix2 (FLT_exp (-149) 24) x)) in *.
  set (e := cexp radix2 (FLT_exp (-149) 24) x) in *.
  assert (E : (p - 23 <= e)%Z).
  { unfold e, cexp, FLT_exp. assert (p < mag radix2 x)%Z by (apply mag_gt_bpow; rewrite Rabs_pos_eq; [exact L|]; apply Rle_trans with (bpow radix2 p); [apply bpow_ge_0|exact L]). lia. }
  exists (m * 2 ^ (e - (p - 23)))%Z. rewrite F at 1. rewrite mult_IZR. replace (IZR (2 ^ (e - (p - 23)))) with (bpow radix2 (e - (p - 23))).
  - rewrite Rmult_assoc, <- bpow_plus. f_equal. f_equal. lia.
  - rewrite <- IZR_Zpower by lia. reflexivity.
Qed.

Lemma fits_sub : forall x y n e, fits x -> 0 <= x -> x < bpow radix2 (e + 24) -> (-149 <= e)%Z -> y = IZR n * bpow radix2 e -> 0 <= x - y <= x -> fits (x - y).
Proof.
  intros x y n e F X0 XL E Y D. destruct (Req_dec x 0) as [Z|NZ]. { subst x. replace (0 - y) with 0 by lra. apply (fits_Z 0). cbn; lia. }
  pose proof F as G. unfold fits, generic_format, F2R in G. cbn [Fnum Fexp] in G. set (m := Ztrunc (scaled_mantissa radix2 (FLT_exp (-149) 24) x)) in *.
  set (c := cexp radix2 (FLT_exp (-149) 24) x) in *.
  assert (C : (-149 <= c <= e)%Z).
  { unfold c, cexp, FLT_exp. assert (mag radix2 x <= e + 24)%Z by (apply mag_le_bpow; [exact NZ|rewrite Rabs_pos_eq by exact X0; exact XL]). lia. }
  pose proof (bpow_gt_0 radix2 c) as PC.
  assert (Y2 : y = IZR (n * 2 ^ (e - c)) * bpow radix2 c).
  { rewrite Y, mult_IZR. replace (IZR (2 ^ (e - c))) with (bpow radix2 (e - c)) by (rewrite <- IZR_Zpower by lia; reflexivity). rewrite Rmult_assoc, <- bpow_plus. f_equal. f_equal. lia. }
  assert (M : (Z.abs m < 2 ^ 24)%Z).
  { apply lt_IZR. rewrite abs_IZR. change (IZR (2 ^ 24)) with (bpow radix2 24). pose proof (scaled_mantissa_lt_bpow radix2 (FLT_exp (-149) 24) x) as SM.
    apply (Rmult_lt_reg_r (bpow radix2 c)); [exact PC|]. rewrite <- (Rabs_pos_eq (bpow radix2 c)) at 1 by lra. rewrite <- Rabs_mult, <- G. rewrite <- bpow_plus.
    assert (B : Rabs x < bpow radix2 (mag radix2 x)) by (apply bpow_mag_gt). eapply Rlt_le_trans; [exact B|]. apply bpow_le. unfold c, cexp, FLT_exp. lia. }
  assert (D2 : x - y = IZR (m - n * 2 ^ (e - c)) * bpow radix2 c) by (rewrite Y2, minus_IZR; rewrite G at 1; ring).
  rewrite D2. apply fits_scaled; [|lia].
  assert (B1 : 0 <= IZR (m - n * 2 ^ (e - c))). { apply (Rmult_le_reg_r (bpow radix2 c)); [exact PC|]. rewrite Rmult_0_l, <- D2. lra. }
  assert (B2 : IZR (m - n * 2 ^ (e - c)) <= IZR m). { apply (Rmult_le_reg_r (bpow radix2 c)); [exact PC|]. rewrite <- D2, <- G. lra. }
  apply le_IZR in B1. apply le_IZR in B2. lia.
Qed.

Lemma half_error : forall x p, Rabs x <= bpow radix2 p -> (-120 <= p)%Z -> Rabs (rnd x - x) <= bpow radix2 (p - 25).
Proof.
  intros x p L P. destruct (Req_dec (Rabs x) (bpow radix2 p)) as [E|E].
  - rewrite rnd_fits; [rewrite Rminus_diag_eq, Rabs_R0 by reflexivity; apply bpow_ge_0|].
    destruct (Rcase_abs x) as [N|N]; [rewrite Rabs_left in E by exact N|rewrite Rabs_pos_eq in E by lra].
    + replace x with (- bpow radix2 p) by lra. apply fits_opp, fits_bpow; lia.
    + rewrite E. apply fits_bpow; lia.
  - assert (L2 : Rabs x < bpow radix2 p) by lra. eapply Rle_trans; [apply error_le_half_ulp; auto with typeclass_instances|].
    apply Rle_trans with (/ 2 * bpow radix2 (p - 24)).
    + apply Rmult_le_compat_l; [lra|]. destruct (Req_dec x 0) as [Z|NZ].
      * subst x. rewrite ulp_FLT_0; [|reflexivity]. apply bpow_le; lia.
      * rewrite ulp_neq_0 by exact NZ. apply bpow_le. unfold cexp, FLT_exp. assert (mag radix2 x <= p)%Z by (apply mag_le_bpow; assumption). lia.
    + replace (p - 24)%Z with (p - 25 + 1)%Z by lia. rewrite bpow_plus. change (bpow radix2 1) with 2. lra.
Qed.

(* ----- positions ----- *)

Lemma side_val : forall k, (0 <= k <= 15)%Z -> fin (of_Z (2 ^ k)) /\ val (of_Z (2 ^ k)) = bpow radix2 k /\ IZR (2 ^ k) = bpow radix2 k.
Proof.
  intros k K. assert (P : (0 < 2 ^ k <= 2 ^ 15)%Z) by (split; [apply Z.pow_pos_nonneg; lia|apply Z.pow_le_mono_r; lia]).
  destruct (of_Z_exact (2 ^ k)) as (F & V); [change (2 ^ 15)%Z with 32768%Z in P; change (2 ^ 24)%Z with 16777216%Z; lia|].
  assert (I : IZR (2 ^ k) = bpow radix2 k) by (rewrite <- IZR_Zpower by lia; reflexivity). split; [exact F|]. split; [rewrite V; exact I|exact I].
Qed.

Lemma half_val : fin (fnum 1 (-1)) /\ val (fnum 1 (-1)) = / 2.
Proof. split; [reflexivity|]. erewrite lit_val by (vm_compute; reflexivity). cbn. lra. Qed.

(* the position of a coordinate between 0 and 1 *)
Lemma texel_pos : forall k u, (0 <= k <= 15)%Z -> fin u -> 0 <= val u <= 1 ->
  let w := val u * bpow radix2 k in let t := f_texel_pos (2 ^ k) u in
  fits w /\ 0 <= w <= bpow radix2 k /\ fin t /\ (/ 2 <= w -> val t = w - / 2) /\ (w < / 2 -> - / 2 <= val t <= 0 /\ Rabs (val t - (w - / 2)) <= bpow radix2 (-26)).
Proof.
  intros k u K FU U. cbv zeta. destruct (side_val k K) as (FS & VS & _). destruct half_val as (FH & VH).
  assert (PK : 1 <= bpow radix2 k <= 32768). { split; [change 1 with (bpow radix2 0); apply bpow_le; lia|change 32768 with (bpow radix2 15); apply bpow_le; lia]. }
  assert (W : 0 <= val u * bpow radix2 k <= bpow radix2 k). { split; [apply Rmult_le_pos; lra|]. rewrite <- (Rmult_1_l (bpow radix2 k)) at 2. apply Rmult_le_compat_r; lra. }
  assert (FW : fits (val u * bpow radix2 k)) by (apply (Mult_error.mult_bpow_pos_exact_FLT radix2 (-149) 24 (val u) k); [apply fits_val|lia]).
  destruct (fmul_val u (of_Z (2 ^ k)) FU FS) as (FM & VM). { rewrite VS. apply (small_127 _ 15); [lia|]. rewrite Rabs_pos_eq by lra. change (bpow radix2 15) with 32768. lra. }
  rewrite VS, (rnd_fits _ FW) in VM. set (w := val u * bpow radix2 k) in *.
  destruct (fsub_val (fmul u (of_Z (2 ^ k))) (fnum 1 (-1)) FM FH) as (FT & VT).
  { rewrite VM, VH. apply (small_127 _ 16); [lia|]. change (bpow radix2 16) with 65536. apply Rabs_le. lra. }
  rewrite VM, VH in VT. split; [exact FW|]. split; [exact W|]. split; [exact FT|]. unfold f_texel_pos. rewrite VT. split; intro H.
  - apply rnd_fits. apply (fits_sub w (/ 2) 1 (-1)); [exact FW|lra|change (bpow radix2 (-1 + 24)) with 8388608; lra|lia|change (bpow radix2 (-1)) with (/ 2); lra|lra].
  - split; [|apply (half_error _ (-1)); [change (bpow radix2 (-1)) with (/ 2); apply Rabs_le; lra|lia]].
    apply rnd_between; [|apply (fits_Z 0); cbn; lia|lra]. apply fits_opp. change (/ 2) with (bpow radix2 (-1)). apply fits_bpow; lia.
Qed.

Lemma trunc_index : forall k w, (0 <= k <= 15)%Z -> 0 <= w <= bpow radix2 k -> (0 <= Ztrunc (w - / 2) <= 2 ^ k - 1)%Z.
Proof.
  intros k w K W. destruct (side_val k K) as (_ & _ & I). destruct (Rle_dec (/ 2) w) as [L|L].
  - rewrite Ztrunc_floor by lra. split; [apply Zfloor_lub; cbn; lra|]. apply Z.lt_succ_r. replace (Z.succ (2 ^ k - 1)) with (2 ^ k)%Z by lia. apply lt_IZR. rewrite I.
    apply Rle_lt_trans with (w - / 2); [apply Zfloor_lb|lra].
  - rewrite Ztrunc_ceil by lra. assert (P : (0 < 2 ^ k)%Z) by (apply Z.pow_pos_nonneg; lia). assert (E : Zceil (w - / 2) = 0%Z) by (apply Zceil_imp; cbn; lra). rewrite E. lia.
Qed.

Lemma pos_trunc : forall k u, (0 <= k <= 15)%Z -> fin u -> 0 <= val u <= 1 ->
  Ztrunc (val (f_texel_pos (2 ^ k) u)) = Ztrunc (val u * bpow radix2 k - / 2).
Proof.
  intros k u K FU U. destruct (texel_pos k u K FU U) as (_ & W & _ & HI & LO). cbv zeta in *. set (w := val u * bpow radix2 k) in *.
  destruct (Rle_dec (/ 2) w) as [L|L]; [rewrite (HI L); reflexivity|]. destruct LO as (B & _); [lra|].
  rewrite !Ztrunc_ceil by lra. transitivity 0%Z; [|symmetry]; apply Zceil_imp; cbn; lra.
Qed.

(* For textures with a side of 2^k texels, k at most 15, and coordinates between 0 and 1 the
   unfiltered look up reads the texel of the exact position, and this texel exists. *)
Theorem float_unfiltered : forall k u, (0 <= k <= 15)%Z -> fin u -> 0 <= val u <= 1 ->
  exists x, f_unfiltered (2 ^ k) u = Ok x /\ (0 <= x <= 2 ^ k - 1)%Z /\ x = Ztrunc (val u * IZR (2 ^ k) - / 2).
Proof.
  intros k u K FU U. destruct (texel_pos k u K FU U) as (_ & W & FT & _). cbv zeta in *. pose proof (trunc_index k _ K W) as B. pose proof (pos_trunc k u K FU U) as E.
  destruct (side_val k K) as (_ & _ & I). exists (Ztrunc (val u * bpow radix2 k - / 2)). split; [|split; [exact B|rewrite I; reflexivity]].
  unfold f_unfiltered. rewrite <- E. apply to_range_ok; [exact FT|]. rewrite E. assert (2 ^ k <= 2 ^ 15)%Z by (apply Z.pow_le_mono_r; lia). change (2 ^ 15)%Z with 32768%Z in H. lia.
Qed.
Print Assumptions float_unfiltered.

(* 9/16 of 4 texels: the second one *)
Example float_unfiltered_case : let u := fnum 9 (-4) in fin u /\ 0 <= val u <= 1 /\ f_unfiltered (2 ^ 2) u = Ok 1%Z.
Proof.
  cbv zeta. assert (V : val (fnum 9 (-4)) = 9 / 16) by (erewrite lit_val by (vm_compute; reflexivity); cbn; lra). rewrite V.
  split; [reflexivity|]. split; [lra|]. vm_compute. reflexivity.
Qed.

Lemma abs_val : forall x, fin x -> fin (fabs x) /\ val (fabs x) = Rabs (val x).
Proof. intros x F. unfold fabs, fin, val. rewrite is_finite_Babs, B2R_Babs. split; [exact F|reflexivity]. Qed.

Lemma texel_parts : forall k u, (0 <= k <= 15)%Z -> fin u -> 0 <= val u <= 1 ->
  let w := val u * bpow radix2 k in let x := Ztrunc (w - / 2) in
  exists d, f_texel (2 ^ k) u = Ok (x, d) /\ (0 <= x <= 2 ^ k - 1)%Z /\ fin d /\ 0 <= val d <= 1 /\
    Rabs (val d - Rabs (w - / 2 - IZR x)) <= bpow radix2 (-26) /\
    (/ 2 <= w -> val d = w - / 2 - IZR x /\ exists n, (0 <= n <= 2 ^ 24)%Z /\ val d = IZR n * bpow radix2 (-24)).
Proof.
  intros k u K FU U. destruct (texel_pos k u K FU U) as (FW & W & FT & HI & LO). cbv zeta in *. pose proof (trunc_index k _ K W) as B. pose proof (pos_trunc k u K FU U) as E.
  assert (P15 : (2 ^ k <= 32768)%Z) by (change 32768%Z with (2 ^ 15)%Z; apply Z.pow_le_mono_r; lia).
  assert (PK : 1 <= bpow radix2 k <= 32768). { split; [change 1 with (bpow radix2 0); apply bpow_le; lia|change 32768 with (bpow radix2 15); apply bpow_le; lia]. }
  set (w := val u * bpow radix2 k) in *. set (x := Ztrunc (w - / 2)) in *. set (t := f_texel_pos (2 ^ k) u) in *.
  destruct (of_Z_exact x) as (FX & VX); [change (2 ^ 24)%Z with 16777216%Z; lia|].
  assert (BX : 0 <= IZR x <= 32768) by (split; apply IZR_le; lia).
  assert (BT : - / 2 <= val t <= 32768). { destruct (Rle_dec (/ 2) w) as [L|L]; [rewrite (HI L); lra|destruct LO; lra]. }
  destruct (fsub_val t (of_Z x) FT FX) as (FD & VD). { rewrite VX. apply (small_127 _ 16); [lia|]. change (bpow radix2 16) with 65536. apply Rabs_le. lra. }
  rewrite VX in VD. destruct (abs_val _ FD) as (FA & VA).
  exists (fabs (fsub t (of_Z x))). split.
  { unfold f_texel. fold t. cbv zeta. unfold to_int. rewrite (to_range_ok _ _ t FT); [rewrite E; reflexivity|]. rewrite E. change (2 ^ 31)%Z with 2147483648%Z. lia. }
  split; [exact B|]. split; [exact FA|]. rewrite VA, VD.
  assert (H26 : 0 <= bpow radix2 (-26)) by apply bpow_ge_0.
  destruct (Rle_dec (/ 2) w) as [L|L].
  - specialize (HI L). rewrite HI.
    assert (FL : IZR x <= w - / 2 < IZR x + 1). { unfold x. rewrite Ztrunc_floor by lra. split; [apply Zfloor_lb|apply Zfloor_ub]. }
    assert (FI : fits (w - / 2 - IZR x)).
    { apply (fits_sub _ (IZR x) x 0); [rewrite <- HI; apply fits_val|lra|change (bpow radix2 (0 + 24)) with 16777216; lra|lia|cbn; ring|lra]. }
    rewrite (rnd_fits _ FI), Rabs_pos_eq by lra. split; [lra|]. split; [rewrite Rminus_diag_eq, Rabs_R0 by reflexivity; exact H26|]. intros _. split; [reflexivity|].
    destruct (fits_grid w (-1) FW) as (m & M); [exact L|lia|]. change (-1 - 23)%Z with (-24)%Z in M.
    exists (m - 8388608 - x * 16777216)%Z. assert (G : w - / 2 - IZR x = IZR (m - 8388608 - x * 16777216) * bpow radix2 (-24)).
    { rewrite M, !minus_IZR, mult_IZR, u24_bpow. unfold u24. field. }
    split; [|exact G]. assert (P24 : bpow radix2 (-24) = / 16777216) by reflexivity. rewrite P24 in G. split; apply le_IZR; [change (IZR 0) with 0|change (IZR (2 ^ 24)) with 16777216]; lra.
  - destruct LO as (BN & ER); [lra|]. assert (X0 : x = 0%Z). { unfold x. rewrite Ztrunc_ceil by lra. apply Zceil_imp; cbn; lra. }
    rewrite X0, !Rminus_0_r. rewrite (rnd_fits (val t)) by apply fits_val. split; [rewrite Rabs_left1; lra|]. split; [|intro; lra].
    rewrite (Rabs_left1 (val t)), (Rabs_left1 (w - / 2)) by lra. replace (- val t - - (w - / 2)) with (- (val t - (w - / 2))) by ring. rewrite Rabs_Ropp. exact ER.
Qed.

(* ----- the mix of four texels ----- *)

Lemma weighted : forall t w e, (0 <= t <= 255)%Z -> fin w -> 0 <= val w <= 1 -> 0 <= e <= 1 -> Rabs (val w - e) <= u24 ->
  fin (fmul (of_Z t) w) /\ 0 <= val (fmul (of_Z t) w) <= 255 /\ Rabs (val (fmul (of_Z t) w) - IZR t * e) <= 511 * u24.
Proof.
  intros t w e T FW W E D. destruct (of_Z_exact t) as (FT & VT); [change (2 ^ 24)%Z with 16777216%Z; lia|].
  assert (BT : 0 <= IZR t <= 255) by (split; apply IZR_le; lia).
  assert (P : 0 <= IZR t * val w <= 255). { split; [apply Rmult_le_pos; lra|]. rewrite <- (Rmult_1_r 255). apply Rmult_le_compat; lra. }
  destruct (fmul_val (of_Z t) w FT FW) as (FM & VM). { rewrite VT. apply (small_127 _ 8); [lia|]. change (bpow radix2 8) with 256. rewrite Rabs_pos_eq; lra. }
  rewrite VT in VM. split; [exact FM|]. rewrite VM. split.
  - split; [apply rnd_nonneg; lra|]. rewrite <- (rnd_fits 255) by (apply (fits_Z 255); cbn; lia). apply rnd_le; lra.
  - pose proof (rerr (IZR t * val w)) as R1. rewrite (Rabs_pos_eq (IZR t * val w)) in R1 by lra. destruct h150_u24 as (H0 & H1).
    assert (TE : Rabs (IZR t * val w - IZR t * e) <= 255 * u24).
    { rewrite <- Rmult_minus_distr_l, Rabs_mult, (Rabs_pos_eq (IZR t)) by lra. apply Rmult_le_compat; try lra. apply Rabs_pos. }
    assert (u24 * (IZR t * val w) <= u24 * 255) by (apply Rmult_le_compat_l; [unfold u24; lra|lra]).
    apply abs_both in R1. apply abs_both in TE. apply Rabs_le. unfold u24 in *. lra.
Qed.

Lemma other_weight : forall d, fin d -> 0 <= val d <= 1 -> fin (fsub fone d) /\ 0 <= val (fsub fone d) <= 1 /\ val (fsub fone d) = rnd (1 - val d) /\ Rabs (val (fsub fone d) - (1 - val d)) <= u24.
Proof.
  intros d F D. destruct fone_val as (FO & VO). destruct (fsub_val fone d FO F) as (FS & VS); [rewrite VO; apply one_127; rewrite Rabs_pos_eq; lra|]. rewrite VO in VS.
  split; [exact FS|]. rewrite VS. split; [split; [apply rnd_nonneg; lra|apply Rle_trans with (rnd 1); [apply rnd_le; lra|rewrite rnd_one; lra]]|]. split; [reflexivity|].
  apply Rle_trans with (bpow radix2 (0 - 25)); [apply half_error; [rewrite Rabs_pos_eq; cbn; lra|lia]|]. rewrite <- u24_bpow. apply bpow_le; lia.
Qed.

(* one row of two texels *)
Lemma row_mix : forall s t d, (0 <= s <= 255)%Z -> (0 <= t <= 255)%Z -> fin d -> 0 <= val d <= 1 ->
  let r := fadd (fmul (of_Z s) (fsub fone d)) (fmul (of_Z t) d) in
  fin r /\ 0 <= val r <= 256 /\ Rabs (val r - (IZR s * (1 - val d) + IZR t * val d)) <= 1280 * u24.
Proof.
  intros s t d S T F D. cbv zeta. destruct (other_weight d F D) as (FI & I & _ & EI).
  destruct (weighted s (fsub fone d) (1 - val d) S FI I ltac:(lra) EI) as (F1 & B1 & E1).
  destruct (weighted t d (val d) T F D D) as (F2 & B2 & E2); [rewrite Rminus_diag_eq, Rabs_R0 by reflexivity; unfold u24; lra|].
  destruct (fadd_val _ _ F1 F2) as (FA & VA). { apply (small_127 _ 9); [lia|]. change (bpow radix2 9) with 512. rewrite Rabs_pos_eq; lra. }
  assert (BS : 0 <= IZR s <= 255) by (split; apply IZR_le; lia). assert (BT : 0 <= IZR t <= 255) by (split; apply IZR_le; lia).
  assert (M : 0 <= IZR s * (1 - val d) + IZR t * val d <= 255).
  { assert (0 <= IZR s * (1 - val d) <= 255 * (1 - val d)) by (split; [apply Rmult_le_pos; lra|apply Rmult_le_compat_r; lra]).
    assert (0 <= IZR t * val d <= 255 * val d) by (split; [apply Rmult_le_pos; lra|apply Rmult_le_compat_r; lra]). lra. }
  apply abs_both in E1. apply abs_both in E2. set (a := val (fmul (of_Z s) (fsub fone d))) in *. set (b := val (fmul (of_Z t) d)) in *.
  assert (AB : 0 <= a + b <= 256) by (unfold u24 in *; lra). split; [exact FA|]. rewrite VA. split.
  - apply rnd_between; [apply (fits_Z 0); cbn; lia|apply (fits_Z 256); cbn; lia|exact AB].
  - pose proof (rerr (a + b)) as R1. rewrite (Rabs_pos_eq (a + b)) in R1 by lra. destruct h150_u24 as (H0 & H1). apply abs_both in R1. apply Rabs_le.
    assert (u24 * (a + b) <= u24 * 256) by (apply Rmult_le_compat_l; [unfold u24; lra|lra]). unfold u24 in *. lra.
Qed.

Definition mix_exact (t0 t1 t2 t3 : Z) (du dv : R) : R :=
  (IZR t0 * (1 - du) + IZR t1 * du) * (1 - dv) + (IZR t2 * (1 - du) + IZR t3 * du) * dv.

Definition byte (t : Z) : Prop := (0 <= t <= 255)%Z.

Lemma row_exact : forall s t d, byte s -> byte t -> 0 <= d <= 1 -> 0 <= IZR s * (1 - d) + IZR t * d <= 255.
Proof.
  intros s t d S T D. assert (BS : 0 <= IZR s <= 255) by (split; apply IZR_le; apply S). assert (BT : 0 <= IZR t <= 255) by (split; apply IZR_le; apply T).
  assert (0 <= IZR s * (1 - d) <= 255 * (1 - d)) by (split; [apply Rmult_le_pos; lra|apply Rmult_le_compat_r; lra]).
  assert (0 <= IZR t * d <= 255 * d) by (split; [apply Rmult_le_pos; lra|apply Rmult_le_compat_r; lra]). lra.
Qed.

Lemma scaled_row : forall r w x e, fin r -> fin w -> 0 <= val r <= 256 -> 0 <= val w <= 1 -> 0 <= x <= 255 -> 0 <= e <= 1 -> Rabs (val r - x) <= 1280 * u24 -> Rabs (val w - e) <= u24 ->
  fin (fmul r w) /\ 0 <= val (fmul r w) <= 256 /\ Rabs (val (fmul r w) - x * e) <= 1800 * u24.
Proof.
  intros r w x e FR FW R0 W X E ER EW.
  assert (P : 0 <= val r * val w <= 256). { split; [apply Rmult_le_pos; lra|]. rewrite <- (Rmult_1_r 256). apply Rmult_le_compat; lra. }
  destruct (fmul_val r w FR FW) as (FM & VM). { apply (small_127 _ 8); [lia|]. change (bpow radix2 8) with 256. rewrite Rabs_pos_eq; lra. }
  split; [exact FM|]. rewrite VM. split; [apply rnd_between; [apply (fits_Z 0); cbn; lia|apply (fits_Z 256); cbn; lia|exact P]|].
  pose proof (rerr (val r * val w)) as R1. rewrite (Rabs_pos_eq (val r * val w)) in R1 by lra. destruct h150_u24 as (H0 & H1).
  assert (A : Rabs ((val r - x) * val w) <= 1280 * u24). { rewrite Rabs_mult, (Rabs_pos_eq (val w)), <- (Rmult_1_r (1280 * u24)) by lra. apply Rmult_le_compat; try lra. apply Rabs_pos. }
  assert (B : Rabs (x * (val w - e)) <= 255 * u24). { rewrite Rabs_mult, (Rabs_pos_eq x) by lra. apply Rmult_le_compat; try lra. apply Rabs_pos. }
  assert (u24 * (val r * val w) <= u24 * 256) by (apply Rmult_le_compat_l; [unfold u24; lra|lra]).
  replace (val r * val w) with ((val r - x) * val w + x * (val w - e) + x * e) in R1 at 2 by ring.
  apply abs_both in R1. apply abs_both in A. apply abs_both in B. apply Rabs_le. unfold u24 in *. lra.
Qed.

Lemma mix_near : forall t0 t1 t2 t3 du dv, byte t0 -> byte t1 -> byte t2 -> byte t3 -> fin du -> fin dv -> 0 <= val du <= 1 -> 0 <= val dv <= 1 ->
  fin (f_mix t0 t1 t2 t3 du dv) /\ 0 <= val (f_mix t0 t1 t2 t3 du dv) /\ Rabs (val (f_mix t0 t1 t2 t3 du dv) - mix_exact t0 t1 t2 t3 (val du) (val dv)) <= bpow radix2 (-12).
Proof.
  intros t0 t1 t2 t3 du dv B0 B1 B2 B3 FU FV U V. destruct (row_mix t0 t1 du B0 B1 FU U) as (F1 & R1 & E1). destruct (row_mix t2 t3 du B2 B3 FU U) as (F2 & R2 & E2).
  destruct (other_weight dv FV V) as (FI & I & _ & EI). pose proof (row_exact t0 t1 _ B0 B1 U) as X1. pose proof (row_exact t2 t3 _ B2 B3 U) as X2.
  assert (V1 : 0 <= 1 - val dv <= 1) by lra. destruct (scaled_row _ _ _ _ F1 FI R1 I X1 V1 E1 EI) as (F3 & R3 & E3).
  destruct (scaled_row _ dv _ (val dv) F2 FV R2 V X2 V E2) as (F4 & R4 & E4); [rewrite Rminus_diag_eq, Rabs_R0 by reflexivity; unfold u24; lra|].
  unfold f_mix. cbv zeta. unfold mix_exact. set (p := fmul (fadd (fmul (of_Z t0) (fsub fone du)) (fmul (of_Z t1) du)) (fsub fone dv)) in *.
  set (q := fmul (fadd (fmul (of_Z t2) (fsub fone du)) (fmul (of_Z t3) du)) dv) in *. clearbody p q.
  set (x1 := IZR t0 * (1 - val du) + IZR t1 * val du) in *. set (x2 := IZR t2 * (1 - val du) + IZR t3 * val du) in *. clearbody x1 x2.
  destruct (fadd_val p q F3 F4) as (FA & VA). { apply (small_127 _ 9); [lia|]. change (bpow radix2 9) with 512. rewrite Rabs_pos_eq; lra. }
  split; [exact FA|]. rewrite VA. split; [apply rnd_nonneg; lra|].
  assert (M : x1 * (1 - val dv) + x2 * val dv <= 255).
  { assert (x1 * (1 - val dv) <= 255 * (1 - val dv)) by (apply Rmult_le_compat_r; lra). assert (x2 * val dv <= 255 * val dv) by (apply Rmult_le_compat_r; lra). lra. }
  pose proof (rerr (val p + val q)) as R5. rewrite (Rabs_pos_eq (val p + val q)) in R5 by lra. destruct h150_u24 as (H0 & H1).
  apply abs_both in R5. apply abs_both in E3. apply abs_both in E4.
  assert (u24 * (val p + val q) <= u24 * 256) by (apply Rmult_le_compat_l; [unfold u24; lra|unfold u24 in *; lra]).
  change (bpow radix2 (-12)) with (/ 4096). apply Rabs_le. unfold u24 in *. lra.
Qed.

Lemma mix_lipschitz : forall t0 t1 t2 t3 a b c d, byte t0 -> byte t1 -> byte t2 -> byte t3 -> 0 <= a <= 1 -> 0 <= b <= 1 -> 0 <= c <= 1 -> 0 <= d <= 1 ->
  Rabs (a - c) <= bpow radix2 (-26) -> Rabs (b - d) <= bpow radix2 (-26) -> Rabs (mix_exact t0 t1 t2 t3 a b - mix_exact t0 t1 t2 t3 c d) <= bpow radix2 (-12).
Proof.
  intros t0 t1 t2 t3 a b c d B0 B1 B2 B3 A B C D EA EB.
  pose proof (row_exact t0 t1 c B0 B1 C) as X1. pose proof (row_exact t2 t3 c B2 B3 C) as X2.
  assert (RD : forall s t, byte s -> byte t -> Rabs (IZR s * (1 - a) + IZR t * a - (IZR s * (1 - c) + IZR t * c)) <= 255 * bpow radix2 (-26)).
  { intros s t S T. replace (IZR s * (1 - a) + IZR t * a - (IZR s * (1 - c) + IZR t * c)) with ((IZR t - IZR s) * (a - c)) by ring. rewrite Rabs_mult.
    apply Rmult_le_compat; try apply Rabs_pos; [|exact EA]. assert (0 <= IZR s <= 255) by (split; apply IZR_le; apply S). assert (0 <= IZR t <= 255) by (split; apply IZR_le; apply T). apply Rabs_le. lra. }
  pose proof (RD t0 t1 B0 B1) as D1. pose proof (RD t2 t3 B2 B3) as D2. unfold mix_exact.
  set (x1 := IZR t0 * (1 - c) + IZR t1 * c) in *. set (x2 := IZR t2 * (1 - c) + IZR t3 * c) in *. set (y1 := IZR t0 * (1 - a) + IZR t1 * a) in *. set (y2 := IZR t2 * (1 - a) + IZR t3 * a) in *. clearbody x1 x2 y1 y2.
  replace (y1 * (1 - b) + y2 * b - (x1 * (1 - d) + x2 * d)) with ((y1 - x1) * (1 - b) + (y2 - x2) * b + (x2 - x1) * (b - d)) by ring.
  assert (P1 : Rabs ((y1 - x1) * (1 - b)) <= 255 * bpow radix2 (-26) * 1) by (rewrite Rabs_mult, (Rabs_pos_eq (1 - b)) by lra; apply Rmult_le_compat; try lra; apply Rabs_pos).
  assert (P2 : Rabs ((y2 - x2) * b) <= 255 * bpow radix2 (-26) * 1) by (rewrite Rabs_mult, (Rabs_pos_eq b) by lra; apply Rmult_le_compat; try lra; apply Rabs_pos).
  assert (P3 : Rabs ((x2 - x1) * (b - d)) <= 255 * bpow radix2 (-26)) by (rewrite Rabs_mult; apply Rmult_le_compat; try apply Rabs_pos; [apply Rabs_le; lra|exact EB]).
  apply abs_both in P1. apply abs_both in P2. apply abs_both in P3. change (bpow radix2 (-26)) with (/ 67108864) in *. change (bpow radix2 (-12)) with (/ 4096). apply Rabs_le. lra.
Qed.

(* The exact bilinear mix at a point of the texture: the position in texels from the centre of the
   first one, the four texels around it (the last is followed by the first) and their weights. *)
Definition texture_exact (side : Z) (texel : Z -> Z -> Z) (u v : R) : R :=
  let tu := u * IZR side - / 2 in
  let tv := v * IZR side - / 2 in
  let x := Ztrunc tu in
  let y := Ztrunc tv in
  let nx := ((x + 1) mod side)%Z in
  let ny := ((y + 1) mod side)%Z in
  mix_exact (texel x y) (texel nx y) (texel x ny) (texel nx ny) (Rabs (tu - IZR x)) (Rabs (tv - IZR y)).

Lemma next_mod : forall side x, (0 <= x <= side - 1)%Z -> next_texel side x = ((x + 1) mod side)%Z.
Proof.
  intros side x X. unfold next_texel. destruct (Z.leb_spec (x + 1) (side - 1)); [rewrite Z.mod_small by lia; reflexivity|].
  replace (x + 1)%Z with side by lia. rewrite Z.mod_same by lia. reflexivity.
Qed.

Lemma weight_range : forall k w, (0 <= k <= 15)%Z -> 0 <= w <= bpow radix2 k -> 0 <= Rabs (w - / 2 - IZR (Ztrunc (w - / 2))) <= 1.
Proof.
  intros k w K W. split; [apply Rabs_pos|]. destruct (Rle_dec (/ 2) w) as [L|L].
  - rewrite Ztrunc_floor by lra. pose proof (Zfloor_lb (w - / 2)). pose proof (Zfloor_ub (w - / 2)). apply Rabs_le. lra.
  - rewrite Ztrunc_ceil by lra. assert (E : Zceil (w - / 2) = 0%Z) by (apply Zceil_imp; cbn; lra). rewrite E. apply Rabs_le. lra.
Qed.

Lemma trunc_byte : forall f e, fin f -> 0 <= val f -> Rabs (val f - e) <= / 2048 -> e <= 255 ->
  exists c, to_range 0 255 f = Ok c /\ e - 1 - / 2048 < IZR c <= e + / 2048.
Proof.
  intros f e F P D E. apply abs_both in D. exists (Ztrunc (val f)). pose proof (Zfloor_lb (val f)) as L. pose proof (Zfloor_ub (val f)) as U. rewrite Ztrunc_floor by exact P.
  split; [|lra]. rewrite <- (Ztrunc_floor (val f)) by exact P. apply to_range_ok; [exact F|]. rewrite Ztrunc_floor by exact P. split; [apply Zfloor_lub; cbn; exact P|].
  apply Z.lt_succ_r, lt_IZR. cbn. lra.
Qed.

(* For textures with a side of 2^k texels, k at most 15, and coordinates between 0 and 1 the bilinear
   look up reads texels that exist, and the channel it returns is the exact mix cut to an integer,
   up to 2^-11: not above the mix, and less than one below it. *)
Theorem float_bilinear : forall k texel u v, (0 <= k <= 15)%Z -> (forall x y, (0 <= x < 2 ^ k)%Z -> (0 <= y < 2 ^ k)%Z -> (0 <= texel x y <= 255)%Z) ->
  fin u -> fin v -> 0 <= val u <= 1 -> 0 <= val v <= 1 ->
  let get x y := if ((0 <=? x) && (x <? 2 ^ k) && ((0 <=? y) && (y <? 2 ^ k)))%Z then Ok (texel x y) else UB in
  exists c, f_bilinear (2 ^ k) get u v = Ok c /\
    texture_exact (2 ^ k) texel (val u) (val v) - 1 - / 2048 < IZR c <= texture_exact (2 ^ k) texel (val u) (val v) + / 2048.
Proof.
  intros k texel u v K TX FU FV U V get.
  destruct (texel_parts k u K FU U) as (du & EU & XU & FDU & DU & NU & _). destruct (texel_parts k v K FV V) as (dv & EV & XV & FDV & DV & NV & _). cbv zeta in *.
  destruct (texel_pos k u K FU U) as (_ & WU & _). destruct (texel_pos k v K FV V) as (_ & WV & _). cbv zeta in *.
  destruct (side_val k K) as (_ & _ & I). unfold texture_exact. cbv zeta. rewrite I.
  pose proof (weight_range k _ K WU) as RU. pose proof (weight_range k _ K WV) as RV.
  set (tu := val u * bpow radix2 k - / 2) in *. set (tv := val v * bpow radix2 k - / 2) in *. set (x := Ztrunc tu) in *. set (y := Ztrunc tv) in *.
  rewrite <- (next_mod _ x XU), <- (next_mod _ y XV).
  assert (NX : (0 <= next_texel (2 ^ k) x < 2 ^ k)%Z) by (unfold next_texel; destruct (Z.leb_spec (x + 1) (2 ^ k - 1)); lia).
  assert (NY : (0 <= next_texel (2 ^ k) y < 2 ^ k)%Z) by (unfold next_texel; destruct (Z.leb_spec (y + 1) (2 ^ k - 1)); lia).
  set (nx := next_texel (2 ^ k) x) in *. set (ny := next_texel (2 ^ k) y) in *.
  assert (G : forall x y, (0 <= x < 2 ^ k)%Z -> (0 <= y < 2 ^ k)%Z -> get x y = Ok (texel x y)).
  { intros a b A B. unfold get. destruct (Z.leb_spec 0 a), (Z.ltb_spec a (2 ^ k)), (Z.leb_spec 0 b), (Z.ltb_spec b (2 ^ k)); try lia. reflexivity. }
  unfold f_bilinear. rewrite EU. cbn [bind]. rewrite EV. cbn [bind]. fold nx ny. rewrite !G by lia. cbn [bind].
  assert (T0 : byte (texel x y)) by (apply TX; lia). assert (T1 : byte (texel nx y)) by (apply TX; lia). assert (T2 : byte (texel x ny)) by (apply TX; lia). assert (T3 : byte (texel nx ny)) by (apply TX; lia).
  destruct (mix_near _ _ _ _ du dv T0 T1 T2 T3 FDU FDV DU DV) as (FM & PM & EM).
  pose proof (mix_lipschitz _ _ _ _ _ _ _ _ T0 T1 T2 T3 DU DV RU RV NU NV) as LM. change (bpow radix2 (-12)) with (/ 4096) in EM, LM.
  apply trunc_byte; [exact FM|exact PM| |].
  - apply abs_both in EM. apply abs_both in LM. apply Rabs_le. lra.
  - unfold mix_exact. pose proof (row_exact _ _ _ T0 T1 RU) as X1. pose proof (row_exact _ _ _ T2 T3 RU) as X2. 
    set (d := Rabs (tv - IZR y)) in *. set (x1 := IZR (texel x y) * (1 - Rabs (tu - IZR x)) + IZR (texel nx y) * Rabs (tu - IZR x)) in *. set (x2 := IZR (texel x ny) * (1 - Rabs (tu - IZR x)) + IZR (texel nx ny) * Rabs (tu - IZR x)) in *. clearbody d x1 x2.
    assert (x1 * (1 - d) <= 255 * (1 - d)) by (apply Rmult_le_compat_r; lra). assert (x2 * d <= 255 * d) by (apply Rmult_le_compat_r; lra). lra.
Qed.
Print Assumptions float_bilinear.

(* a slope of 64 per texel, 7/4 texels from the centre of the first one: 112 exactly *)
Example float_bilinear_case : let u := fnum 9 (-4) in fin u /\ 0 <= val u <= 1 /\ f_bilinear (2 ^ 2) (fun x y => Ok (64 * x)%Z) u u = Ok 112%Z.
Proof.
  cbv zeta. assert (V : val (fnum 9 (-4)) = 9 / 16) by (erewrite lit_val by (vm_compute; reflexivity); cbn; lra). rewrite V.
  split; [reflexivity|]. split; [lra|]. vm_compute. reflexivity.
Qed.
