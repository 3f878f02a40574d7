(* A sphere seen from far away, and the tolerance of the occlusion test, in single precision. *)
From Coq Require Import ZArith Reals Lra Lia List Bool Psatz.
From Flocq Require Import Core.Core IEEE754.BinarySingleNaN.
From Flocq Require Mult_error.
From Verif Require Import Common FltModel FltFacts FltProps FltVecProps FExtFacts FRayModel.
Local Open Scope R_scope.

Lemma bpow_Z : forall e, (0 <= e)%Z -> bpow radix2 e = IZR (2 ^ e).
Proof. intros e H; rewrite <- (IZR_Zpower radix2) by exact H; reflexivity. Qed.

Lemma ulp_big : forall x e, (-100 <= e)%Z -> bpow radix2 e <= x -> bpow radix2 (e - 23) <= ulp radix2 (FLT_exp (-149) 24) x.
Proof.
  intros x e E L; pose proof (bpow_gt_0 radix2 e) as P.
  apply Rle_trans with (ulp radix2 (FLT_exp (-149) 24) (bpow radix2 e)).
  - rewrite ulp_bpow; apply bpow_le; unfold FLT_exp; lia.
  - apply ulp_le; auto with typeclass_instances; rewrite !Rabs_pos_eq by lra; exact L.
Qed.

(* a number moved by less than half the distance to the next one does not move *)
Lemma absorb_below : forall s t e, fits s -> (-100 <= e)%Z -> bpow radix2 e < s -> 0 <= t -> t < bpow radix2 (e - 24) -> rnd (s - t) = s.
Proof.
  intros s t e F E L T0 T; pose proof (bpow_gt_0 radix2 e) as P.
  apply Rle_antisym.
  - rewrite <- (rnd_fits s F) at 2; apply rnd_le; lra.
  - apply round_N_ge_midp; auto with typeclass_instances.
    assert (PG : bpow radix2 e <= pred radix2 (FLT_exp (-149) 24) s).
    { apply pred_ge_gt; [apply valid32 | apply fits_bpow; lia | exact F | exact L]. }
    pose proof (pred_plus_ulp radix2 (FLT_exp (-149) 24) s ltac:(lra) F) as Q.
    pose proof (ulp_big _ e E PG) as U.
    assert (B : bpow radix2 (e - 23) = 2 * bpow radix2 (e - 24)).
    { replace (e - 23)%Z with (1 + (e - 24))%Z by lia; rewrite bpow_plus; reflexivity. }
    lra.
Qed.

Lemma absorb_above : forall s t e, fits s -> (-100 <= e)%Z -> bpow radix2 e <= s -> 0 <= t -> t < bpow radix2 (e - 24) -> rnd (s + t) = s.
Proof.
  intros s t e F E L T0 T; pose proof (bpow_gt_0 radix2 e) as P.
  apply Rle_antisym.
  - apply round_N_le_midp; auto with typeclass_instances.
    rewrite succ_eq_pos by lra; pose proof (ulp_big _ e E L) as U.
    assert (B : bpow radix2 (e - 23) = 2 * bpow radix2 (e - 24)).
    { replace (e - 23)%Z with (1 + (e - 24))%Z by lia; rewrite bpow_plus; reflexivity. }
    lra.
  - rewrite <- (rnd_fits s F) at 1; apply rnd_le; lra.
Qed.

(* rounding commutes with a power of two, away from underflow *)
Lemma rnd_scale : forall x k, (0 <= k)%Z -> bpow radix2 (-100) <= x -> rnd (x * bpow radix2 k) = rnd x * bpow radix2 k.
Proof.
  intros x k K L; pose proof (bpow_gt_0 radix2 (-100)) as P.
  assert (NZ : x <> 0) by lra.
  assert (MG : (-100 < mag radix2 x)%Z) by (apply mag_gt_bpow; rewrite Rabs_pos_eq by lra; exact L).
  assert (C : cexp radix2 (FLT_exp (-149) 24) (x * bpow radix2 k) = (cexp radix2 (FLT_exp (-149) 24) x + k)%Z).
  { unfold cexp; rewrite mag_mult_bpow by exact NZ; unfold FLT_exp; lia. }
  unfold rnd, round, scaled_mantissa, F2R; cbn [Fnum Fexp]; rewrite C, bpow_plus, <- Rmult_assoc; f_equal; f_equal; f_equal; f_equal.
  rewrite Rmult_assoc, <- bpow_plus; f_equal; f_equal; lia.
Qed.

(* ----- the centre of a far sphere ----- *)

Definition axis_ray (x : f32) : fray := mk_fray (mk_fvec fzero fzero (fneg x)) (mk_fvec fzero fzero fone).

Lemma neg_val : forall x : f32, fin x -> fin (fneg x) /\ val (fneg x) = - val x.
Proof. intros x F; unfold fneg, fin, val; rewrite is_finite_Bopp, B2R_Bopp; auto. Qed.

Lemma fzero_mul : forall x, fin x -> fin (fmul fzero x) /\ val (fmul fzero x) = 0.
Proof.
  intros x F; destruct fzero_val as [FZ VZ]; destruct (fmul_val fzero x FZ F) as [A B].
  - rewrite VZ, Rmult_0_l, Rabs_R0; apply bpow_ge_0.
  - rewrite VZ, Rmult_0_l, rnd_0 in B; auto.
Qed.

Lemma add_zeros : forall a b, fin a -> fin b -> val a = 0 -> val b = 0 -> fin (fadd a b) /\ val (fadd a b) = 0.
Proof.
  intros a b FA FB A B; destruct (fadd_val a b FA FB) as [F V].
  - rewrite A, B, Rplus_0_l, Rabs_R0; apply bpow_ge_0.
  - rewrite A, B, Rplus_0_l, rnd_0 in V; auto.
Qed.

Lemma zero_add : forall a b, fin a -> fin b -> val a = 0 -> Rabs (val b) <= bpow radix2 127 -> fin (fadd a b) /\ val (fadd a b) = val b.
Proof.
  intros a b FA FB A B; destruct (fadd_val a b FA FB) as [F V].
  - rewrite A, Rplus_0_l; exact B.
  - rewrite A, Rplus_0_l, rnd_fits in V by apply fits_val; auto.
Qed.

Lemma one_mul : forall x, fin x -> Rabs (val x) <= bpow radix2 127 -> fin (fmul fone x) /\ val (fmul fone x) = val x.
Proof.
  intros x F B; destruct fone_val as [F1 V1]; destruct (fmul_val fone x F1 F) as [A V].
  - rewrite V1, Rmult_1_l; exact B.
  - rewrite V1, Rmult_1_l, rnd_fits in V by apply fits_val; auto.
Qed.

(* a dot product with a vector on the third axis *)
Lemma dot_axis : forall x y : f32, fin x -> fin y -> Rabs (val x * val y) <= bpow radix2 126 ->
  fin (fv_dot (mk_fvec fzero fzero x) (mk_fvec fzero fzero y)) /\
  val (fv_dot (mk_fvec fzero fzero x) (mk_fvec fzero fzero y)) = rnd (val x * val y).
Proof.
  intros x y FX FY B; destruct fzero_val as [FZ VZ]; unfold fv_dot; cbn [fx fy fz].
  destruct (fzero_mul fzero FZ) as [A1 A2]; destruct (add_zeros _ _ A1 A1 A2 A2) as [A3 A4].
  assert (B127 : Rabs (val x * val y) <= bpow radix2 127) by (pose proof (bpow_le radix2 126 127 ltac:(lia)); lra).
  destruct (fmul_val x y FX FY B127) as [F V].
  assert (R1 : Rabs (rnd (val x * val y)) <= bpow radix2 127).
  { apply abs_bounds in B; apply abs_bounds; pose proof (bpow_le radix2 126 127 ltac:(lia)) as L.
    pose proof (rnd_between (val x * val y) (- bpow radix2 126) (bpow radix2 126)) as Q.
    destruct Q; [apply fits_opp, fits_bpow; lia | apply fits_bpow; lia | exact B | lra]. }
  destruct (zero_add _ _ A3 F A4) as [G1 G2]; [rewrite V; exact R1 |]; rewrite V in G2; auto.
Qed.

Lemma same_float : forall x y : f32, fin x -> fin y -> val x = val y -> 0 < val y -> x = y.
Proof.
  intros x y FX FY E P; pose proof (sign_val x) as SX; pose proof (sign_val y) as SY.
  apply B2R_Bsign_inj; [exact FX | exact FY | exact E |].
  destruct (Bsign x), (Bsign y); try reflexivity; lra.
Qed.

Lemma scale2 : forall a : f32, fin a -> forall n, (1 <= n <= 2)%Z -> Rabs (val a) <= bpow radix2 124 ->
  fin (fmul (of_Z (2 ^ n)) a) /\ val (fmul (of_Z (2 ^ n)) a) = bpow radix2 n * val a.
Proof.
  intros a FA n N B.
  assert (BN : bpow radix2 n = IZR (2 ^ n)) by (apply bpow_Z; lia).
  destruct (of_Z_exact (2 ^ n)) as [F V].
  { assert (n = 1 \/ n = 2)%Z as [-> | ->] by lia; cbn; lia. }
  destruct (fmul_val (of_Z (2 ^ n)) a F FA) as [G W].
  - rewrite V, <- BN, Rabs_mult, (Rabs_pos_eq (bpow radix2 n)) by apply bpow_ge_0.
    apply Rle_trans with (bpow radix2 n * bpow radix2 124); [apply Rmult_le_compat_l; [apply bpow_ge_0 | exact B] |].
    rewrite <- bpow_plus; apply bpow_le; lia.
  - split; [exact G |]; rewrite W, V, <- BN; apply rnd_fits.
    rewrite Rmult_comm; apply Mult_error.mult_bpow_pos_exact_FLT; [apply fits_val | lia].
Qed.

Theorem float_sphere_far_refuted : forall x distance : f32, fin x -> bpow radix2 14 <= val x <= bpow radix2 60 ->
  number distance -> ev x <= ev distance ->
  exists n, f_sphere (axis_ray x) distance = Some (x, n) /\
    (forall k, val (fcoord k n) = 0) /\ (forall k, is_nan (fcoord k (f_normalize n)) = true).
Proof.
  intros x D FX (L & U) ND LD; destruct fzero_val as [FZ VZ], fone_val as [F1 V1].
  assert (XP : 0 < val x) by (pose proof (bpow_gt_0 radix2 14); lra).
  assert (X2 : bpow radix2 28 <= val x * val x <= bpow radix2 120).
  { split.
    - replace (bpow radix2 28) with (bpow radix2 14 * bpow radix2 14) by (rewrite <- bpow_plus; reflexivity).
      apply Rmult_le_compat; try exact L; apply bpow_ge_0.
    - replace (bpow radix2 120) with (bpow radix2 60 * bpow radix2 60) by (rewrite <- bpow_plus; reflexivity).
      apply Rmult_le_compat; try exact U; lra. }
  assert (LE : forall m n, (m <= n)%Z -> bpow radix2 m <= bpow radix2 n) by (intros; apply bpow_le; assumption).
  pose proof (LE 60%Z 124%Z ltac:(lia)) as L60; pose proof (LE 120%Z 124%Z ltac:(lia)) as L120; pose proof (LE 124%Z 127%Z ltac:(lia)) as L124.
  pose proof (LE 120%Z 126%Z ltac:(lia)) as L126; pose proof (LE 126%Z 127%Z ltac:(lia)) as L127.
  pose proof (LE 124%Z 126%Z ltac:(lia)) as L122.
  destruct (neg_val x FX) as [FN VN].
  (* the squares *)
  set (s := rnd (val x * val x)).
  assert (FS : fits s) by apply fits_rnd.
  assert (S2 : bpow radix2 28 <= s <= bpow radix2 120) by (apply rnd_between; try (apply fits_bpow; lia); exact X2).
  assert (S1 : rnd (s - 1) = s).
  { apply absorb_below with 27%Z; try lia; try lra; [exact FS | pose proof (bpow_lt radix2 27 28 ltac:(lia)); lra |].
    cbn; lra. }
  unfold f_sphere, axis_ray; cbn [fr_d fr_o].
  (* a *)
  destruct (dot_axis fone fone F1 F1) as [FA VA].
  { rewrite V1, Rmult_1_l, Rabs_R1; apply (LE 0%Z 126%Z); lia. }
  rewrite V1, Rmult_1_l, rnd_fits in VA by apply fits_1.
  remember (fv_dot (mk_fvec fzero fzero fone) (mk_fvec fzero fzero fone)) as a eqn:EA; clear EA.
  (* b *)
  destruct (dot_axis fone (fneg x) F1 FN) as [FB0 VB0].
  { rewrite V1, VN, Rmult_1_l, Rabs_Ropp, Rabs_pos_eq by lra; lra. }
  rewrite V1, VN, Rmult_1_l, rnd_fits in VB0 by apply fits_opp, fits_val.
  remember (fv_dot (mk_fvec fzero fzero fone) (mk_fvec fzero fzero (fneg x))) as b0 eqn:EA; clear EA.
  destruct (scale2 b0 FB0 1 ltac:(lia)) as [FB VB]; [rewrite VB0, Rabs_Ropp, Rabs_pos_eq by lra; lra |].
  rewrite VB0 in VB; change (2 ^ 1)%Z with 2%Z in FB, VB; change (bpow radix2 1) with 2 in VB.
  remember (fmul (of_Z 2) b0) as b eqn:EA; clear EA.
  (* c *)
  destruct (dot_axis (fneg x) (fneg x) FN FN) as [FC0 VC0].
  { rewrite VN; replace (- val x * - val x) with (val x * val x) by ring; rewrite Rabs_pos_eq by (pose proof (bpow_gt_0 radix2 28); lra); lra. }
  rewrite VN in VC0; replace (- val x * - val x) with (val x * val x) in VC0 by ring; fold s in VC0.
  remember (fv_dot (mk_fvec fzero fzero (fneg x)) (mk_fvec fzero fzero (fneg x))) as c0 eqn:EA; clear EA.
  pose proof (bpow_gt_0 radix2 28) as P28.
  assert (ONE : 1 <= bpow radix2 28) by (apply (LE 0%Z 28%Z); lia).
  destruct (fsub_val c0 fone FC0 F1) as [FC VC]; [rewrite VC0, V1, Rabs_pos_eq by lra; lra |].
  rewrite VC0, V1, S1 in VC; remember (fsub c0 fone) as c eqn:EA; clear EA.
  (* delta *)
  unfold f_equation2; cbv zeta.
  destruct (fmul_val b b FB FB) as [FBB VBB].
  { rewrite VB; replace (2 * - val x * (2 * - val x)) with (4 * (val x * val x)) by ring; rewrite Rabs_pos_eq by lra.
    replace (bpow radix2 127) with (128 * bpow radix2 120) by (change 128 with (bpow radix2 7); rewrite <- bpow_plus; reflexivity); lra. }
  assert (VBB' : val (fmul b b) = s * 4).
  { rewrite VBB, VB; replace (2 * - val x * (2 * - val x)) with (val x * val x * bpow radix2 2) by (cbn; ring).
    rewrite rnd_scale; [reflexivity | lia |]; pose proof (LE (-100)%Z 28%Z ltac:(lia)); lra. }
  destruct (scale2 a FA 2 ltac:(lia)) as [F4 V4]; [rewrite VA, Rabs_R1; apply (LE 0%Z 124%Z); lia |].
  change (2 ^ 2)%Z with 4%Z in F4, V4; rewrite VA in V4; change (bpow radix2 2) with 4 in V4.
  assert (E120 : bpow radix2 127 = 128 * bpow radix2 120) by (change 128 with (bpow radix2 7); rewrite <- bpow_plus; reflexivity).
  destruct (fmul_val _ c F4 FC) as [F4C V4C]; [rewrite V4, VC, Rabs_pos_eq by lra; lra |].
  assert (V4C' : val (fmul (fmul (of_Z 4) a) c) = s * 4).
  { rewrite V4C, V4, VC; replace (4 * 1 * s) with (s * bpow radix2 2) by (cbn; ring).
    rewrite rnd_scale; [rewrite rnd_fits by exact FS; reflexivity | lia |]; pose proof (LE (-100)%Z 28%Z ltac:(lia)); lra. }
  destruct (fsub_val _ _ FBB F4C) as [FD VD]; [rewrite VBB', V4C', Rminus_diag_eq by reflexivity; rewrite Rabs_R0; apply bpow_ge_0 |].
  rewrite VBB', V4C', Rminus_diag_eq, rnd_0 in VD by reflexivity.
  remember (fsub (fmul b b) (fmul (fmul (of_Z 4) a) c)) as delta eqn:EA; clear EA.
  assert (FT : fin f_tangent) by (vm_compute; reflexivity).
  assert (VT : 0 < val f_tangent < 1).
  { rewrite (lit_val _ 13743895 (-37)) by (vm_compute; reflexivity); cbn; lra. }
  destruct (zero_add delta f_tangent FD FT VD) as [FDT VDT].
  { rewrite Rabs_pos_eq by lra; pose proof (LE 0%Z 127%Z ltac:(lia)) as Q; change (bpow radix2 0) with 1 in Q; lra. }
  assert (C1 : fle delta fzero = true) by (apply fle_val; try assumption; lra).
  assert (C2 : fle fzero (fadd delta f_tangent) = true) by (apply fle_val; try assumption; lra).
  rewrite C1, C2; cbn [andb].
  (* the solution *)
  destruct (neg_val b FB) as [FNB VNB]; rewrite VB in VNB.
  destruct (of_Z_exact 2 ltac:(lia)) as [FT2 VT2].
  destruct (fmul_val a (of_Z 2) FA FT2) as [FA2 VA2].
  { rewrite VA, VT2, Rmult_1_l, Rabs_pos_eq by lra; apply (LE 1%Z 127%Z); lia. }
  rewrite VA, VT2, Rmult_1_l, rnd_fits in VA2 by (apply (fits_Z 2); lia).
  assert (Q : val (fneg b) / val (fmul a (of_Z 2)) = val x) by (rewrite VNB, VA2; field).
  destruct (fdiv_val (fneg b) (fmul a (of_Z 2)) FNB) as [FSOL VSOL]; [lra | rewrite Q, Rabs_pos_eq by lra; lra |].
  rewrite Q, rnd_fits in VSOL by apply fits_val.
  rewrite (same_float _ x FSOL FX VSOL XP).
  assert (I : flt x x = false) by (apply flt_false_ev; try apply fin_number; try assumption; lra).
  rewrite I.
  assert (I2 : flt D x = false) by (apply flt_false_ev; [exact ND | apply fin_number, FX | exact LD]).
  rewrite I2.
  assert (FSE : fin f_self) by (vm_compute; reflexivity).
  assert (VS : 0 < val f_self < 1).
  { rewrite (lit_val _ 10737418 (-30)) by (vm_compute; reflexivity); cbn; lra. }
  assert (ONE' : 1 <= bpow radix2 14) by (apply (LE 0%Z 14%Z); lia).
  assert (I3 : flt x f_self = false).
  { apply flt_false_ev; try apply fin_number; try assumption; rewrite !ev_fin by assumption; lra. }
  rewrite I3; eexists; split; [reflexivity |].
  (* the normal *)
  unfold f_apply; cbn [fr_o fr_d fcoord fx fy fz].
  destruct (fzero_mul x FX) as [Z1 Z2]; destruct (add_zeros _ _ FZ Z1 VZ Z2) as [Z3 Z4].
  destruct (one_mul x FX) as [O1 O2]; [rewrite Rabs_pos_eq by lra; lra |].
  destruct (fadd_val (fneg x) (fmul fone x) FN O1) as [G1 G2].
  { rewrite VN, O2, Rplus_opp_l, Rabs_R0; apply bpow_ge_0. }
  rewrite VN, O2, Rplus_opp_l, rnd_0 in G2.
  assert (NZ : forall n : fvec, vfin n -> (forall k, val (fcoord k n) = 0) -> forall k, is_nan (fcoord k (f_normalize n)) = true).
  { clear; intros n (A & B & C) V k; unfold f_normalize, f_len2.
    destruct (zero_form (fx n) A (V 0%nat)) as [s0 E0], (zero_form (fy n) B (V 1%nat)) as [s1 E1], (zero_form (fz n) C (V 2%nat)) as [s2 E2].
    rewrite E0, E1, E2; destruct k as [|[|k]], s0, s1, s2; vm_compute; reflexivity. }
  split; [intros [|[|k]]; cbn [fcoord fx fy fz]; assumption |].
  apply NZ; [repeat split; assumption |]; intros [|[|k]]; cbn [fcoord fx fy fz]; assumption.
Qed.
Print Assumptions float_sphere_far_refuted.

(* a camera at 20000 units in front of the unit sphere *)
Example float_sphere_far_case :
  match f_sphere (axis_ray (of_Z 20000)) f_max with
  | Some (d, n) => Beqb d (of_Z 20000) && is_nan (fx (f_normalize n))
  | None => false
  end = true.
Proof. vm_compute; reflexivity. Qed.

(* ----- the tolerance of the occlusion test ----- *)

Lemma occl_val : fin f_occl /\ 999 / 1000000 < val f_occl < 1001 / 1000000.
Proof.
  split; [vm_compute; reflexivity |]; rewrite (lit_val _ 8589935 (-33)) by (vm_compute; reflexivity); cbn; lra.
Qed.

Lemma hides_val : forall x y, fin x -> fin y -> 0 <= val x <= bpow radix2 126 ->
  (f_hides x y = true <-> rnd (val x + val f_occl) < val y).
Proof.
  intros x y FX FY X; destruct occl_val as [FO VO]; unfold f_hides.
  destruct (fadd_val x f_occl FX FO) as [F V].
  - rewrite Rabs_pos_eq by lra; assert (1 <= bpow radix2 126) by (apply (bpow_le radix2 0 126); lia).
    replace (bpow radix2 127) with (2 * bpow radix2 126) by (change 2 with (bpow radix2 1); rewrite <- bpow_plus; reflexivity); lra.
  - rewrite <- V; apply flt_val; assumption.
Qed.

(* nothing at the distance or beyond it hides; what is nearer by more than the tolerance and the
   rounding does; and up to 8192 the tolerance of a thousandth survives *)
Theorem float_occlusion : forall x y, fin x -> fin y -> 0 <= val x <= bpow radix2 126 ->
  (val y <= val x -> f_hides x y = false) /\
  ((val x + 11 / 10000) * (1 + / 8388608) <= val y -> f_hides x y = true) /\
  (val x <= 8192 -> val y <= val x + / 2000 -> f_hides x y = false).
Proof.
  intros x y FX FY X; destruct occl_val as [FO VO]; pose proof (hides_val x y FX FY X) as H.
  assert (N : val y <= rnd (val x + val f_occl) -> f_hides x y = false).
  { intro L; destruct (f_hides x y); [| reflexivity]; pose proof (proj1 H eq_refl); lra. }
  pose proof (err (val x + val f_occl)) as E; rewrite (Rabs_pos_eq (val x + val f_occl)) in E by lra.
  apply abs_bounds in E; unfold u24 in E; split; [| split].
  - intro L; apply N; apply Rle_trans with (rnd (val x)); [rewrite rnd_fits by apply fits_val; exact L | apply rnd_le; lra].
  - intro L; apply H; lra.
  - intros B L; apply N; lra.
Qed.
Print Assumptions float_occlusion.

(* beyond 32768 the tolerance is lost in the rounding: of two different distances the smaller
   always hides, be they next to each other *)
Theorem float_occlusion_far_refuted : forall x y, fin x -> fin y -> 32768 <= val x <= bpow radix2 126 ->
  f_hides x y = true <-> val x < val y.
Proof.
  intros x y FX FY X; destruct occl_val as [FO VO].
  rewrite (hides_val x y FX FY) by lra.
  rewrite (absorb_above (val x) (val f_occl) 15); [reflexivity | apply fits_val | lia | change (bpow radix2 15) with 32768; lra | lra |].
  apply Rlt_le_trans with (/ 512); [lra |]; change (15 - 24)%Z with (-9)%Z; cbn [bpow]; change (Z.pow_pos radix2 9) with 512%Z; lra.
Qed.
Print Assumptions float_occlusion_far_refuted.

(* the next number after 50000 *)
Example float_occlusion_far_case : f_hides (of_Z 50000) (fnum 12800001 (-8)) = true /\ f_hides (of_Z 5000) (fnum 10240001 (-11)) = false.
Proof. split; vm_compute; reflexivity. Qed.
