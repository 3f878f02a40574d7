(* GGX in single precision: masking is a fraction and monotone, the distribution is defined. *)
From Coq Require Import ZArith Reals List Lra Lia Bool.
From Flocq Require Import Core.Core IEEE754.BinarySingleNaN.
From Verif Require Import Common FltModel FltFacts FltProps FExtFacts FRayModel FSphereProps FBoxMarginProps FMatBoundProps FFilmProps FFresProps FFresNearProps FTexModel FTexProps FltVecProps FSpecProps FMisModel FMisProps FGgxModel.
Local Open Scope R_scope.

Lemma clamp_unit : forall r, fin r -> fin (f_clamp r fzero fone) /\ val (f_clamp r fzero fone) = Rmax 0 (Rmin 1 (val r)).
Proof.
  intros r F. destruct fzero_val as (F0 & V0). destruct fone_val as (F1 & V1). unfold f_clamp, fgt. fold (flt fone r). destruct (flt r fzero) eqn:E0.
  - apply (flt_val _ _ F F0) in E0. rewrite V0 in E0. split; [exact F0|]. rewrite V0, Rmax_left; [reflexivity|]. eapply Rle_trans; [apply Rmin_r|lra].
  - assert (P : 0 <= val r). { apply Rnot_lt_le. intro L. rewrite <- V0 in L. apply (flt_val _ _ F F0) in L. congruence. }
    destruct (flt fone r) eqn:E1.
    + apply (flt_val _ _ F1 F) in E1. rewrite V1 in E1. split; [exact F1|]. rewrite V1, Rmin_left, Rmax_right; lra.
    + assert (Q : val r <= 1). { apply Rnot_lt_le. intro L. rewrite <- V1 in L. apply (flt_val _ _ F1 F) in L. congruence. }
      split; [exact F|]. rewrite Rmin_right, Rmax_right; lra.
Qed.

Lemma rnd_unit : forall x, 0 <= x <= 1 -> 0 <= rnd x <= 1.
Proof. intros x X. apply rnd_between; [apply fits_0|change 1 with (bpow radix2 0); apply fits_bpow; lia|exact X]. Qed.

Lemma unit_square : forall x, 0 <= x <= 1 -> 0 <= x * x <= 1.
Proof. intros x X. split; [apply Rmult_le_pos; lra|]. apply Rle_trans with (1 * 1); [apply Rmult_le_compat; lra|lra]. Qed.

Lemma ggx_val : forall r, fin r -> let c := Rmax 0 (Rmin 1 (val r)) in fin (f_ggx r) /\ val (f_ggx r) = rnd (c * c) /\ 0 <= c <= 1 /\ 0 <= val (f_ggx r) <= 1.
Proof.
  intros r F. cbv zeta. destruct (clamp_unit r F) as (FC & VC). assert (C : 0 <= Rmax 0 (Rmin 1 (val r)) <= 1).
  { split; [apply Rmax_l|]. apply Rmax_lub; [lra|apply Rmin_l]. }
  unfold f_ggx. cbv zeta. set (k := f_clamp r fzero fone) in *. clearbody k. rewrite <- VC in *. pose proof (unit_square _ C) as S.
  destruct (fmul_val k k FC FC) as (FM & VM); [apply one_127; rewrite Rabs_pos_eq; lra|]. split; [exact FM|]. split; [exact VM|]. split; [exact C|]. rewrite VM. apply rnd_unit; exact S.
Qed.

Lemma eqb_val : forall x y, fin x -> fin y -> (Beqb x y = true <-> val x = val y).
Proof.
  intros x y FX FY. unfold Beqb, SpecFloat.SFeqb. pose proof (Bcompare_correct 24 128 x y FX FY) as C. unfold Bcompare in C. rewrite C. unfold val.
  destruct (Rcompare_spec (B2R x) (B2R y)) as [L|E|L]; split; intro H; try discriminate; try reflexivity; try lra.
Qed.

(* what is computed, on the reals *)
Definition g1_real (a2 z : R) : R :=
  let c := rnd (z * z) in
  rnd (2 / rnd (1 + rnd (sqrt (rnd (1 + rnd (rnd (a2 * Rmax 0 (rnd (1 - rnd (c * c)))) / c)))))).

Lemma g1_val : forall a2 z, fin a2 -> fin z -> 0 <= val a2 <= 1 -> bpow radix2 (-60) <= Rabs (val z) <= 2 ->
  fin (f_ggx_g1 a2 z) /\ val (f_ggx_g1 a2 z) = g1_real (val a2) (val z) /\ 0 < g1_real (val a2) (val z) <= 1.
Proof.
  intros a2 z FA FZ A Z. pose proof (bpow_gt_0 radix2 (-60)) as P60. pose proof (bpow_gt_0 radix2 (-120)) as P120. destruct fzero_val as (F0 & V0). destruct fone_val as (F1 & V1).
  assert (f1 : fits 1) by (change 1 with (bpow radix2 0); apply fits_bpow; lia).
  assert (ZZ : bpow radix2 (-120) <= val z * val z <= 4).
  { replace (val z * val z) with (Rabs (val z) * Rabs (val z)) by (rewrite <- Rabs_mult; apply Rabs_pos_eq, Rle_0_sqr). split.
    - change (-120)%Z with (-60 + -60)%Z. rewrite bpow_plus. apply Rmult_le_compat; lra.
    - replace 4 with (2 * 2) by ring. apply Rmult_le_compat; lra. }
  destruct (fmul_val z z FZ FZ) as (FC & VC); [apply (small_127 _ 2); [lia|rewrite Rabs_pos_eq by lra; cbn; lra]|].
  unfold f_ggx_g1, g1_real. cbv zeta. set (c := fmul z z) in *. clearbody c. rewrite <- VC.
  assert (C : bpow radix2 (-120) <= val c <= 4). { rewrite VC. apply rnd_between; [apply fits_bpow; lia|change 4 with (bpow radix2 2); apply fits_bpow; lia|exact ZZ]. } clear VC ZZ.
  destruct (Beqb c fzero) eqn:E; [apply (eqb_val _ _ FC F0) in E; rewrite V0 in E; lra|]. clear E.
  assert (CC : 0 <= val c * val c <= 16) by (split; [apply Rmult_le_pos; lra|replace 16 with (4 * 4) by ring; apply Rmult_le_compat; lra]).
  destruct (fmul_val c c FC FC) as (FD & VD); [apply (small_127 _ 4); [lia|rewrite Rabs_pos_eq by lra; cbn; lra]|]. rewrite <- VD.
  assert (D : 0 <= val (fmul c c) <= 16) by (rewrite VD; apply rnd_between; [apply fits_0|change 16 with (bpow radix2 4); apply fits_bpow; lia|exact CC]). set (d := fmul c c) in *. clearbody d.
  destruct (fsub_val fone d F1 FD) as (FS & VS); [rewrite V1; apply (small_127 _ 4); [lia|apply Rabs_le; cbn; lra]|]. rewrite V1 in VS. rewrite <- VS.
  assert (S1 : val (fsub fone d) <= 1) by (rewrite VS; apply Rle_trans with (rnd 1); [apply rnd_le; lra|rewrite rnd_one; lra]).
  destruct (max_zero _ FS) as (FM & VM). rewrite <- VM. assert (M : 0 <= val (fmax fzero (fsub fone d)) <= 1) by (rewrite VM; split; [apply Rmax_l|apply Rmax_lub; lra]).
  set (s := fmax fzero (fsub fone d)) in *. clearbody s. clear VM FS VS S1 FD VD D d CC.
  assert (AS : 0 <= val a2 * val s <= 1) by (split; [apply Rmult_le_pos; lra|apply Rle_trans with (1 * 1); [apply Rmult_le_compat; lra|lra]]).
  destruct (fmul_val a2 s FA FM) as (FN & VN); [apply one_127; rewrite Rabs_pos_eq; lra|]. rewrite <- VN. assert (N : 0 <= val (fmul a2 s) <= 1) by (rewrite VN; apply rnd_unit; exact AS).
  set (n := fmul a2 s) in *. clearbody n. clear VN AS.
  assert (IC : 0 < / val c <= bpow radix2 120) by (split; [apply Rinv_0_lt_compat; lra|]; change 120%Z with (- -120)%Z; rewrite bpow_opp; apply Rinv_le_contravar; lra).
  assert (Q : 0 <= val n / val c <= bpow radix2 120) by (unfold Rdiv; split; [apply Rmult_le_pos; lra|rewrite <- (Rmult_1_l (bpow radix2 120)); apply Rmult_le_compat; lra]).
  destruct (fdiv_val n c FN) as (FQ & VQ); [lra|apply (small_127 _ 120); [lia|rewrite Rabs_pos_eq; lra]|]. rewrite <- VQ.
  assert (BQ : 0 <= val (fdiv n c) <= bpow radix2 120) by (rewrite VQ; apply rnd_between; [apply fits_0|apply fits_bpow; lia|exact Q]). set (q := fdiv n c) in *. clearbody q. clear VQ Q IC.
  assert (B121 : 1 + bpow radix2 120 <= bpow radix2 121) by (cbn; lra).
  destruct (fadd_val fone q F1 FQ) as (FT & VT); [rewrite V1; apply (small_127 _ 121); [lia|rewrite Rabs_pos_eq; lra]|]. rewrite V1 in VT. rewrite <- VT.
  assert (T : 1 <= val (fadd fone q) <= bpow radix2 121) by (rewrite VT; apply rnd_between; [exact f1|apply fits_bpow; lia|lra]). set (t := fadd fone q) in *. clearbody t. clear VT.
  destruct (fsqrt_val t FT) as (FR & VR); [lra|]. rewrite <- VR.
  assert (R1 : 1 <= sqrt (val t) <= bpow radix2 61).
  { split; [rewrite <- sqrt_1; apply sqrt_le_1_alt; lra|]. rewrite <- (sqrt_square (bpow radix2 61)) by apply bpow_ge_0. apply sqrt_le_1_alt. rewrite <- bpow_plus. apply Rle_trans with (bpow radix2 121); [lra|apply bpow_le; lia]. }
  assert (RR : 1 <= val (fsqrt t) <= bpow radix2 61) by (rewrite VR; apply rnd_between; [exact f1|apply fits_bpow; lia|exact R1]). set (r := fsqrt t) in *. clearbody r. clear VR R1.
  assert (B62 : 1 + bpow radix2 61 <= bpow radix2 62) by (cbn; lra).
  destruct (fadd_val fone r F1 FR) as (FU & VU); [rewrite V1; apply (small_127 _ 62); [lia|rewrite Rabs_pos_eq; lra]|]. rewrite V1 in VU. rewrite <- VU.
  assert (U : 2 <= val (fadd fone r) <= bpow radix2 62) by (rewrite VU; apply rnd_between; [change 2 with (bpow radix2 1); apply fits_bpow; lia|apply fits_bpow; lia|lra]). set (u := fadd fone r) in *. clearbody u. clear VU.
  destruct (of_Z_exact 2) as (F2 & V2); [cbn; lia|].
  assert (W : bpow radix2 (-61) <= 2 / val u <= 1).
  { assert (I : / bpow radix2 62 <= / val u <= / 2) by (split; apply Rinv_le_contravar; lra). unfold Rdiv. split; [|lra]. replace (bpow radix2 (-61)) with (2 * / bpow radix2 62) by (cbn; lra). lra. }
  pose proof (bpow_gt_0 radix2 (-61)) as P61.
  destruct (fdiv_val (of_Z 2) u F2) as (FW & VW); [lra|rewrite V2; apply one_127; rewrite Rabs_pos_eq; lra|]. rewrite V2 in VW.
  split; [exact FW|]. split; [exact VW|]. assert (X : bpow radix2 (-61) <= rnd (2 / val u) <= 1) by (apply rnd_between; [apply fits_bpow; lia|exact f1|exact W]). lra.
Qed.

Lemma g1_mono : forall a b y z, 0 <= b <= a -> a <= 1 -> bpow radix2 (-60) <= Rabs y <= Rabs z -> g1_real a y <= g1_real b z.
Proof.
  intros a b y z B A Z. pose proof (bpow_gt_0 radix2 (-60)) as P60. pose proof (bpow_gt_0 radix2 (-120)) as P120. unfold g1_real. cbv zeta.
  assert (SQ : forall x, x * x = Rabs x * Rabs x) by (intro x; rewrite <- Rabs_mult; symmetry; apply Rabs_pos_eq, Rle_0_sqr).
  assert (CY : bpow radix2 (-120) <= rnd (y * y)).
  { rewrite <- (rnd_fits (bpow radix2 (-120))) by (apply fits_bpow; lia). apply rnd_le. rewrite SQ. change (-120)%Z with (-60 + -60)%Z. rewrite bpow_plus. apply Rmult_le_compat; lra. }
  assert (CZ : rnd (y * y) <= rnd (z * z)) by (apply rnd_le; rewrite (SQ y), (SQ z); apply Rmult_le_compat; lra).
  set (c := rnd (y * y)) in *. set (d := rnd (z * z)) in *. clearbody c d.
  assert (S : 0 <= Rmax 0 (rnd (1 - rnd (d * d))) <= Rmax 0 (rnd (1 - rnd (c * c)))).
  { split; [apply Rmax_l|]. apply Rle_max_compat_l, rnd_le. assert (rnd (c * c) <= rnd (d * d)) by (apply rnd_le, Rmult_le_compat; lra). lra. }
  set (s := Rmax 0 (rnd (1 - rnd (c * c)))) in *. set (t := Rmax 0 (rnd (1 - rnd (d * d)))) in *. clearbody s t.
  assert (N : 0 <= rnd (b * t) <= rnd (a * s)) by (split; [apply rnd_nonneg, Rmult_le_pos; lra|apply rnd_le, Rmult_le_compat; lra]).
  set (n := rnd (b * t)) in *. set (m := rnd (a * s)) in *. clearbody n m.
  assert (Q : 0 <= rnd (n / d) <= rnd (m / c)).
  { assert (0 < / d) by (apply Rinv_0_lt_compat; lra). assert (/ d <= / c) by (apply Rinv_le_contravar; lra). unfold Rdiv. split; [apply rnd_nonneg, Rmult_le_pos; lra|apply rnd_le, Rmult_le_compat; lra]. }
  set (q := rnd (n / d)) in *. set (p := rnd (m / c)) in *. clearbody p q.
  assert (R1 : 0 <= rnd (sqrt (rnd (1 + q))) <= rnd (sqrt (rnd (1 + p)))).
  { split; [apply rnd_nonneg, sqrt_pos|]. apply rnd_le, sqrt_le_1_alt, rnd_le. lra. }
  set (r := rnd (sqrt (rnd (1 + q)))) in *. set (w := rnd (sqrt (rnd (1 + p)))) in *. clearbody r w.
  assert (U : 1 <= rnd (1 + r) <= rnd (1 + w)).
  { split; [rewrite <- rnd_one at 1; apply rnd_le; lra|apply rnd_le; lra]. }
  apply rnd_le. unfold Rdiv. apply Rmult_le_compat_l; [lra|]. apply Rinv_le_contravar; lra.
Qed.

(* For every finite roughness and all directions that are not within 2^-60 of the surface the share
   that is visible is a number in (0, 1]; a direction nearer to the normal sees at least as much,
   a rougher surface hides at least as much, and the product for two directions is a fraction that
   does not depend on their order. For directions in the surface it is 0. *)
Theorem float_ggx_masking : forall r z, fin r -> fin z ->
  (val z = 0 -> fin (f_ggx_g1 (f_ggx r) z) /\ val (f_ggx_g1 (f_ggx r) z) = 0) /\
  (bpow radix2 (-60) <= Rabs (val z) <= 2 ->
   fin (f_ggx_g1 (f_ggx r) z) /\ 0 < val (f_ggx_g1 (f_ggx r) z) <= 1 /\
   (forall y, fin y -> bpow radix2 (-60) <= Rabs (val y) <= Rabs (val z) -> val (f_ggx_g1 (f_ggx r) y) <= val (f_ggx_g1 (f_ggx r) z)) /\
   (forall s, fin s -> val r <= val s -> val (f_ggx_g1 (f_ggx s) z) <= val (f_ggx_g1 (f_ggx r) z)) /\
   (forall y, fin y -> bpow radix2 (-60) <= Rabs (val y) <= 2 ->
    fin (f_ggx_g (f_ggx r) y z) /\ 0 <= val (f_ggx_g (f_ggx r) y z) <= 1 /\ val (f_ggx_g (f_ggx r) z y) = val (f_ggx_g (f_ggx r) y z))).
Proof.
  intros r z FR FZ. destruct (ggx_val r FR) as (FA & VA & C & A). cbv zeta in VA, C. split.
  - intro Z. destruct fzero_val as (F0 & V0). unfold f_ggx_g1. cbv zeta. destruct (fmul_val z z FZ FZ) as (FC & VC); [rewrite Z, Rmult_0_l, Rabs_R0; apply bpow_ge_0|]. rewrite Z, Rmult_0_l, rnd_0 in VC.
    assert (E : Beqb (fmul z z) fzero = true) by (apply (eqb_val _ _ FC F0); rewrite V0; exact VC). rewrite E. split; assumption.
  - intro Z. destruct (g1_val _ z FA FZ A Z) as (FG & VG & G). split; [exact FG|]. rewrite VG. split; [exact G|]. split; [|split].
    + intros y FY Y. destruct (g1_val _ y FA FY A ltac:(lra)) as (_ & VY & _). rewrite VY. apply g1_mono; lra.
    + intros s FS RS. destruct (ggx_val s FS) as (FB & VB & CS & B). cbv zeta in VB, CS. destruct (g1_val _ z FB FZ B Z) as (_ & VS & _). rewrite VS. apply g1_mono; [|lra|lra].
      split; [lra|]. rewrite VA, VB. apply rnd_le, Rmult_le_compat; try lra; apply Rle_max_compat_l, Rle_min_compat_l; exact RS.
    + intros y FY Y. destruct (g1_val _ y FA FY A Y) as (FH & VH & H). unfold f_ggx_g.
      assert (P : 0 <= val (f_ggx_g1 (f_ggx r) y) * val (f_ggx_g1 (f_ggx r) z) <= 1) by (rewrite VG, VH; split; [apply Rmult_le_pos; lra|apply Rle_trans with (1 * 1); [apply Rmult_le_compat; lra|lra]]).
      destruct (fmul_val _ _ FH FG) as (FM & VM); [apply one_127; rewrite Rabs_pos_eq; lra|].
      destruct (fmul_val _ _ FG FH) as (_ & VN); [rewrite Rmult_comm; apply one_127; rewrite Rabs_pos_eq; lra|].
      split; [exact FM|]. rewrite VM. split; [apply rnd_unit; exact P|]. rewrite VN, Rmult_comm. reflexivity.
Qed.
Print Assumptions float_ggx_masking.

(* roughness 1/2, 60 degrees *)
Example ggx_masking_case : B2SF (f_ggx_g1 (f_ggx (fnum 1 (-1))) (fnum 1 (-1))) = SpecFloat.S754_finite false 14028118 (-24).
Proof. vm_compute. reflexivity. Qed.

(* at least L, or infinite *)
Definition up (x : f32) (l : R) : Prop := x = B754_infinity false \/ fin x /\ l <= val x.

Lemma rnd_half : forall x, bpow radix2 (-100) <= x -> x / 2 <= rnd x.
Proof.
  intros x X. pose proof (bpow_gt_0 radix2 (-100)) as P. destruct (rel_error x) as (e & E & V); [rewrite Rabs_pos_eq; lra|]. rewrite V. apply abs_both in E.
  unfold Rdiv. apply Rmult_le_compat_l; [lra|]. unfold u24 in E. lra.
Qed.

Lemma sign_pos : forall x : f32, fin x -> 0 < val x -> Bsign x = false.
Proof. intros x F V. pose proof (sign_val x) as S. destruct (Bsign x); [lra|reflexivity]. Qed.

Lemma up_mul : forall x y l m, up x l -> up y m -> 0 < l -> 0 < m -> bpow radix2 (-100) <= l * m -> up (fmul x y) (l * m / 2).
Proof.
  intros x y l m X Y L M B. destruct X as [X|(FX & X)].
  - subst x. left. destruct Y as [Y|(FY & Y)]; [subst y; reflexivity|]. pose proof (sign_pos y FY ltac:(lra)) as S.
    destruct y as [s|s| |s k e h]; try discriminate; [cbn in Y; lra|]. cbn in S. subst s. reflexivity.
  - pose proof (sign_pos x FX ltac:(lra)) as SX. destruct Y as [Y|(FY & Y)].
    + subst y. left. destruct x as [s|s| |s k e h]; try discriminate; [cbn in X; lra|]. cbn in SX. subst s. reflexivity.
    + pose proof (sign_pos y FY ltac:(lra)) as SY. assert (LM : l * m <= val x * val y) by (apply Rmult_le_compat; lra).
      pose proof (Bmult_correct 24 128 prec24 emax128 mode_NE x y) as C. cbn [round_mode] in C.
      change (round radix2 (SpecFloat.fexp 24 128) ZnearestE (B2R x * B2R y)) with (rnd (val x * val y)) in C.
      destruct (Rlt_bool_spec (Rabs (rnd (val x * val y))) (bpow radix2 128)) as [G|G].
      * destruct C as (C1 & C2 & _). right. split; [unfold fin, fmul; rewrite C2, FX, FY; reflexivity|]. unfold val, fmul. rewrite C1.
        apply Rle_trans with (val x * val y / 2); [lra|]. apply rnd_half. lra.
      * left. rewrite SX, SY in C. apply sf_infinity. exact C.
Qed.

Lemma up_add : forall a x l, fin a -> 0 <= val a -> up x l -> 0 < l -> up (fadd a x) l.
Proof.
  intros a x l FA A X L. destruct X as [X|(FX & X)].
  - subst x. left. destruct a as [[|]|s| |s k e h]; try discriminate; try reflexivity.
  - pose proof (Bplus_correct 24 128 prec24 emax128 mode_NE a x FA FX) as C. cbn [round_mode] in C.
    change (round radix2 (SpecFloat.fexp 24 128) ZnearestE (B2R a + B2R x)) with (rnd (val a + val x)) in C.
    destruct (Rlt_bool_spec (Rabs (rnd (val a + val x))) (bpow radix2 128)) as [G|G].
    + destruct C as (C1 & C2 & _). right. split; [exact C2|]. unfold val, fadd. rewrite C1. apply Rle_trans with (val x); [exact X|]. rewrite <- (rnd_fits (val x) (fits_val x)) at 1. apply rnd_le; lra.
    + left. destruct C as (C1 & C2). apply sf_infinity. change (@Bplus 24 128 prec24 emax128 mode_NE a x) with (fadd a x) in C1. rewrite C2, (sign_pos x FX) in C1 by lra. exact C1.
Qed.

Lemma up_div : forall s c, fin s -> fin c -> / 2 <= val s -> 0 < val c < / 2 -> up (fdiv s c) (/ (4 * val c)).
Proof.
  intros s c FS FC S C0. pose proof (Bdiv_correct 24 128 prec24 emax128 mode_NE s c ltac:(unfold val in *; lra)) as C. cbn [round_mode] in C.
  change (round radix2 (SpecFloat.fexp 24 128) ZnearestE (B2R s / B2R c)) with (rnd (val s / val c)) in C.
  destruct (Rlt_bool_spec (Rabs (rnd (val s / val c))) (bpow radix2 128)) as [G|G].
  - destruct C as (C1 & C2 & _). right. split; [unfold fin, fdiv; rewrite C2; exact FS|]. assert (V : val (fdiv s c) = rnd (val s / val c)) by exact C1. rewrite V.
    assert (I : 2 < / val c) by (replace 2 with (/ / 2) by field; apply Rinv_lt_contravar; [apply Rmult_lt_0_compat; lra|lra]).
    assert (Q : / 2 * / val c <= val s / val c) by (unfold Rdiv; apply Rmult_le_compat_r; lra).
    assert (O : bpow radix2 (-100) <= 1) by (change 1 with (bpow radix2 0); apply bpow_le; lia).
    apply Rle_trans with (val s / val c / 2); [|apply rnd_half; lra]. rewrite Rinv_mult. lra.
  - left. apply sf_infinity. change (@Bdiv 24 128 prec24 emax128 mode_NE s c) with (fdiv s c) in C. rewrite (sign_pos s FS), (sign_pos c FC) in C by lra. exact C.
Qed.

Lemma pi_val : fin f_pi /\ 2 <= val f_pi <= 4.
Proof. destruct (fnum_val 13176795 (-22)) as (F & V); [rewrite Rabs_pos_eq; cbn; lra|]. split; [exact F|]. unfold f_pi. rewrite V. apply rnd_between; [change 2 with (bpow radix2 1); apply fits_bpow; lia|change 4 with (bpow radix2 2); apply fits_bpow; lia|cbn; lra]. Qed.

(* For every roughness of at least 2^-10 and every direction that is in the surface or at least
   2^-74 away from it the density is a number from 0 to 2^42. *)
Theorem float_ggx_defined : forall r z, fin r -> fin z -> bpow radix2 (-10) <= val r ->
  val z = 0 \/ bpow radix2 (-74) <= Rabs (val z) <= 2 -> fin (f_ggx_d (f_ggx r) z) /\ 0 <= val (f_ggx_d (f_ggx r) z) <= bpow radix2 42.
Proof.
  intros r z FR FZ R1 ZZ. destruct (ggx_val r FR) as (FA & VA & C & A). cbv zeta in VA, C. pose proof (bpow_gt_0 radix2 (-10)) as P10. pose proof (bpow_gt_0 radix2 (-20)) as P20. assert (B42 : 128 <= bpow radix2 42) by (change 128 with (bpow radix2 7); apply bpow_le; lia).
  assert (A2 : bpow radix2 (-20) <= val (f_ggx r)).
  { rewrite VA, <- (rnd_fits (bpow radix2 (-20))) by (apply fits_bpow; lia). apply rnd_le. assert (O : bpow radix2 (-10) <= 1) by (change 1 with (bpow radix2 0); apply bpow_le; lia).
    assert (K : bpow radix2 (-10) <= Rmax 0 (Rmin 1 (val r))) by (apply Rle_trans with (2 := Rmax_r _ _); apply Rmin_glb; lra). change (-20)%Z with (-10 + -10)%Z. rewrite bpow_plus. apply Rmult_le_compat; lra. }
  set (a := f_ggx r) in *. clearbody a. clear VA C. destruct fzero_val as (F0 & V0). destruct fone_val as (F1 & V1). unfold f_ggx_d. cbv zeta.
  destruct (Beqb z fzero) eqn:E; [split; [exact F0|rewrite V0; lra]|].
  assert (NZ : val z <> 0). { intro Z. assert (T : Beqb z fzero = true) by (apply (eqb_val _ _ FZ F0); rewrite V0; exact Z). congruence. }
  destruct ZZ as [Z|Z]; [contradiction|]. clear E NZ. pose proof (bpow_gt_0 radix2 (-74)) as P74. pose proof (bpow_gt_0 radix2 (-148)) as P148.
  assert (ZQ : bpow radix2 (-148) <= val z * val z <= 4).
  { replace (val z * val z) with (Rabs (val z) * Rabs (val z)) by (rewrite <- Rabs_mult; apply Rabs_pos_eq, Rle_0_sqr). split.
    - change (-148)%Z with (-74 + -74)%Z. rewrite bpow_plus. apply Rmult_le_compat; lra.
    - replace 4 with (2 * 2) by ring. apply Rmult_le_compat; lra. }
  destruct (fmul_val z z FZ FZ) as (FC & VC); [apply (small_127 _ 2); [lia|rewrite Rabs_pos_eq by lra; cbn; lra]|].
  assert (C : bpow radix2 (-148) <= val (fmul z z) <= 4). { rewrite VC. apply rnd_between; [apply fits_bpow; lia|change 4 with (bpow radix2 2); apply fits_bpow; lia|exact ZQ]. }
  set (c := fmul z z) in *. clearbody c. clear VC ZQ Z.
  destruct (fsub_val fone c F1 FC) as (FS & VS); [rewrite V1; apply (small_127 _ 2); [lia|apply Rabs_le; cbn; lra]|]. rewrite V1 in VS.
  assert (S1 : val (fsub fone c) <= 1) by (rewrite VS; apply Rle_trans with (rnd 1); [apply rnd_le; lra|rewrite rnd_one; lra]).
  destruct (max_zero _ FS) as (FM & VM). assert (M : 0 <= val (fmax fzero (fsub fone c)) <= 1) by (rewrite VM; split; [apply Rmax_l|apply Rmax_lub; lra]).
  assert (MH : val c < / 2 -> / 2 <= val (fmax fzero (fsub fone c))).
  { intro L. rewrite VM. apply Rle_trans with (2 := Rmax_r _ _). rewrite VS, <- (rnd_fits (/ 2)) by (change (/ 2) with (bpow radix2 (-1)); apply fits_bpow; lia). apply rnd_le; lra. }
  set (s := fmax fzero (fsub fone c)) in *. clearbody s. clear VM FS VS S1. destruct pi_val as (FP & PI2). set (pi := f_pi) in *. clearbody pi.
  destruct (Rlt_or_le (val c) (/ 2)) as [L|L].
  - pose proof (up_div s c FM FC (MH L) ltac:(lra)) as U1. assert (IC : 0 < / (4 * val c)) by (apply Rinv_0_lt_compat; lra). assert (HC : / 2 < / (4 * val c)) by (apply Rinv_lt_contravar; [apply Rmult_lt_0_compat; lra|lra]).
    pose proof (up_add a _ _ FA ltac:(lra) U1 IC) as U2. set (q := fadd a (fdiv s c)) in *. clearbody q.
    assert (O : bpow radix2 (-100) <= / 256) by (replace (/ 256) with (bpow radix2 (-8)) by (cbn; lra); apply bpow_le; lia).
    assert (H2 : / 4 <= / (4 * val c) * / (4 * val c)) by (replace (/ 4) with (/ 2 * / 2) by field; apply Rmult_le_compat; lra).
    pose proof (up_mul q q _ _ U2 U2 IC IC ltac:(lra)) as U3. set (q2 := fmul q q) in *. clearbody q2.
    assert (UC : up c (val c)) by (right; split; [exact FC|lra]).
    assert (E3 : / (4 * val c) * / (4 * val c) / 2 * val c = / (4 * val c) / 8) by (field; lra).
    pose proof (up_mul q2 c _ _ U3 UC ltac:(lra) ltac:(lra) ltac:(lra)) as U4. rewrite E3 in U4. set (q3 := fmul q2 c) in *. clearbody q3.
    assert (E4 : / (4 * val c) / 8 / 2 * val c = / 64) by (field; lra).
    pose proof (up_mul q3 c _ _ U4 UC ltac:(lra) ltac:(lra) ltac:(lra)) as U5. rewrite E4 in U5. set (q4 := fmul q3 c) in *. clearbody q4.
    assert (UP : up pi 2) by (right; split; [exact FP|lra]).
    pose proof (up_mul q4 pi _ _ U5 UP ltac:(lra) ltac:(lra) ltac:(lra)) as U6. set (q5 := fmul q4 pi) in *. clearbody q5.
    destruct U6 as [U6|(F6 & U6)].
    + subst q5. destruct a as [t|t| |t m e h]; try discriminate; [split; [reflexivity|]; change (0 <= 0 <= bpow radix2 42); lra|]. split; [reflexivity|]. change (0 <= 0 <= bpow radix2 42). lra.
    + assert (Q : 0 <= val a / val q5 <= 128).
      { assert (0 < / val q5 <= 128) by (split; [apply Rinv_0_lt_compat; lra|replace 128 with (/ / 128) by field; apply Rinv_le_contravar; lra]). unfold Rdiv. split; [apply Rmult_le_pos; lra|]. rewrite <- (Rmult_1_l 128). apply Rmult_le_compat; lra. }
      destruct (fdiv_val a q5 FA) as (FD & VD); [lra|apply (small_127 _ 7); [lia|rewrite Rabs_pos_eq by lra; cbn; lra]|]. split; [exact FD|]. rewrite VD. split; [apply rnd_nonneg; lra|]. apply Rle_trans with (2 := B42). rewrite <- (rnd_fits 128) by (change 128 with (bpow radix2 7); apply fits_bpow; lia). apply rnd_le; lra.
  - assert (Q1 : 0 <= val s / val c <= 2).
    { assert (0 < / val c <= 2) by (split; [apply Rinv_0_lt_compat; lra|replace 2 with (/ / 2) by field; apply Rinv_le_contravar; lra]). unfold Rdiv. split; [apply Rmult_le_pos; lra|]. apply Rle_trans with (1 * 2); [apply Rmult_le_compat; lra|lra]. }
    assert (f2 : forall k, (-149 <= k)%Z -> fits (bpow radix2 k)) by (intros; apply fits_bpow; lia).
    destruct (fdiv_val s c FM) as (FT & VT); [lra|apply (small_127 _ 1); [lia|rewrite Rabs_pos_eq by lra; cbn; lra]|].
    assert (T : 0 <= val (fdiv s c) <= 2) by (rewrite VT; apply rnd_between; [apply fits_0|apply (f2 1%Z); lia|exact Q1]). set (t := fdiv s c) in *. clearbody t.
    destruct (fadd_val a t FA FT) as (FQ & VQ); [apply (small_127 _ 2); [lia|rewrite Rabs_pos_eq by lra; cbn; lra]|].
    assert (BQ : bpow radix2 (-20) <= val (fadd a t) <= 4) by (rewrite VQ; apply rnd_between; [apply f2; lia|apply (f2 2%Z); lia|lra]). set (q := fadd a t) in *. clearbody q.
    assert (S2 : bpow radix2 (-40) <= val q * val q <= 16) by (split; [change (-40)%Z with (-20 + -20)%Z; rewrite bpow_plus; apply Rmult_le_compat; lra|replace 16 with (4 * 4) by ring; apply Rmult_le_compat; lra]).
    pose proof (bpow_gt_0 radix2 (-40)) as P40.
    destruct (fmul_val q q FQ FQ) as (FK & VK); [apply (small_127 _ 4); [lia|rewrite Rabs_pos_eq by lra; cbn; lra]|].
    assert (BK : bpow radix2 (-40) <= val (fmul q q) <= 16) by (rewrite VK; apply rnd_between; [apply f2; lia|apply (f2 4%Z); lia|exact S2]). set (k := fmul q q) in *. clearbody k.
    assert (E41 : bpow radix2 (-41) = bpow radix2 (-40) * / 2) by (cbn; lra). assert (E42 : bpow radix2 (-42) = bpow radix2 (-41) * / 2) by (cbn; lra). pose proof (bpow_gt_0 radix2 (-42)) as P42.
    assert (S3 : bpow radix2 (-41) <= val k * val c <= 64) by (split; [rewrite E41; apply Rmult_le_compat; lra|replace 64 with (16 * 4) by ring; apply Rmult_le_compat; lra]).
    destruct (fmul_val k c FK FC) as (FL & VL); [apply (small_127 _ 6); [lia|rewrite Rabs_pos_eq by lra; cbn; lra]|].
    assert (BL : bpow radix2 (-41) <= val (fmul k c) <= 64) by (rewrite VL; apply rnd_between; [apply f2; lia|apply (f2 6%Z); lia|exact S3]). set (l := fmul k c) in *. clearbody l.
    assert (S4 : bpow radix2 (-42) <= val l * val c <= 256) by (split; [rewrite E42; apply Rmult_le_compat; lra|replace 256 with (64 * 4) by ring; apply Rmult_le_compat; lra]).
    destruct (fmul_val l c FL FC) as (FN & VN); [apply (small_127 _ 8); [lia|rewrite Rabs_pos_eq by lra; cbn; lra]|].
    assert (BN : bpow radix2 (-42) <= val (fmul l c) <= 256) by (rewrite VN; apply rnd_between; [apply f2; lia|apply (f2 8%Z); lia|exact S4]). set (n := fmul l c) in *. clearbody n.
    assert (S5 : bpow radix2 (-42) <= val n * val pi <= 1024) by (split; [rewrite <- (Rmult_1_r (bpow radix2 (-42))); apply Rmult_le_compat; lra|replace 1024 with (256 * 4) by ring; apply Rmult_le_compat; lra]).
    destruct (fmul_val n pi FN FP) as (FO & VO); [apply (small_127 _ 10); [lia|rewrite Rabs_pos_eq by lra; cbn; lra]|].
    assert (BO : bpow radix2 (-42) <= val (fmul n pi) <= 1024) by (rewrite VO; apply rnd_between; [apply f2; lia|apply (f2 10%Z); lia|exact S5]). set (o := fmul n pi) in *. clearbody o.
    assert (Q : 0 <= val a / val o <= bpow radix2 42).
    { assert (0 < / val o <= bpow radix2 42) by (split; [apply Rinv_0_lt_compat; lra|change 42%Z with (- -42)%Z; rewrite bpow_opp; apply Rinv_le_contravar; lra]). unfold Rdiv. split; [apply Rmult_le_pos; lra|]. rewrite <- (Rmult_1_l (bpow radix2 42)). apply Rmult_le_compat; lra. }
    destruct (fdiv_val a o FA) as (FD & VD); [lra|apply (small_127 _ 42); [lia|rewrite Rabs_pos_eq; lra]|]. split; [exact FD|]. rewrite VD. apply rnd_between; [apply fits_0|apply f2; lia|exact Q].
Qed.
Print Assumptions float_ggx_defined.

Lemma tiny_square : forall z, fin z -> Rabs (val z) < bpow radix2 (-75) -> fmul z z = B754_zero false.
Proof.
  intros z F Z. assert (S : 0 <= val z * val z < bpow radix2 (-150)).
  { replace (val z * val z) with (Rabs (val z) * Rabs (val z)) by (rewrite <- Rabs_mult; apply Rabs_pos_eq, Rle_0_sqr). pose proof (Rabs_pos (val z)).
    split; [apply Rmult_le_pos; lra|]. change (-150)%Z with (-75 + -75)%Z. rewrite bpow_plus. apply Rmult_le_0_lt_compat; lra. }
  destruct (fmul_val z z F F) as (G & V); [rewrite Rabs_pos_eq by lra; apply Rle_trans with (bpow radix2 (-150)); [lra|apply bpow_le; lia]|].
  pose proof (tiny_zero _ S) as T. rewrite T in V. pose proof (Bmult_correct 24 128 prec24 emax128 mode_NE z z) as C. cbn [round_mode] in C.
  change (round radix2 (SpecFloat.fexp 24 128) ZnearestE (B2R z * B2R z)) with (rnd (val z * val z)) in C. rewrite T, Rabs_R0, Rlt_bool_true in C by apply bpow_gt_0.
  destruct C as (_ & _ & C). change (@Bmult 24 128 prec24 emax128 mode_NE z z) with (fmul z z) in C. destruct (zero_form _ G V) as (s & E). rewrite E in C |- *. specialize (C eq_refl). rewrite xorb_nilpotent in C. cbn in C. rewrite C. reflexivity.
Qed.

(* Closer to the surface than 2^-75, but not in it, the density is no number, for every roughness;
   and along the normal it is none for roughness 0. *)
Theorem float_ggx_defined_refuted :
  (forall r z, fin r -> fin z -> 0 < Rabs (val z) < bpow radix2 (-75) -> f_ggx_d (f_ggx r) z = B754_nan) /\
  (forall r z, fin r -> fin z -> val r <= 0 -> Rabs (val z) = 1 -> f_ggx_d (f_ggx r) z = B754_nan).
Proof.
  destruct fzero_val as (F0 & V0). destruct fone_val as (F1 & V1). split.
  - intros r z FR FZ Z. destruct (ggx_val r FR) as (FA & _ & _ & A). set (a := f_ggx r) in *. clearbody a. unfold f_ggx_d. cbv zeta.
    destruct (Beqb z fzero) eqn:E; [apply (eqb_val _ _ FZ F0) in E; rewrite E, V0, Rabs_R0 in Z; lra|]. rewrite (tiny_square z FZ (proj2 Z)).
    assert (S : fdiv (fmax fzero (fsub fone (B754_zero false))) (B754_zero false) = B754_infinity false) by (apply sf_infinity; vm_compute; reflexivity). rewrite S.
    destruct a as [t|t| |t m e h]; try discriminate; reflexivity.
  - intros r z FR FZ R0 Z. destruct (ggx_val r FR) as (FA & VA & C & A). cbv zeta in VA, C.
    assert (K : Rmax 0 (Rmin 1 (val r)) = 0) by (apply Rle_antisym; [apply Rmax_lub; [lra|eapply Rle_trans; [apply Rmin_r|exact R0]]|apply Rmax_l]). rewrite K, Rmult_0_l, rnd_0 in VA.
    destruct (zero_form _ FA VA) as (t & HT). rewrite HT. clear VA C A K FA HT. unfold f_ggx_d. cbv zeta.
    destruct (Beqb z fzero) eqn:E; [apply (eqb_val _ _ FZ F0) in E; rewrite E, V0, Rabs_R0 in Z; lra|].
    assert (ZZ : val z * val z = 1) by (replace (val z * val z) with (Rabs (val z) * Rabs (val z)) by (rewrite <- Rabs_mult; apply Rabs_pos_eq, Rle_0_sqr); rewrite Z; ring).
    destruct (fmul_val z z FZ FZ) as (FC & VC); [rewrite ZZ; apply one_127; rewrite Rabs_pos_eq; lra|]. rewrite ZZ, rnd_one in VC.
    assert (EO : fmul z z = fone) by (apply same_float; [exact FC|exact F1|lra|lra]). rewrite EO.
    assert (S : fdiv (fmax fzero (fsub fone fone)) fone = B754_zero false) by (destruct t; vm_compute; reflexivity). rewrite S. destruct t; reflexivity.
Qed.
Print Assumptions float_ggx_defined_refuted.

(* roughness 1/2 along the normal: 4 / pi *)
Example ggx_d_case : B2SF (f_ggx_d (f_ggx (fnum 1 (-1))) fone) = SpecFloat.S754_finite false 10680707 (-23).
Proof. vm_compute. reflexivity. Qed.
