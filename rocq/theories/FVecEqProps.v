(* What == and != of vectors, points, normals and matrices mean in single precision. *)
From Coq Require Import ZArith Reals List Lra Lia Bool.
From Flocq Require Import Core.Core IEEE754.BinarySingleNaN.
From Verif Require Import Common FltModel FltFacts FltProps FExtFacts FRayModel FSphereProps FBoxMarginProps FMatBoundProps FFilmProps FFresProps FTexModel FTexProps FGgxProps FltVecProps FVecEqModel.
Import ListNotations.
Local Open Scope R_scope.

(* a difference is rounded, or too large *)
Lemma sub_cases : forall x y, fin x -> fin y -> let d := val x - val y in
  (Rabs (rnd d) < bpow radix2 128 /\ fin (fsub x y) /\ val (fsub x y) = rnd d) \/ (bpow radix2 128 <= Rabs (rnd d) /\ (exists s, fsub x y = B754_infinity s) /\ 1 < Rabs d).
Proof.
  intros x y FX FY d. pose proof (Bminus_correct 24 128 prec24 emax128 mode_NE x y FX FY) as C. cbn [round_mode] in C.
  change (round radix2 (SpecFloat.fexp 24 128) ZnearestE (B2R x - B2R y)) with (rnd d) in C.
  destruct (Rlt_bool_spec (Rabs (rnd d)) (bpow radix2 128)) as [G|G].
  - left. destruct C as (C1 & C2 & _). split; [exact G|]. split; assumption.
  - right. split; [exact G|]. split.
    + destruct C as (C & _). exists (Bsign x). fold (fsub x y) in C. destruct (fsub x y) as [s|s| |s m e h]; try discriminate C. cbn in C. injection C as ->. reflexivity.
    + apply Rnot_le_lt. intro L. pose proof (rnd_abs_le d 1 L) as K. rewrite rnd_one in K. assert (1 < bpow radix2 128) by (apply (bpow_lt radix2 0 128); lia). lra.
Qed.

Lemma rnd_opp : forall x, rnd (- x) = - rnd x.
Proof. intro x. apply round_NE_opp. Qed.

Lemma abs_zero : forall x : f32, fin x -> Bsign (fabs x) = false.
Proof. intros x F. destruct x; try discriminate F; reflexivity. Qed.

(* the size of a difference does not depend on the order, whatever the floats are *)
Lemma sub_flip : forall x y, fabs (fsub x y) = fabs (fsub y x).
Proof.
  intros x y. destruct (is_finite x) eqn:FX; [destruct (is_finite y) eqn:FY|].
  - assert (O : Rabs (rnd (val y - val x)) = Rabs (rnd (val x - val y))) by (replace (val y - val x) with (- (val x - val y)) by ring; rewrite rnd_opp, Rabs_Ropp; reflexivity).
    destruct (sub_cases x y FX FY) as [(B & F & V)|(B & (s & E) & _)]; destruct (sub_cases y x FY FX) as [(B' & F' & V')|(B' & (s' & E') & _)]; try (exfalso; lra).
    + destruct (abs_val _ F) as (G & W). destruct (abs_val _ F') as (G' & W'). apply B2R_Bsign_inj; [exact G|exact G'| |rewrite !abs_zero by assumption; reflexivity].
      fold (val (fabs (fsub x y))). fold (val (fabs (fsub y x))). rewrite W, W', V, V', O. reflexivity.
    + rewrite E, E'. reflexivity.
  - destruct x as [s|s| |s m e h], y as [t|t| |t n k g]; try discriminate; try reflexivity.
  - destruct x as [s|s| |s m e h], y as [t|t| |t n k g]; try discriminate; try reflexivity; try (destruct s, t; reflexivity).
Qed.

Lemma fits_b23 : fits (bpow radix2 (-23)).
Proof. apply fits_bpow. lia. Qed.

Lemma eps_val : fin f_flt_epsilon /\ val f_flt_epsilon = bpow radix2 (-23).
Proof. split; [reflexivity|]. unfold f_flt_epsilon. erewrite lit_val by (vm_compute; reflexivity). cbn. lra. Qed.

(* one comparison against a tolerance *)
Lemma close_cases : forall x y e, fin x -> fin y -> fin e -> 0 < val e <= 1 / 2 ->
  (Rabs (val x - val y) <= val e -> fle (fabs (fsub x y)) e = true) /\
  (fle (fabs (fsub x y)) e = true -> Rabs (rnd (val x - val y)) <= val e) /\
  fgt (fabs (fsub x y)) e = negb (fle (fabs (fsub x y)) e).
Proof.
  intros x y e FX FY FE E. set (d := val x - val y). destruct (sub_cases x y FX FY) as [(B & F & V)|(B & (s & Q) & L)]; fold d in B.
  - destruct (abs_val _ F) as (G & W). rewrite V in W. fold d in W. split; [|split].
    + intro H. apply fle_val; [exact G|exact FE|]. rewrite W. rewrite <- (rnd_fits (val e)) by apply fits_val. apply rnd_abs_le. exact H.
    + intro H. apply fle_val in H; [|exact G|exact FE]. rewrite W in H. exact H.
    + apply eq_true_iff_eq. rewrite negb_true_iff. unfold fgt. fold (flt e (fabs (fsub x y))). rewrite (flt_val _ _ FE G). pose proof (fle_val _ _ G FE) as T. destruct (fle (fabs (fsub x y)) e).
      * split; [intro H; destruct T as (T & _); specialize (T eq_refl); lra|discriminate].
      * split; [reflexivity|]. intros _. apply Rnot_le_lt. intro H. apply T in H. discriminate H.
  - rewrite Q. fold d in L. split; [intro H; lra|]. destruct e as [t|t| |t m k h]; try discriminate FE; cbn in E; try lra. pose proof (sign_pos _ FE (proj1 E)) as S. cbn in S. subst t. split; [discriminate|reflexivity].
Qed.

Lemma rnd_abs : forall x, Rabs (rnd x) = rnd (Rabs x).
Proof. intro x. unfold Rabs at 2. destruct (Rcase_abs x) as [N|N]; [rewrite rnd_opp; rewrite <- Rabs_Ropp; apply Rabs_pos_eq; rewrite <- rnd_opp; apply rnd_nonneg; lra|apply Rabs_pos_eq, rnd_nonneg; lra]. Qed.

Definition tol : R := / 8388608.

Lemma tol_back : forall d, Rabs (rnd d) <= tol -> Rabs d <= tol * (1 + tol).
Proof.
  intros d H. apply Rnot_lt_le. intro L. rewrite rnd_abs in H. assert (K : tol * (1 + tol) <= rnd (Rabs d)).
  { rewrite <- (rnd_fits (tol * (1 + tol))); [apply rnd_le; lra|]. replace (tol * (1 + tol)) with (IZR 8388609 * bpow radix2 (-46)) by (unfold tol; cbn; lra). apply fits_scaled; lia. }
  unfold tol in *. lra.
Qed.

(* floats of at least 2 are multiples of 2^-22 *)
Lemma coarse : forall x : f32, 2 <= Rabs (val x) -> exists k : Z, val x = IZR k * bpow radix2 (-22).
Proof.
  intros x X. pose proof (fits_val x) as G. unfold fits, generic_format in G. set (c := cexp radix2 (SpecFloat.fexp 24 128) (val x)) in *.
  assert (C : (-22 <= c)%Z).
  { unfold c, cexp. assert (M : (2 <= mag radix2 (val x))%Z) by (apply mag_ge_bpow; cbn; lra). unfold SpecFloat.fexp, SpecFloat.emin. lia. }
  exists (Ztrunc (scaled_mantissa radix2 (SpecFloat.fexp 24 128) (val x)) * 2 ^ (c + 22))%Z. rewrite G at 1. unfold F2R. cbn [Fnum Fexp]. fold c.
  rewrite mult_IZR. assert (W : IZR (2 ^ (c + 22)) = bpow radix2 (c + 22)) by (apply (IZR_Zpower radix2); lia). rewrite W. rewrite Rmult_assoc, <- bpow_plus. replace (c + 22 + -22)%Z with c by lia. reflexivity.
Qed.

Lemma coarse_eq : forall x y : f32, 2 <= Rabs (val x) -> 2 <= Rabs (val y) -> Rabs (val x - val y) <= tol * (1 + tol) -> val x = val y.
Proof.
  intros x y X Y D. destruct (coarse x X) as (k & K). destruct (coarse y Y) as (l & L). rewrite K, L in *. replace (IZR k * bpow radix2 (-22) - IZR l * bpow radix2 (-22)) with (IZR (k - l) * bpow radix2 (-22)) in D by (rewrite minus_IZR; ring).
  destruct (Z.eq_dec k l) as [->|N]; [reflexivity|]. exfalso. assert (P : 1 <= Rabs (IZR (k - l))) by (rewrite <- abs_IZR; apply IZR_le; lia). rewrite Rabs_mult in D. rewrite (Rabs_pos_eq (bpow radix2 (-22))) in D by apply bpow_ge_0.
  unfold tol in D. assert (Q : bpow radix2 (-22) = / 4194304) by (cbn; lra). rewrite Q in D. lra.
Qed.

Lemma e5_val : fin f_epsilon /\ 0 < val f_epsilon <= 1 / 2.
Proof. split; [reflexivity|]. unfold f_epsilon. erewrite lit_val by (vm_compute; reflexivity). cbn. lra. Qed.

Definition each (P : f32 -> f32 -> Prop) (a b : fvec) : Prop := P (fx a) (fx b) /\ P (fy a) (fy b) /\ P (fz a) (fz b).
Definition same_value (a b : fvec) : Prop := each (fun x y => val x = val y) a b.

(* For all finite vectors: components up to 2^-23 apart are equal and components further apart than
   2^-23 + 2^-46 are not; from 2 on equality is exact; equality is symmetric and != is its opposite. Normals are compared exactly. *)
Theorem float_vec_equal : forall a b, vfin a -> vfin b ->
  (each (fun x y => Rabs (val x - val y) <= / 8388608) a b -> f_vec_eq a b = true) /\
  (f_vec_eq a b = true -> each (fun x y => Rabs (val x - val y) <= / 8388608 * (1 + / 8388608)) a b) /\
  (each (fun x y => 2 <= Rabs (val x) /\ 2 <= Rabs (val y)) a b -> (f_vec_eq a b = true <-> same_value a b)) /\
  f_vec_eq b a = f_vec_eq a b /\ f_vec_ne a b = negb (f_vec_eq a b) /\
  (f_normal_eq a b = true <-> same_value a b) /\ f_normal_ne a b = negb (f_normal_eq a b).
Proof.
  intros a b (AX & AY & AZ) (BX & BY & BZ). destruct eps_val as (FE & VE). assert (V : val f_flt_epsilon = tol) by (rewrite VE; unfold tol; cbn; lra). assert (R : 0 < val f_flt_epsilon <= 1 / 2) by (rewrite V; unfold tol; lra).
  destruct (close_cases _ _ _ AX BX FE R) as (X1 & X2 & X3). destruct (close_cases _ _ _ AY BY FE R) as (Y1 & Y2 & Y3). destruct (close_cases _ _ _ AZ BZ FE R) as (Z1 & Z2 & Z3). rewrite V in *.
  assert (I : each (fun x y => Rabs (val x - val y) <= / 8388608) a b -> f_vec_eq a b = true).
  { intros (HX & HY & HZ). unfold f_vec_eq. rewrite X1, Y1, Z1 by assumption. reflexivity. }
  assert (J : f_vec_eq a b = true -> each (fun x y => Rabs (val x - val y) <= / 8388608 * (1 + / 8388608)) a b).
  { intro H. unfold f_vec_eq in H. rewrite !andb_true_iff in H. destruct H as ((HX & HY) & HZ). split; [|split]; apply tol_back; auto. }
  split; [exact I|]. split; [exact J|]. split; [|split; [|split; [|split]]].
  - intros ((P1 & P2) & (Q1 & Q2) & (R1 & R2)). split.
    + intro H. destruct (J H) as (HX & HY & HZ). split; [|split]; apply coarse_eq; assumption.
    + intros (HX & HY & HZ). apply I. split; [|split]; match goal with E : ?u = ?v |- Rabs (?u - ?v) <= _ => rewrite E, Rminus_diag_eq by reflexivity end; rewrite Rabs_R0; lra.
  - unfold f_vec_eq. rewrite (sub_flip (fx b)), (sub_flip (fy b)), (sub_flip (fz b)). reflexivity.
  - unfold f_vec_ne, f_vec_eq. rewrite X3, Y3, Z3. rewrite !negb_andb. reflexivity.
  - unfold f_normal_eq. rewrite !andb_true_iff. rewrite (eqb_val _ _ AX BX), (eqb_val _ _ AY BY), (eqb_val _ _ AZ BZ). unfold same_value, each. tauto.
  - unfold f_normal_eq, f_normal_ne. rewrite !negb_andb. reflexivity.
Qed.
Print Assumptions float_vec_equal.

(* 1 and the next float are equal, 2 and the next one are not *)
Example vec_equal_case :
  let v x := mk_fvec x fone (of_Z (-5)) in
  f_vec_eq (v fone) (v (fnum 8388609 (-23))) = true /\ f_normal_eq (v fone) (v (fnum 8388609 (-23))) = false /\
  f_vec_eq (v (of_Z 2)) (v (fnum 8388609 (-22))) = false /\ f_vec_ne (v (of_Z 2)) (v (fnum 8388609 (-22))) = true.
Proof. repeat split; vm_compute; reflexivity. Qed.

(* A vector with an infinite component or NaN is equal to nothing, and yet no vector is different from
   itself: == and != are not opposites there. Matrices, whose != is written as the opposite of ==, are then different from themselves. *)
Theorem float_vec_not_finite :
  (forall a b, ~ vfin a -> f_vec_eq a b = false /\ f_vec_eq b a = false) /\
  (forall a, f_vec_ne a a = false) /\
  (forall a, f_normal_ne a a = false <-> f_normal_eq a a = true) /\
  (forall m, f_mat_ne m m = false <-> Forall fin m).
Proof.
  assert (N : forall x y, ~ fin x -> fle (fabs (fsub x y)) f_flt_epsilon = false).
  { intros x y F. destruct x as [s|s| |s m e h], y as [t|t| |t n k g]; try (exfalso; apply F; reflexivity); try reflexivity; destruct s, t; reflexivity. }
  assert (E : forall a b, ~ vfin a -> f_vec_eq a b = false).
  { intros a b F. unfold f_vec_eq. destruct (is_finite (fx a)) eqn:FX; [|rewrite N by (unfold fin; rewrite FX; discriminate); reflexivity].
    destruct (is_finite (fy a)) eqn:FY; [|rewrite (N (fy a)) by (unfold fin; rewrite FY; discriminate); rewrite andb_false_r; reflexivity].
    destruct (is_finite (fz a)) eqn:FZ; [|rewrite (N (fz a)) by (unfold fin; rewrite FZ; discriminate); rewrite andb_false_r; reflexivity].
    exfalso. apply F. repeat split; assumption. }
  assert (Z : forall x, fin x -> Rabs (val x - val x) = 0) by (intros x F; rewrite Rminus_diag_eq by reflexivity; apply Rabs_R0).
  destruct eps_val as (FE & VE). assert (R : 0 < val f_flt_epsilon <= 1 / 2) by (rewrite VE; cbn; lra).
  assert (U : forall x, fgt (fabs (fsub x x)) f_flt_epsilon = false).
  { intro x. destruct (is_finite x) eqn:F; [|destruct x as [s|s| |s m e h]; try discriminate F; [destruct s|]; reflexivity].
    destruct (close_cases x x _ F F FE R) as (C & _ & D). rewrite D, C by (rewrite Z; [lra|exact F]). reflexivity. }
  destruct e5_val as (FD & RD).
  split; [|split; [|split]].
  - intros a b F. split; [apply E; exact F|]. unfold f_vec_eq. rewrite (sub_flip (fx b)), (sub_flip (fy b)), (sub_flip (fz b)). apply E. exact F.
  - intro a. unfold f_vec_ne. rewrite !U. reflexivity.
  - intro a. unfold f_normal_ne, f_normal_eq. rewrite <- !negb_andb, negb_false_iff. tauto.
  - intro m. unfold f_mat_ne. rewrite negb_false_iff. induction m as [|x m IH]; [split; [constructor|reflexivity]|]. cbn [f_mat_eq]. rewrite andb_true_iff, IH. clear IH. unfold f_flt_equal. split.
    + intros (H & G). constructor; [|exact G]. destruct (is_finite x) eqn:F; [exact F|]. destruct x as [s|s| |s k e h]; try discriminate F; [destruct s|]; discriminate H.
    + intro G. inversion G as [|y l F G']; subst. split; [|exact G']. apply (close_cases x x _ F F FD RD). rewrite Z by exact F. lra.
Qed.
Print Assumptions float_vec_not_finite.

Example not_finite_case :
  let v := mk_fvec (B754_infinity false) fone fone in
  f_vec_eq v v = false /\ f_vec_ne v v = false /\ f_normal_eq v v = true /\ f_mat_eq [fone; B754_infinity true] [fone; B754_infinity true] = false.
Proof. repeat split; vm_compute; reflexivity. Qed.

(* Matrices of finite entries: if all entries are up to 1e-5 (the float) apart the matrices are equal,
   if they are equal no entry is further apart than the next float, and equality is symmetric. *)
Theorem float_mat_equal : forall a b, length a = length b -> Forall fin a -> Forall fin b ->
  (Forall (fun p => Rabs (val (fst p) - val (snd p)) <= 10995116 / 1099511627776) (combine a b) -> f_mat_eq a b = true) /\
  (f_mat_eq a b = true -> Forall (fun p => Rabs (val (fst p) - val (snd p)) <= 10995117 / 1099511627776) (combine a b)) /\
  f_mat_eq b a = f_mat_eq a b /\ f_mat_ne a b = negb (f_mat_eq a b).
Proof.
  destruct e5_val as (FD & RD). assert (VD : val f_epsilon = 10995116 / 1099511627776) by (unfold f_epsilon; erewrite lit_val by (vm_compute; reflexivity); cbn; lra).
  assert (BK : forall d, Rabs (rnd d) <= val f_epsilon -> Rabs d <= 10995117 / 1099511627776).
  { intros d H. apply Rnot_lt_le. intro L. rewrite rnd_abs in H. assert (K : 10995117 / 1099511627776 <= rnd (Rabs d)).
    { rewrite <- (rnd_fits (10995117 / 1099511627776)); [apply rnd_le; lra|]. replace (10995117 / 1099511627776) with (IZR 10995117 * bpow radix2 (-40)) by (cbn; lra). apply fits_scaled; lia. }
    rewrite VD in H. lra. }
  intro a. induction a as [|x a IH]; intros [|y b] L FA FB; try discriminate L; [repeat split; constructor|].
  inversion FA as [|? ? FX FA']; subst. inversion FB as [|? ? FY FB']; subst. destruct (IH b ltac:(cbn in L; lia) FA' FB') as (I1 & I2 & I3 & _). destruct (close_cases x y _ FX FY FD RD) as (C1 & C2 & _). cbn [combine f_mat_eq]. unfold f_flt_equal. split; [|split; [|split; [|reflexivity]]].
  - intro H. inversion H as [|? ? HX HA]; subst. cbn [fst snd] in HX. rewrite C1, I1 by (try rewrite VD; assumption). reflexivity.
  - intro H. apply andb_true_iff in H. destruct H as (HX & HA). constructor; [cbn [fst snd]; apply BK, C2, HX|apply I2, HA].
  - rewrite (sub_flip y x), I3. reflexivity.
Qed.
Print Assumptions float_mat_equal.

Example mat_equal_case :
  f_mat_eq [fone; of_Z 3] [fnum 8388609 (-23); of_Z 3] = true /\ f_mat_eq [fone; of_Z 3] [fone; fnum 12583041 (-22)] = false /\ length [fone; of_Z 3] = length [fone; fone].
Proof. repeat split; vm_compute; reflexivity. Qed.

(* a vector that is scaled gets length 1 up to 22 units; the argument of normalize_cases in FltVecProps *)
Lemma scaled_length : forall v, vfin v -> bpow radix2 (-100) <= length2 v <= bpow radix2 100 -> f_is_normalized v = false ->
  vfin (f_normalize v) /\ Rabs (length2 (f_normalize v) - 1) <= 22 * u24.
Proof.
  intros v VF B T; destruct (len2_val v VF B) as [FL LB].
  assert (SP : 0 < length2 v) by (apply Rlt_le_trans with (2 := proj1 B), bpow_gt_0).
  unfold f_normalize; fold (f_is_normalized v); rewrite T.
  cbv zeta; set (L := f_len2 v) in *; destruct fone_val as [F1 V1].
    destruct (fsqrt_val L FL) as [FQ VQ]; [unfold u24 in LB; lra |].
    destruct (inv_sqrt (length2 v) (val L) (val (fsqrt L)) (rnd (1 / val (fsqrt L))) B LB VQ eq_refl) as (IB & Q0 & Q1).
    destruct (fdiv_val fone (fsqrt L) F1) as [FI VI]; [lra | rewrite V1, Rabs_pos_eq by lra; apply Rle_trans with (1 := proj2 Q1), bpow_le; lia |].
    rewrite V1 in VI; rewrite <- VI in IB; set (i := fdiv fone (fsqrt L)) in *.
    set (s := sqrt (length2 v)) in *; assert (S0 : 0 < s) by (apply sqrt_lt_R0, SP).
    assert (SS : s * s = length2 v) by (apply sqrt_sqrt; lra).
    assert (C : forall a, fin a -> val a * val a <= length2 v -> fin (fmul a i) /\
      Rabs (val a / s) <= 1 /\ Rabs (val (fmul a i) - val a / s) <= 10 * u24 * Rabs (val a / s) + eta).
    { intros a FA' LA; pose proof (abs_le_sqrt _ _ LA) as LA'; fold s in LA'.
      destruct (component (val a) s (val i) S0 LA' IB) as [M E].
      destruct (fmul_val a i FA' FI) as [FM VM]; [apply (big 2); [lia | exact M] |].
      split; [exact FM |]; split; [| rewrite VM; exact E].
      unfold Rdiv; rewrite Rabs_mult, (Rabs_pos_eq (/ s)) by (left; apply Rinv_0_lt_compat, S0).
      apply Rmult_le_reg_r with s; [lra |]; rewrite Rmult_assoc, Rinv_l by lra; lra. }
    destruct VF as (FX & FY & FZ).
    destruct (C (fx v) FX) as (GX & NX & EX); [unfold length2; nra |].
    destruct (C (fy v) FY) as (GY & NY & EY); [unfold length2; nra |].
    destruct (C (fz v) FZ) as (GZ & NZ & EZ); [unfold length2; nra |].
    pose proof eta_pos as EP.
    assert (E1 : eta <= u24 * / 1000).
    { apply Rle_trans with (1 := eta_small); apply Rmult_le_compat_l; [unfold u24; lra |]; apply Rle_trans with (bpow radix2 (-20)); [apply bpow_le; lia | cbn; lra]. }
    split; [split; [exact GX | split; [exact GY | exact GZ]] |]; cbn [fx fy fz].
    unfold length2 at 1; cbn [fx fy fz].
      pose proof (square_close _ _ NX EX) as QX; pose proof (square_close _ _ NY EY) as QY; pose proof (square_close _ _ NZ EZ) as QZ.
      assert (ONE : val (fx v) / s * (val (fx v) / s) + val (fy v) / s * (val (fy v) / s) + val (fz v) / s * (val (fz v) / s) = 1).
      { replace (_ + _ + _) with (length2 v / (s * s)) by (unfold length2; field; lra); rewrite SS; field; lra. }
      set (nx := val (fx v) / s) in *; set (ny := val (fy v) / s) in *; set (nz := val (fz v) / s) in *.
      apply abs_bounds in QX; apply abs_bounds in QY; apply abs_bounds in QZ; apply abs_bounds.
      set (ax := val (fmul (fx v) i)) in *; set (ay := val (fmul (fy v) i)) in *; set (az := val (fmul (fz v) i)) in *.
      clearbody nx ny nz ax ay az; clear - QX QY QZ ONE EP E1; unfold u24 in *; lra.
Qed.

(* the test, in terms of the squared length *)
Lemma counts : forall v, vfin v -> Rabs (length2 v - 1) <= 9e-6 -> f_is_normalized v = true.
Proof.
  intros v F L. apply abs_bounds in L. assert (B : bpow radix2 (-100) <= length2 v <= bpow radix2 100).
  { assert (bpow radix2 (-100) <= / 2) by (apply Rle_trans with (bpow radix2 (-1)); [apply bpow_le; lia | cbn; lra]).
    assert (2 <= bpow radix2 100) by (apply Rle_trans with (bpow radix2 1); [cbn; lra | apply bpow_le; lia]). lra. }
  destruct (len2_val v F B) as [FL LB]. destruct eps_vals as (FS & FA & ES & EA). apply abs_bounds in ES. apply abs_bounds in EA. apply and_val; try assumption. unfold u24 in *. lra.
Qed.

(* Normalising gives a vector that counts as normalised. A vector that counts as normalised is left
   alone and has squared length 1 up to 1.1e-5; every vector with squared length 1 up to 9e-6 counts. *)
Theorem float_is_normalized : forall v, vfin v -> bpow radix2 (-100) <= length2 v <= bpow radix2 100 ->
  f_is_normalized (f_normalize v) = true /\ (f_is_normalized v = true -> f_normalize v = v /\ Rabs (length2 v - 1) <= 1.1e-5) /\
  (Rabs (length2 v - 1) <= 9e-6 -> f_is_normalized v = true).
Proof.
  intros v F B. assert (K : f_is_normalized v = true -> f_normalize v = v) by (intro H; unfold f_normalize; fold (f_is_normalized v); rewrite H; reflexivity).
  split; [|split].
  - destruct (f_is_normalized v) eqn:T; [rewrite K by reflexivity; exact T|]. destruct (scaled_length v F B T) as (G & L). apply counts; [exact G|]. unfold u24 in L. lra.
  - intro H. split; [apply K, H|]. destruct (float_normalize v F B) as (_ & L & _). rewrite (K H) in L. exact L.
  - apply counts. exact F.
Qed.
Print Assumptions float_is_normalized.

Example is_normalized_case :
  let v := mk_fvec (of_Z 1) (of_Z 2) (of_Z 3) in f_is_normalized v = false /\ f_is_normalized (f_normalize v) = true /\ f_is_normalized (mk_fvec fzero fone fzero) = true.
Proof. repeat split; vm_compute; reflexivity. Qed.
