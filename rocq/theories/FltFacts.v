(* Values of the operations of FltModel as rounded real numbers. *)
From Coq Require Import ZArith Reals Lra Lia List.
From Flocq Require Import Core.Core IEEE754.BinarySingleNaN.
From Verif Require Import Common FltModel.
Import ListNotations.
Local Open Scope R_scope.

Definition rnd (x : R) : R := round radix2 (FLT_exp (-149) 24) ZnearestE x.
Definition fin (x : f32) : Prop := is_finite x = true.
Definition val (x : f32) : R := B2R x.
Definition fits (x : R) : Prop := generic_format radix2 (FLT_exp (-149) 24) x.

#[global] Instance prec24_pos : Prec_gt_0 24.
Proof. exact prec24. Qed.

#[global] Instance valid32 : Valid_exp (FLT_exp (-149) 24).
Proof. apply FLT_exp_valid; reflexivity. Qed.

Lemma rnd_le : forall x y, x <= y -> rnd x <= rnd y.
Proof. intros x y L; apply round_le; auto with typeclass_instances. Qed.

Lemma rnd_fits : forall x, fits x -> rnd x = x.
Proof. intros x F; apply round_generic; auto with typeclass_instances. Qed.

Lemma fits_rnd : forall x, fits (rnd x).
Proof. intro x; apply generic_format_round; auto with typeclass_instances. Qed.

Lemma fits_val : forall x, fits (val x).
Proof. intro x; apply generic_format_B2R. Qed.

Lemma fits_scaled : forall m e, (Z.abs m < 2 ^ 24)%Z -> (-149 <= e)%Z -> fits (IZR m * bpow radix2 e).
Proof.
  intros m e M E; apply generic_format_FLT; exists (Float radix2 m e); [reflexivity | exact M | exact E].
Qed.

Lemma fits_Z : forall n, (Z.abs n <= 2 ^ 24)%Z -> fits (IZR n).
Proof.
  intros n N; destruct (Z.eq_dec (Z.abs n) (2 ^ 24)) as [E | E].
  - assert (C : (n = 2 ^ 24 \/ n = - 2 ^ 24)%Z) by lia.
    destruct C as [-> | ->].
    + replace (IZR (2 ^ 24)) with (IZR 1 * bpow radix2 24) by (cbn; lra); apply fits_scaled; lia.
    + replace (IZR (- 2 ^ 24)) with (IZR (-1) * bpow radix2 24) by (cbn; lra); apply fits_scaled; lia.
  - replace (IZR n) with (IZR n * bpow radix2 0) by (cbn; lra); apply fits_scaled; lia.
Qed.

Lemma fits_bpow : forall e, (-149 <= e)%Z -> fits (bpow radix2 e).
Proof. intros e E; replace (bpow radix2 e) with (IZR 1 * bpow radix2 e) by ring; apply fits_scaled; lia. Qed.

Lemma fits_opp : forall x, fits x -> fits (- x).
Proof. intros x F; apply generic_format_opp, F. Qed.

Lemma rnd_between : forall x a b, fits a -> fits b -> a <= x <= b -> a <= rnd x <= b.
Proof.
  intros x a b A B [L U]; split; [rewrite <- (rnd_fits a A) | rewrite <- (rnd_fits b B)]; apply rnd_le; assumption.
Qed.

Lemma rnd_small : forall x, Rabs x <= bpow radix2 127 -> Rabs (rnd x) < bpow radix2 128.
Proof.
  intros x L; apply Rle_lt_trans with (bpow radix2 127); [| apply bpow_lt; lia].
  assert (B : - bpow radix2 127 <= x <= bpow radix2 127) by (unfold Rabs in L; destruct (Rcase_abs x); lra).
  apply Rabs_le, rnd_between; [apply fits_opp | | exact B]; apply fits_bpow; lia.
Qed.

Lemma rnd_err : forall x, Rabs (rnd x - x) <= bpow radix2 (-24) * Rabs x + bpow radix2 (-150).
Proof.
  intro x; apply Rle_trans with (/ 2 * ulp radix2 (FLT_exp (-149) 24) x).
  { apply error_le_half_ulp; auto with typeclass_instances. }
  pose proof (Rabs_pos x) as P.
  assert (B24 : bpow radix2 (-24) = / 2 * bpow radix2 (-23)) by (pose proof (bpow_plus_1 radix2 (-24)) as Q; change (-24 + 1)%Z with (-23)%Z in Q; change (IZR radix2) with 2 in Q; lra).
  assert (B150 : bpow radix2 (-150) = / 2 * bpow radix2 (-149)) by (pose proof (bpow_plus_1 radix2 (-150)) as Q; change (-150 + 1)%Z with (-149)%Z in Q; change (IZR radix2) with 2 in Q; lra).
  pose proof (bpow_gt_0 radix2 (-23)); pose proof (bpow_gt_0 radix2 (-149)).
  destruct (Rle_or_lt (bpow radix2 (-149 + 24 - 1)) (Rabs x)) as [L | L].
  - pose proof (ulp_FLT_le radix2 (-149) 24 x L) as U; change (1 - 24)%Z with (-23)%Z in U.
    rewrite B24, B150; nra.
  - rewrite (ulp_FLT_small radix2 (-149) 24 x).
    + rewrite B24, B150; nra.
    + apply Rlt_trans with (1 := L), bpow_lt; lia.
Qed.

Lemma fadd_val : forall x y, fin x -> fin y -> Rabs (val x + val y) <= bpow radix2 127 ->
  fin (fadd x y) /\ val (fadd x y) = rnd (val x + val y).
Proof.
  intros x y FX FY B; pose proof (Bplus_correct 24 128 prec24 emax128 mode_NE x y FX FY) as C.
  cbn [round_mode] in C; change (round radix2 (SpecFloat.fexp 24 128) ZnearestE (B2R x + B2R y)) with (rnd (val x + val y)) in C.
  rewrite Rlt_bool_true in C by (apply rnd_small, B); destruct C as (C1 & C2 & _); split; assumption.
Qed.

Lemma fsub_val : forall x y, fin x -> fin y -> Rabs (val x - val y) <= bpow radix2 127 ->
  fin (fsub x y) /\ val (fsub x y) = rnd (val x - val y).
Proof.
  intros x y FX FY B; pose proof (Bminus_correct 24 128 prec24 emax128 mode_NE x y FX FY) as C.
  cbn [round_mode] in C; change (round radix2 (SpecFloat.fexp 24 128) ZnearestE (B2R x - B2R y)) with (rnd (val x - val y)) in C.
  rewrite Rlt_bool_true in C by (apply rnd_small, B); destruct C as (C1 & C2 & _); split; assumption.
Qed.

Lemma fmul_val : forall x y, fin x -> fin y -> Rabs (val x * val y) <= bpow radix2 127 ->
  fin (fmul x y) /\ val (fmul x y) = rnd (val x * val y).
Proof.
  intros x y FX FY B; pose proof (Bmult_correct 24 128 prec24 emax128 mode_NE x y) as C.
  cbn [round_mode] in C; change (round radix2 (SpecFloat.fexp 24 128) ZnearestE (B2R x * B2R y)) with (rnd (val x * val y)) in C.
  rewrite Rlt_bool_true in C by (apply rnd_small, B); destruct C as (C1 & C2 & _); split; [| exact C1].
  unfold fin, fmul; rewrite C2, FX, FY; reflexivity.
Qed.

Lemma fdiv_val : forall x y, fin x -> val y <> 0 -> Rabs (val x / val y) <= bpow radix2 127 ->
  fin (fdiv x y) /\ val (fdiv x y) = rnd (val x / val y).
Proof.
  intros x y FX NY B; pose proof (Bdiv_correct 24 128 prec24 emax128 mode_NE x y NY) as C.
  cbn [round_mode] in C; change (round radix2 (SpecFloat.fexp 24 128) ZnearestE (B2R x / B2R y)) with (rnd (val x / val y)) in C.
  rewrite Rlt_bool_true in C by (apply rnd_small, B); destruct C as (C1 & C2 & _); split; [| exact C1].
  unfold fin, fdiv; rewrite C2; exact FX.
Qed.

Lemma fsqrt_val : forall x, fin x -> 0 <= val x -> fin (fsqrt x) /\ val (fsqrt x) = rnd (sqrt (val x)).
Proof.
  intros x FX P; destruct (Bsqrt_correct 24 128 prec24 emax128 mode_NE x) as (C1 & C2 & _); split; [| exact C1].
  unfold fin, fsqrt; rewrite C2; destruct x as [s | s | | s m e b]; try reflexivity; try discriminate.
  destruct s; [| reflexivity]; exfalso; unfold val, B2R in P; cbn in P.
  pose proof (F2R_lt_0 radix2 (Float radix2 (Z.neg m) e) eq_refl) as L; cbn in L, P; lra.
Qed.

Lemma fnum_val : forall m e, Rabs (IZR m * bpow radix2 e) <= bpow radix2 127 ->
  fin (fnum m e) /\ val (fnum m e) = rnd (IZR m * bpow radix2 e).
Proof.
  intros m e B; pose proof (binary_normalize_correct 24 128 prec24 emax128 mode_NE m e false) as C.
  cbn [round_mode] in C; cbv zeta in C.
  change (round radix2 (SpecFloat.fexp 24 128) ZnearestE (F2R (Float radix2 m e))) with (rnd (IZR m * bpow radix2 e)) in C.
  rewrite Rlt_bool_true in C by (apply rnd_small, B); destruct C as (C1 & C2 & _); split; assumption.
Qed.

Lemma small_Z : forall n, (Z.abs n <= 2 ^ 127)%Z -> Rabs (IZR n) <= bpow radix2 127.
Proof. intros n N; rewrite <- abs_IZR; replace (bpow radix2 127) with (IZR (2 ^ 127)) by reflexivity; apply IZR_le, N. Qed.

Lemma of_Z_val : forall n, (Z.abs n <= 2 ^ 127)%Z -> fin (of_Z n) /\ val (of_Z n) = rnd (IZR n).
Proof.
  intros n N; unfold of_Z.
  destruct (fnum_val n 0) as [F V]; [cbn [bpow]; rewrite Rmult_1_r; apply small_Z, N |].
  split; [exact F |]; rewrite V; cbn [bpow]; rewrite Rmult_1_r; reflexivity.
Qed.

Lemma of_Z_exact : forall n, (Z.abs n <= 2 ^ 24)%Z -> fin (of_Z n) /\ val (of_Z n) = IZR n.
Proof.
  intros n N; destruct (of_Z_val n) as [F V]; [lia |]; split; [exact F |]; rewrite V; apply rnd_fits, fits_Z, N.
Qed.

Lemma fone_val : fin fone /\ val fone = 1.
Proof. apply (of_Z_exact 1); lia. Qed.

Lemma fzero_val : fin fzero /\ val fzero = 0.
Proof. apply (of_Z_exact 0); lia. Qed.

Lemma flt_val : forall x y, fin x -> fin y -> (flt x y = true <-> val x < val y).
Proof.
  intros x y FX FY; unfold flt; rewrite (Bltb_correct 24 128 x y FX FY); destruct (Rlt_bool_spec (B2R x) (B2R y)) as [L | L]; unfold val.
  - split; [intros _; exact L | reflexivity].
  - split; [discriminate | intro; lra].
Qed.

Lemma fle_val : forall x y, fin x -> fin y -> (fle x y = true <-> val x <= val y).
Proof.
  intros x y FX FY; unfold fle; rewrite (Bleb_correct 24 128 x y FX FY); destruct (Rle_bool_spec (B2R x) (B2R y)) as [L | L]; unfold val.
  - split; [intros _; exact L | reflexivity].
  - split; [discriminate | intro; lra].
Qed.

(* a finite sum is a rounded one *)
Lemma fadd_fin : forall x y, fin x -> fin y -> fin (fadd x y) -> val (fadd x y) = rnd (val x + val y).
Proof.
  intros x y FX FY F; pose proof (Bplus_correct 24 128 prec24 emax128 mode_NE x y FX FY) as C.
  cbn [round_mode] in C; change (round radix2 (SpecFloat.fexp 24 128) ZnearestE (B2R x + B2R y)) with (rnd (val x + val y)) in C.
  destruct (Rlt_bool_spec (Rabs (rnd (val x + val y))) (bpow radix2 128)) as [L | L]; [apply C |].
  exfalso; destruct C as [C _]; unfold fin, fadd in F; rewrite <- is_finite_SF_B2SF, C in F; discriminate.
Qed.

Lemma trunc_val : forall x, IZR (Btrunc x) = IZR (Ztrunc (val x)).
Proof.
  intro x; rewrite Btrunc_correct by exact emax128; unfold val; set (r := B2R x).
  unfold round, scaled_mantissa, cexp, FIX_exp, F2R; cbn [Fnum Fexp]; change (- 0)%Z with 0%Z.
  change (bpow radix2 0) with 1; rewrite !Rmult_1_r; reflexivity.
Qed.

Lemma trunc_eq : forall x : f32, Btrunc x = Ztrunc (val x).
Proof. intro x; apply eq_IZR, trunc_val. Qed.

Lemma to_range_ok : forall lo hi x, fin x -> (lo <= Ztrunc (val x) <= hi)%Z -> to_range lo hi x = Ok (Ztrunc (val x)).
Proof.
  intros lo hi x F B; unfold to_range; rewrite F, trunc_eq.
  destruct (Z.leb_spec lo (Ztrunc (val x))); [| lia]; destruct (Z.leb_spec (Ztrunc (val x)) hi); [reflexivity | lia].
Qed.
