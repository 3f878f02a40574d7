(* Two dimensional vectors in single precision. *)
From Coq Require Import ZArith Reals List Lra Psatz Lia Bool.
From Flocq Require Import Core.Core IEEE754.BinarySingleNaN.
From Verif Require Import Common FltModel FltFacts FltProps FExtFacts FSphereProps FBoxMarginProps FMatBoundProps FFresNearProps FVecEqModel FltVecProps FVec2Model.
Import ListNotations.
Local Open Scope R_scope.

Definition square2 (v : fvec2) : R := val (fst v) * val (fst v) + val (snd v) * val (snd v).
Definition fin2 (v : fvec2) : Prop := fin (fst v) /\ fin (snd v).

Lemma fin_left : forall a, fin (fadd a fzero) -> fin a.
Proof. intros [s|s| |s m e H] F; try exact F; try reflexivity; destruct s; vm_compute in F; discriminate F. Qed.

Lemma add_zero_val : forall a, fin a -> val (fadd a fzero) = val a.
Proof. intros [s|s| |s m e H] F; try discriminate F; [destruct s; reflexivity|reflexivity]. Qed.

Lemma zero_square : fmul fzero fzero = fzero.
Proof. apply B2SF_inj. vm_compute. reflexivity. Qed.

Lemma len2_2 : forall v, fin2 v -> bpow radix2 (-100) <= square2 v <= bpow radix2 100 ->
  fin (f2_length2 v) /\ square2 v * (1 - 5 * u24) <= val (f2_length2 v) <= square2 v * (1 + 5 * u24).
Proof.
  intros (x & y) (FX & FY) B. unfold square2 in *. cbn [fst snd] in *. destruct fzero_val as (FZ & VZ).
  assert (L : length2 (mk_fvec x y fzero) = val x * val x + val y * val y) by (unfold length2; cbn [fx fy fz]; rewrite VZ; ring).
  destruct (len2_val (mk_fvec x y fzero)) as (F & E); [split; [exact FX|split; [exact FY|exact FZ]]|rewrite L; exact B|]. rewrite L in E.
  unfold f_len2 in F, E. cbn [fx fy fz] in F, E. rewrite zero_square in F, E. unfold f2_length2. cbn [fst snd]. set (a := fadd (fmul x x) (fmul y y)) in *. clearbody a.
  pose proof (fin_left a F) as FA. split; [exact FA|]. replace (val a) with (val (fadd a fzero)); [exact E|].
  apply add_zero_val. exact FA.
Qed.

(* C436: the result has length 1 up to 1.4e-6 in the square and the direction of the vector up to 7e-7 *)
Theorem float_normalize2 : forall v, fin2 v -> bpow radix2 (-100) <= square2 v <= bpow radix2 100 ->
  let n := f2_normalize v in let s := sqrt (square2 v) in
  fin2 n /\ Rabs (square2 n - 1) <= 1.4e-6 /\ Rabs (val (fst n) - val (fst v) / s) <= 7e-7 /\ Rabs (val (snd n) - val (snd v) / s) <= 7e-7.
Proof.
  intros v VF B. cbv zeta. destruct (len2_2 v VF B) as (FL & LB).
  assert (SP : 0 < square2 v) by (apply Rlt_le_trans with (2 := proj1 B), bpow_gt_0).
  unfold f2_normalize, f2_length. cbv zeta. set (L := f2_length2 v) in *. clearbody L. destruct fone_val as [F1 V1].
  destruct (fsqrt_val L FL) as [FQ VQ]; [unfold u24 in LB; lra|].
  destruct (inv_sqrt (square2 v) (val L) (val (fsqrt L)) (rnd (1 / val (fsqrt L))) B LB VQ eq_refl) as (IB & Q0 & Q1).
  destruct (fdiv_val fone (fsqrt L) F1) as [FI VI]; [lra|rewrite V1, Rabs_pos_eq by lra; apply Rle_trans with (1 := proj2 Q1), bpow_le; lia|].
  rewrite V1 in VI. rewrite <- VI in IB. set (i := fdiv fone (fsqrt L)) in *. clearbody i.
  set (s := sqrt (square2 v)) in *. assert (S0 : 0 < s) by (apply sqrt_lt_R0, SP).
  assert (SS : s * s = square2 v) by (apply sqrt_sqrt; lra).
  assert (C : forall a, fin a -> val a * val a <= square2 v -> fin (fmul a i) /\
    Rabs (val a / s) <= 1 /\ Rabs (val (fmul a i) - val a / s) <= 10 * u24 * Rabs (val a / s) + eta).
  { intros a FA LA. pose proof (abs_le_sqrt _ _ LA) as LA'. fold s in LA'. destruct (component (val a) s (val i) S0 LA' IB) as [M E].
    destruct (fmul_val a i FA FI) as [FM VM]; [apply (big 2); [lia|exact M]|]. split; [exact FM|]. split; [|rewrite VM; exact E].
    unfold Rdiv. rewrite Rabs_mult, (Rabs_pos_eq (/ s)) by (left; apply Rinv_0_lt_compat, S0). apply Rmult_le_reg_r with s; [lra|]. rewrite Rmult_assoc, Rinv_l by lra. lra. }
  destruct VF as (FX & FY). destruct v as (x & y). unfold square2 in SS, C. unfold square2, fin2. cbn [fst snd] in *.
  destruct (C x FX) as (GX & NX & EX); [pose proof (Rle_0_sqr (val y)); unfold Rsqr in *; lra|]. destruct (C y FY) as (GY & NY & EY); [pose proof (Rle_0_sqr (val x)); unfold Rsqr in *; lra|].
  pose proof eta_pos as EP.
  assert (E1 : eta <= u24 * / 1000) by (apply Rle_trans with (1 := eta_small); apply Rmult_le_compat_l; [unfold u24; lra|]; apply Rle_trans with (bpow radix2 (-20)); [apply bpow_le; lia|cbn; lra]).
  split; [split; [exact GX|exact GY]|]. split.
  - pose proof (square_close _ _ NX EX) as QX. pose proof (square_close _ _ NY EY) as QY.
    assert (ONE : val x / s * (val x / s) + val y / s * (val y / s) = 1) by (replace (_ + _) with ((val x * val x + val y * val y) / (s * s)) by (field; lra); rewrite SS; field; rewrite <- SS; apply Rgt_not_eq, Rmult_lt_0_compat; exact S0).
    set (nx := val x / s) in *. set (ny := val y / s) in *. apply abs_bounds in QX. apply abs_bounds in QY. apply abs_bounds.
    set (ax := val (fmul x i)) in *. set (ay := val (fmul y i)) in *. clearbody nx ny ax ay. clear - QX QY ONE EP E1. unfold u24 in *. lra.
  - split; unfold u24 in *; lra.
Qed.
Example normalize2_case : let v := (of_Z 1, of_Z 11) in fin2 v /\ bpow radix2 (-100) <= square2 v <= bpow radix2 100.
Proof.
  cbv zeta. destruct (of_Z_exact 1) as (F & V); [lia|]. destruct (of_Z_exact 11) as (F' & V'); [lia|]. split; [split; [exact F|exact F']|]. unfold square2. cbn [fst snd]. rewrite V, V'.
  assert (bpow radix2 (-100) <= 1) by (apply (bpow_le radix2 (-100) 0); lia). assert (128 <= bpow radix2 100) by (apply Rle_trans with (bpow radix2 7); [cbn; lra|apply bpow_le; lia]). lra.
Qed.
Print Assumptions float_normalize2.

(* the two bounds of the test *)
Lemma unit_bounds : fin (fsub fone f_flt_epsilon) /\ fin (fadd fone f_flt_epsilon) /\ val (fsub fone f_flt_epsilon) = 1 - 2 * u24 /\ val (fadd fone f_flt_epsilon) = 1 + 2 * u24.
Proof.
  assert (A : fsub fone f_flt_epsilon = fnum 16777214 (-24)) by (apply B2SF_inj; vm_compute; reflexivity). assert (B : fadd fone f_flt_epsilon = fnum 8388609 (-23)) by (apply B2SF_inj; vm_compute; reflexivity). rewrite A, B.
  assert (P : bpow radix2 (-23) = / 8388608) by (cbn; lra). assert (P4 : bpow radix2 (-24) = / 16777216) by (cbn; lra).
  assert (V1 : val (fnum 16777214 (-24)) = IZR 16777214 * bpow radix2 (-24)) by (apply lit_val; vm_compute; reflexivity). assert (V2 : val (fnum 8388609 (-23)) = IZR 8388609 * bpow radix2 (-23)) by (apply lit_val; vm_compute; reflexivity).
  split; [vm_compute; reflexivity|]. split; [vm_compute; reflexivity|]. rewrite V1, V2, P, P4. split; unfold u24; lra.
Qed.

(* C437: what the test accepts has length 1 up to 8e-7 in the square *)
Theorem float_unit2_sound : forall v, fin2 v -> bpow radix2 (-100) <= square2 v <= bpow radix2 100 -> f2_is_normalized v = true -> Rabs (square2 v - 1) <= 8e-7.
Proof.
  intros v VF B T. destruct (len2_2 v VF B) as (FL & LB). assert (SP : 0 < square2 v) by (apply Rlt_le_trans with (2 := proj1 B), bpow_gt_0).
  unfold f2_is_normalized, f2_length in T. cbv zeta in T. set (L := f2_length2 v) in *. clearbody L. set (S := square2 v) in *. clearbody S.
  assert (LP : 0 < val L) by (unfold u24 in LB; lra). destruct (fsqrt_val L FL) as [FQ VQ]; [lra|]. destruct unit_bounds as (FA & FB & VA & VB). apply and_val in T; [|assumption..]. rewrite VA, VB, VQ in T.
  set (t := sqrt (val L)) in *. assert (TT : t * t = val L) by (apply sqrt_sqrt; lra). assert (T0 : 0 <= t) by apply sqrt_pos. clearbody t.
  pose proof (rerr t) as E. pose proof h150_u24 as H. rewrite (Rabs_pos_eq t T0) in E. apply abs_both in E. apply Rabs_le.
  assert (T1 : 1 - 4 * u24 <= t <= 1 + 4 * u24) by (unfold u24 in *; lra).
  assert (U1 : t * t <= (1 + 4 * u24) * (1 + 4 * u24)) by (apply Rmult_le_compat; lra). assert (U2 : (1 - 4 * u24) * (1 - 4 * u24) <= t * t) by (apply Rmult_le_compat; unfold u24 in *; lra).
  unfold u24 in *. lra.
Qed.
Example unit2_case : f2_is_normalized (of_Z 1, of_Z 0) = true.
Proof. vm_compute. reflexivity. Qed.
Print Assumptions float_unit2_sound.

(* C438: a vector that was just normalised can fail the test *)
Theorem float_unit2_refuted : exists v, fin2 v /\ bpow radix2 (-100) <= square2 v <= bpow radix2 100 /\ f2_is_normalized (f2_normalize v) = false.
Proof.
  exists (of_Z 1, of_Z 11). destruct normalize2_case as (A & B). split; [exact A|]. split; [exact B|]. vm_compute. reflexivity.
Qed.
Print Assumptions float_unit2_refuted.
