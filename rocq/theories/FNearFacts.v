(* Running error bounds: a float that is within a units of 2^-24 of an exact number of size at
   most X. *)
From Coq Require Import ZArith Reals Lra Lia.
From Flocq Require Import Core.Core IEEE754.BinarySingleNaN.
From Verif Require Import FltModel FltFacts FltProps FRayModel FSphereProps FBoxMarginProps FMatBoundProps FFilmProps FFresProps FFresNearProps FTexModel FTexProps FSpecNearProps.
Local Open Scope R_scope.

Definition near (x : f32) (x0 X a : R) : Prop := fin x /\ Rabs (val x - x0) <= a * u24 /\ Rabs x0 <= X.

Lemma near_exact : forall x X, fin x -> Rabs (val x) <= X -> near x (val x) X 0.
Proof. intros x X F L. split; [exact F|]. split; [|exact L]. rewrite Rminus_diag_eq, Rabs_R0 by reflexivity. lra. Qed.

Lemma near_int : forall n X, (Z.abs n <= 2 ^ 24)%Z -> Rabs (IZR n) <= X -> near (of_Z n) (IZR n) X 0.
Proof. intros n X N L. destruct (of_Z_exact n N) as (F & V). rewrite <- V at 1. apply near_exact; [exact F|rewrite V; exact L]. Qed.

Lemma near_weaken : forall x x0 X a X' a', near x x0 X a -> X <= X' -> a <= a' -> near x x0 X' a'.
Proof.
  intros x x0 X a X' a' (F & E & L) HX HA. split; [exact F|]. split; [|lra]. eapply Rle_trans; [exact E|]. apply Rmult_le_compat_r; [unfold u24; lra|exact HA].
Qed.

Lemma near_pos : forall x x0 X a, near x x0 X a -> 0 <= a /\ 0 <= X.
Proof.
  intros x x0 X a (_ & E & L). split; [|eapply Rle_trans; [apply Rabs_pos|exact L]].
  pose proof (Rabs_pos (val x - x0)). destruct (Rle_or_lt 0 a) as [G|G]; [exact G|]. assert (a * u24 < 0) by (apply Ropp_lt_cancel; rewrite Ropp_0, Ropp_mult_distr_l; apply Rmult_lt_0_compat; unfold u24; lra). lra.
Qed.

(* a rounded sum, difference or product, from the exact operation on the floats *)
Lemma near_round : forall r s s0 Z e, fin r -> val r = rnd s -> Rabs (s - s0) <= e * u24 -> Rabs s0 <= Z -> e <= 4194304 -> near r s0 Z (e + Z + / 2).
Proof.
  intros r s s0 Z e F V E L B. split; [exact F|]. split; [|exact L]. rewrite V. pose proof (rerr s) as R. destruct h150_u24 as (H0 & H1).
  assert (S : Rabs s <= Z + e * u24). { replace s with (s0 + (s - s0)) by ring. eapply Rle_trans; [apply Rabs_triang|]. lra. }
  assert (US : u24 * Rabs s <= u24 * (Z + e * u24)) by (apply Rmult_le_compat_l; [unfold u24; lra|exact S]).
  assert (EU : u24 * (e * u24) <= u24 * (/ 4)). { apply Rmult_le_compat_l; [unfold u24; lra|]. unfold u24. lra. }
  replace (rnd s - s0) with ((rnd s - s) + (s - s0)) by ring. eapply Rle_trans; [apply Rabs_triang|]. unfold u24 in *. lra.
Qed.

Lemma near_small : forall x x0 X a, near x x0 X a -> X <= 1048576 -> a <= 4194304 -> Rabs (val x) <= X + / 4.
Proof.
  intros x x0 X a (_ & E & L) HX HA. replace (val x) with (x0 + (val x - x0)) by ring. eapply Rle_trans; [apply Rabs_triang|]. unfold u24 in *. lra.
Qed.

Lemma big_127 : forall x, Rabs x <= 8000000000000 -> Rabs x <= bpow radix2 127.
Proof. intros x H. apply (small_127 _ 43); [lia|]. change (bpow radix2 43) with 8796093022208. lra. Qed.

Lemma near_add : forall x y x0 y0 X Y a b Z, near x x0 X a -> near y y0 Y b -> Rabs (x0 + y0) <= Z ->
  X <= 1048576 -> Y <= 1048576 -> a <= 2000000 -> b <= 2000000 -> near (fadd x y) (x0 + y0) Z (a + b + Z + / 2).
Proof.
  intros x y x0 y0 X Y a b Z NX NY L HX HY HA HB. pose proof (near_small _ _ _ _ NX HX ltac:(lra)) as SX. pose proof (near_small _ _ _ _ NY HY ltac:(lra)) as SY.
  destruct NX as (FX & EX & LX). destruct NY as (FY & EY & LY).
  destruct (fadd_val x y FX FY) as (F & V). { apply big_127. eapply Rle_trans; [apply Rabs_triang|]. lra. }
  apply (near_round _ (val x + val y)); [exact F|exact V| |exact L|lra].
  replace (val x + val y - (x0 + y0)) with ((val x - x0) + (val y - y0)) by ring. eapply Rle_trans; [apply Rabs_triang|]. lra.
Qed.

Lemma near_neg : forall x x0 X a, near x x0 X a -> near (fneg x) (- x0) X a.
Proof.
  intros x x0 X a (F & E & L). destruct (neg_val x F) as (FN & VN). split; [exact FN|]. rewrite VN, Rabs_Ropp. split; [|exact L].
  replace (- val x - - x0) with (- (val x - x0)) by ring. rewrite Rabs_Ropp. exact E.
Qed.

Lemma near_sub : forall x y x0 y0 X Y a b Z, near x x0 X a -> near y y0 Y b -> Rabs (x0 - y0) <= Z ->
  X <= 1048576 -> Y <= 1048576 -> a <= 2000000 -> b <= 2000000 -> near (fsub x y) (x0 - y0) Z (a + b + Z + / 2).
Proof.
  intros x y x0 y0 X Y a b Z NX NY L HX HY HA HB. pose proof (near_small _ _ _ _ NX HX ltac:(lra)) as SX. pose proof (near_small _ _ _ _ NY HY ltac:(lra)) as SY.
  destruct NX as (FX & EX & LX). destruct NY as (FY & EY & LY).
  destruct (fsub_val x y FX FY) as (F & V). { apply big_127. unfold Rminus. eapply Rle_trans; [apply Rabs_triang|]. rewrite Rabs_Ropp. lra. }
  apply (near_round _ (val x - val y)); [exact F|exact V| |exact L|lra].
  replace (val x - val y - (x0 - y0)) with ((val x - x0) - (val y - y0)) by ring. unfold Rminus at 1. eapply Rle_trans; [apply Rabs_triang|]. rewrite Rabs_Ropp. lra.
Qed.

Lemma near_mul : forall x y x0 y0 X Y a b Z, near x x0 X a -> near y y0 Y b -> Rabs (x0 * y0) <= Z ->
  X <= 1048576 -> Y <= 1048576 -> a * Y + b * X <= 2000000 -> a * b <= 4000000 -> a <= 4000000 -> b <= 4000000 -> near (fmul x y) (x0 * y0) Z (a * Y + b * X + Z + 3 / 4).
Proof.
  intros x y x0 y0 X Y a b Z NX NY L HX HY HM HAB HA HB. pose proof (near_small _ _ _ _ NX HX ltac:(lra)) as SX. pose proof (near_small _ _ _ _ NY HY ltac:(lra)) as SY.
  pose proof (near_pos _ _ _ _ NX) as (A0 & X0). pose proof (near_pos _ _ _ _ NY) as (B0 & Y0).
  destruct NX as (FX & EX & LX). destruct NY as (FY & EY & LY).
  destruct (fmul_val x y FX FY) as (F & V). { apply big_127. eapply Rle_trans; [apply (mult_abs _ _ _ _ SX SY)|]. apply Rle_trans with (1048577 * 1048577); [apply Rmult_le_compat; lra|lra]. }
  assert (AB : a * b * u24 <= / 4) by (apply Rle_trans with (4000000 * u24); [apply Rmult_le_compat_r; [unfold u24; lra|exact HAB]|unfold u24; lra]).
  apply (near_weaken _ _ Z (a * Y + b * X + / 4 + Z + / 2)); [|lra|lra].
  apply (near_round _ (val x * val y)); [exact F|exact V| |exact L|lra].
  assert (P1 : Rabs ((val x - x0) * y0) <= a * u24 * Y) by (apply mult_abs; assumption).
  assert (P2 : Rabs (x0 * (val y - y0)) <= X * (b * u24)) by (apply mult_abs; assumption).
  assert (P3 : Rabs ((val x - x0) * (val y - y0)) <= a * u24 * (b * u24)) by (apply mult_abs; assumption).
  assert (P4 : a * u24 * (b * u24) <= / 4 * u24). { replace (a * u24 * (b * u24)) with (a * b * u24 * u24) by ring. apply Rmult_le_compat_r; [unfold u24; lra|exact AB]. }
  replace (val x * val y - x0 * y0) with ((val x - x0) * y0 + x0 * (val y - y0) + (val x - x0) * (val y - y0)) by ring.
  apply abs_both in P1. apply abs_both in P2. apply abs_both in P3.
  set (p1 := (val x - x0) * y0) in *. set (p2 := x0 * (val y - y0)) in *. set (p3 := (val x - x0) * (val y - y0)) in *. clearbody p1 p2 p3.
  replace ((a * Y + b * X + / 4) * u24) with (a * u24 * Y + X * (b * u24) + / 4 * u24) by ring. apply Rabs_le. lra.
Qed.

(* the size of a product *)
Lemma size_mul : forall x y X Y, Rabs x <= X -> Rabs y <= Y -> Rabs (x * y) <= X * Y.
Proof. intros. apply mult_abs; assumption. Qed.
