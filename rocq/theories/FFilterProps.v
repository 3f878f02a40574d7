(* Weights of the tent and the Mitchell filter in single precision. *)
From Coq Require Import ZArith Reals List Lra Lia Bool.
From Flocq Require Import Core.Core IEEE754.BinarySingleNaN.
From Verif Require Import Common FltModel FltFacts FltProps FExtFacts FRayModel FRayFacts FSphereProps FBoxMarginProps FMatProps FMatBoundProps FFilmProps FFresModel FFresProps FFresNearProps FTexModel FTexProps FSpecNearProps FilterModel FFilterModel.
Local Open Scope R_scope.

Lemma two_val : fin (of_Z 2) /\ val (of_Z 2) = 2.
Proof. apply (of_Z_exact 2). cbn; lia. Qed.

Lemma fits_two : fits 2.
Proof. change 2 with (bpow radix2 1). apply fits_bpow; lia. Qed.

(* one axis of the tent *)
Definition f_side (t : f32) : f32 := fmax fzero (fsub (of_Z 2) (fabs t)).

Lemma side_bounds : forall t, fin t -> Rabs (val t) <= bpow radix2 60 ->
  fin (f_side t) /\ val (f_side t) = Rmax 0 (rnd (2 - Rabs (val t))) /\ 0 <= val (f_side t) <= 2 /\
  (2 <= Rabs (val t) -> val (f_side t) = 0) /\ (Rabs (val t) < 2 -> bpow radix2 (-23) <= val (f_side t)) /\
  Rabs (val (f_side t) - Rmax 0 (2 - Rabs (val t))) <= u24.
Proof.
  intros t F T. destruct two_val as (F2 & V2). destruct (abs_val t F) as (FA & VA). pose proof (Rabs_pos (val t)) as P. unfold f_side.
  assert (B : Rabs (2 - Rabs (val t)) <= bpow radix2 127).
  { apply (small_127 _ 60); [lia|]. assert (bpow radix2 2 <= bpow radix2 60) by (apply bpow_le; lia). change (bpow radix2 2) with 4 in *. apply Rabs_le. lra. }
  destruct (fsub_val (of_Z 2) (fabs t) F2 FA) as (FS & VS); [rewrite V2, VA; exact B|]. rewrite V2, VA in VS.
  destruct (max_zero _ FS) as (FM & VM). rewrite VS in VM. split; [exact FM|]. split; [exact VM|]. rewrite VM.
  assert (U : rnd (2 - Rabs (val t)) <= 2). { apply Rle_trans with (rnd 2); [apply rnd_le; lra|]. rewrite (rnd_fits 2 fits_two). lra. }
  split; [split; [apply Rmax_l|apply Rmax_lub; lra]|].
  assert (Z : 2 <= Rabs (val t) -> rnd (2 - Rabs (val t)) <= 0). { intro H. apply Rle_trans with (rnd 0); [apply rnd_le; lra|]. rewrite rnd_0. lra. }
  split; [|split].
  - intro H. apply Rmax_left, Z, H.
  - intro H. assert (L : Rabs (val t) <= 2 - bpow radix2 (-23)).
    { assert (FT : fits (Rabs (val t))) by (rewrite <- VA; apply fits_val). pose proof (fits_bpow 1 ltac:(lia)) as F1. change 2 with (bpow radix2 1) in H.
      apply (pred_ge_gt radix2 _ _ _ FT F1) in H. rewrite pred_bpow in H. exact H. }
    eapply Rle_trans; [|apply Rmax_r]. rewrite <- (rnd_fits (bpow radix2 (-23))) by (apply fits_bpow; lia). apply rnd_le. lra.
  - destruct (Rle_or_lt 2 (Rabs (val t))) as [H|H].
    + rewrite (Rmax_left 0 (rnd _)) by (apply Z, H). rewrite Rmax_left by lra. rewrite Rminus_0_r, Rabs_R0. unfold u24; lra.
    + assert (0 <= rnd (2 - Rabs (val t))) by (apply rnd_nonneg; lra). rewrite !Rmax_right by lra.
      rewrite <- u24_bpow. apply (half_error _ 1); [|lia]. change (bpow radix2 1) with 2. rewrite Rabs_pos_eq; lra.
Qed.

Lemma tent_val : forall x y, fin x -> fin y -> Rabs (val x) <= bpow radix2 60 -> Rabs (val y) <= bpow radix2 60 ->
  fin (f_tent x y) /\ val (f_tent x y) = rnd (rnd (rnd (val (f_side x) / 2) * val (f_side y)) / 2).
Proof.
  intros x y FX FY X Y. destruct (side_bounds x FX X) as (FA & _ & A & _). destruct (side_bounds y FY Y) as (FB & _ & B & _). unfold f_tent. fold (f_side x). fold (f_side y).
  set (a := f_side x) in *. set (b := f_side y) in *. clearbody a b. destruct two_val as (F2 & V2).
  destruct (fdiv_val a (of_Z 2) FA) as (FH & VH); [rewrite V2; lra|rewrite V2; apply one_127; rewrite Rabs_pos_eq; lra|]. rewrite V2 in VH.
  assert (H : 0 <= val (fdiv a (of_Z 2)) <= 1). { rewrite VH. apply rnd_between; [apply fits_0|change 1 with (bpow radix2 0); apply fits_bpow; lia|lra]. }
  set (h := fdiv a (of_Z 2)) in *. clearbody h.
  assert (HB : 0 <= val h * val b <= 2). { split; [apply Rmult_le_pos; lra|]. replace 2 with (1 * 2) by ring. apply Rmult_le_compat; lra. }
  destruct (fmul_val h b FH FB) as (FP & VP); [apply (small_127 _ 1); [lia|]; change (bpow radix2 1) with 2; rewrite Rabs_pos_eq; lra|].
  assert (P : 0 <= val (fmul h b) <= 2) by (rewrite VP; apply rnd_between; [apply fits_0|apply fits_two|exact HB]).
  set (p := fmul h b) in *. clearbody p.
  destruct (fdiv_val p (of_Z 2) FP) as (FQ & VQ); [rewrite V2; lra|rewrite V2; apply one_127; rewrite Rabs_pos_eq; lra|]. rewrite V2 in VQ.
  split; [exact FQ|]. rewrite VQ, VP, VH. reflexivity.
Qed.

(* the exact tent, written without the model *)
Definition tent_exact (x y : R) : R := Rmax 0 (1 - Rabs x / 2) * Rmax 0 (1 - Rabs y / 2).

(* For all offsets up to 2^60 the weight is a number in [0, 1]; it is positive exactly inside the
   range of two pixels and 1 at the centre; it depends on the distances only and never grows
   with them, and it differs from the exact one by at most 2^-21. *)
Theorem float_tent : forall x y, fin x -> fin y -> Rabs (val x) <= bpow radix2 60 -> Rabs (val y) <= bpow radix2 60 ->
  fin (f_tent x y) /\ 0 <= val (f_tent x y) <= 1 /\
  (0 < val (f_tent x y) <-> Rabs (val x) < 2 /\ Rabs (val y) < 2) /\
  (val x = 0 -> val y = 0 -> val (f_tent x y) = 1) /\
  Rabs (val (f_tent x y) - tent_exact (val x) (val y)) <= bpow radix2 (-21) /\
  (forall x' y', fin x' -> fin y' -> Rabs (val x') <= Rabs (val x) -> Rabs (val y') <= Rabs (val y) -> val (f_tent x y) <= val (f_tent x' y')).
Proof.
  intros x y FX FY X Y. destruct (tent_val x y FX FY X Y) as (F & V). split; [exact F|]. rewrite V.
  destruct (side_bounds x FX X) as (FA & VA & A & ZA & PA & EA). destruct (side_bounds y FY Y) as (FB & VB & B & ZB & PB & EB).
  assert (H : 0 <= rnd (val (f_side x) / 2) <= 1). { apply rnd_between; [apply fits_0|change 1 with (bpow radix2 0); apply fits_bpow; lia|lra]. }
  assert (HB : 0 <= rnd (val (f_side x) / 2) * val (f_side y) <= 2). { split; [apply Rmult_le_pos; lra|]. apply Rle_trans with (1 * 2); [apply Rmult_le_compat; lra|lra]. }
  assert (P : 0 <= rnd (rnd (val (f_side x) / 2) * val (f_side y)) <= 2) by (apply rnd_between; [apply fits_0|apply fits_two|exact HB]).
  assert (Q : 0 <= rnd (rnd (rnd (val (f_side x) / 2) * val (f_side y)) / 2) <= 1). { apply rnd_between; [apply fits_0|change 1 with (bpow radix2 0); apply fits_bpow; lia|lra]. }
  assert (R1 : forall t, bpow radix2 (-149) <= t -> bpow radix2 (-149) <= rnd t) by (intros t T; rewrite <- (rnd_fits (bpow radix2 (-149))) by (apply fits_bpow; lia); apply rnd_le; exact T).
  assert (RP : forall e t, (-149 <= e)%Z -> bpow radix2 e <= t -> bpow radix2 e <= rnd t) by (intros e t L T; rewrite <- (rnd_fits (bpow radix2 e)) by (apply fits_bpow; exact L); apply rnd_le; exact T).
  split; [exact Q|]. split; [split|split; [|split]].
  - intro G. split; apply Rnot_le_lt; intro L; [rewrite (ZA L) in G|rewrite (ZB L) in G]; revert G.
    + unfold Rdiv. rewrite Rmult_0_l, rnd_0, Rmult_0_l, rnd_0, Rmult_0_l, rnd_0. lra.
    + unfold Rdiv. rewrite Rmult_0_r, rnd_0, Rmult_0_l, rnd_0. lra.
  - intros (LX & LY). specialize (PA LX). specialize (PB LY). apply Rlt_le_trans with (bpow radix2 (-48)); [apply bpow_gt_0|].
    apply RP; [lia|]. apply Rle_trans with (bpow radix2 (-47) / 2); [change (-47)%Z with (-48 + 1)%Z; rewrite bpow_plus; change (bpow radix2 1) with 2; lra|].
    apply Rmult_le_compat_r; [lra|]. apply RP; [lia|]. change (-47)%Z with (-24 + -23)%Z. rewrite bpow_plus. apply Rmult_le_compat; try apply bpow_ge_0; [|exact PB].
    apply RP; [lia|]. change (-23)%Z with (-24 + 1)%Z in PA. rewrite bpow_plus in PA. change (bpow radix2 1) with 2 in PA. lra.
  - intros ZX ZY. rewrite VA, VB, ZX, ZY, Rabs_R0, Rminus_0_r, (rnd_fits 2 fits_two), Rmax_right by lra.
    replace (2 / 2) with 1 by field. rewrite rnd_one, Rmult_1_l, (rnd_fits 2 fits_two). replace (2 / 2) with 1 by field. apply rnd_one.
  - unfold tent_exact. set (a0 := Rmax 0 (2 - Rabs (val x))) in *. set (b0 := Rmax 0 (2 - Rabs (val y))) in *.
    assert (HM : forall t, Rmax 0 (1 - Rabs t / 2) = Rmax 0 (2 - Rabs t) / 2).
    { intro t. destruct (Rle_or_lt 2 (Rabs t)) as [L|L]; [rewrite !Rmax_left by lra; lra|rewrite !Rmax_right by lra; lra]. }
    rewrite !HM. fold a0. fold b0.
    assert (A0 : 0 <= a0 <= 2) by (unfold a0; split; [apply Rmax_l|apply Rmax_lub; pose proof (Rabs_pos (val x)); lra]).
    assert (B0 : 0 <= b0 <= 2) by (unfold b0; split; [apply Rmax_l|apply Rmax_lub; pose proof (Rabs_pos (val y)); lra]).
    clearbody a0 b0. set (a := val (f_side x)) in *. set (b := val (f_side y)) in *. clearbody a b.
    assert (E1 : Rabs (a / 2) <= bpow radix2 0) by (change (bpow radix2 0) with 1; rewrite Rabs_pos_eq; lra). apply half_error in E1; [|lia].
    assert (E2 : Rabs (rnd (a / 2) * b) <= bpow radix2 1) by (change (bpow radix2 1) with 2; rewrite Rabs_pos_eq; lra). apply half_error in E2; [|lia].
    assert (E3 : Rabs (rnd (rnd (a / 2) * b) / 2) <= bpow radix2 0) by (change (bpow radix2 0) with 1; rewrite Rabs_pos_eq; lra). apply half_error in E3; [|lia].
    assert (B25 : bpow radix2 (0 - 25) = u24 / 2) by (unfold u24; cbn; lra). assert (B24 : bpow radix2 (1 - 25) = u24) by (unfold u24; cbn; lra). rewrite B25 in E1, E3. rewrite B24 in E2.
    set (h := rnd (a / 2)) in *. set (p := rnd (h * b)) in *. set (w := rnd (p / 2)) in *. clearbody h p w.
    assert (HE : Rabs (h - a0 / 2) <= u24) by (apply abs_both in E1; apply abs_both in EA; apply Rabs_le; lra).
    assert (HBE : Rabs ((h - a0 / 2) * b) <= u24 * 2) by (apply mult_abs; [exact HE|rewrite Rabs_pos_eq; lra]).
    assert (ABE : Rabs (a0 / 2 * (b - b0)) <= 1 * u24) by (apply mult_abs; [rewrite Rabs_pos_eq; lra|exact EB]).
    replace (a0 / 2 * (b0 / 2)) with ((h * b - (h - a0 / 2) * b - a0 / 2 * (b - b0)) / 2) by field.
    apply abs_both in HBE. apply abs_both in ABE. apply abs_both in E2. apply abs_both in E3. assert (B21 : bpow radix2 (-21) = 8 * u24) by (unfold u24; cbn; lra). rewrite B21.
    set (m1 := (h - a0 / 2) * b) in *. set (m2 := a0 / 2 * (b - b0)) in *. set (m3 := h * b) in *. clearbody m1 m2 m3. clear - HBE ABE E2 E3. unfold u24 in *. apply Rabs_le. lra.
  - intros x' y' FX' FY' LX LY. assert (X' : Rabs (val x') <= bpow radix2 60) by lra. assert (Y' : Rabs (val y') <= bpow radix2 60) by lra.
    destruct (tent_val x' y' FX' FY' X' Y') as (_ & V'). rewrite V'.
    destruct (side_bounds x' FX' X') as (_ & VA' & A' & _). destruct (side_bounds y' FY' Y') as (_ & VB' & B' & _).
    assert (MX : val (f_side x) <= val (f_side x')) by (rewrite VA, VA'; apply Rle_max_compat_l, rnd_le; lra).
    assert (MY : val (f_side y) <= val (f_side y')) by (rewrite VB, VB'; apply Rle_max_compat_l, rnd_le; lra).
    apply rnd_le, Rmult_le_compat_r; [lra|]. apply rnd_le, Rmult_le_compat; [lra|lra|apply rnd_le; lra|lra].
Qed.
Print Assumptions float_tent.

(* a sample a quarter of a pixel to the right of the centre *)
Example tent_case : fin (fnum 1 (-2)) /\ Rabs (val (fnum 1 (-2))) <= bpow radix2 60 /\ B2SF (f_tent (fnum 1 (-2)) fzero) = B2SF (fnum 7 (-3)).
Proof.
  split; [reflexivity|]. split; [|vm_compute; reflexivity]. assert (A : val (fnum 1 (-2)) = / 4) by (erewrite lit_val by (vm_compute; reflexivity); cbn; lra).
  rewrite A, Rabs_pos_eq by lra. apply Rle_trans with (bpow radix2 0); [cbn; lra|apply bpow_le; lia].
Qed.
