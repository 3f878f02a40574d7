(* Clamping in single precision. *)
From Coq Require Import ZArith Reals Lra Lia Bool.
From Flocq Require Import Core.Core IEEE754.BinarySingleNaN.
From Verif Require Import Common FltModel FltFacts FltProps FGgxModel FltVecProps FClampModel.
Local Open Scope R_scope.

Lemma clamp_finite : forall x lo hi, fin x -> fin lo -> fin hi -> val lo <= val hi ->
  fin (f_clamp x lo hi) /\ val (f_clamp x lo hi) = Rmax (val lo) (Rmin (val hi) (val x)).
Proof.
  intros x lo hi FX FL FH L. unfold f_clamp, fgt. fold (flt hi x). destruct (flt x lo) eqn:E0.
  - apply (flt_val _ _ FX FL) in E0. split; [exact FL|]. rewrite Rmin_right by lra. rewrite Rmax_left; lra.
  - assert (G0 : val lo <= val x) by (apply Rnot_lt_le; intro N; apply (flt_val _ _ FX FL) in N; rewrite N in E0; discriminate E0). destruct (flt hi x) eqn:E1.
    + apply (flt_val _ _ FH FX) in E1. split; [exact FH|]. rewrite Rmin_left by lra. rewrite Rmax_right; lra.
    + assert (G1 : val x <= val hi) by (apply Rnot_lt_le; intro N; apply (flt_val _ _ FH FX) in N; rewrite N in E1; discriminate E1). split; [exact FX|]. rewrite Rmin_right by lra. rewrite Rmax_right; lra.
Qed.

Lemma clamp_top : forall lo hi, fin lo -> fin hi -> f_clamp (B754_infinity false) lo hi = hi.
Proof. intros lo hi FL FH. destruct lo as [?|?| |[] ? ? ?], hi as [?|?| |[] ? ? ?]; try discriminate FL; try discriminate FH; reflexivity. Qed.
Lemma clamp_bottom : forall lo hi, fin lo -> fin hi -> f_clamp (B754_infinity true) lo hi = lo.
Proof. intros lo hi FL FH. destruct lo as [?|?| |[] ? ? ?], hi as [?|?| |[] ? ? ?]; try discriminate FL; try discriminate FH; reflexivity. Qed.

(* C439: the nearest number within the bounds, also for the infinities *)
Definition nearest_within (x : f32) (lo hi r : R) : Prop :=
  lo <= r <= hi /\ match x with
  | B754_infinity false => r = hi
  | B754_infinity true => r = lo
  | _ => forall y, lo <= y <= hi -> Rabs (r - val x) <= Rabs (y - val x)
  end.
Theorem float_clamp : forall x lo hi, is_nan x = false -> fin lo -> fin hi -> val lo <= val hi ->
  let r := f_clamp x lo hi in fin r /\ nearest_within x (val lo) (val hi) (val r) /\ f_clamp r lo hi = r.
Proof.
  intros x lo hi NX FL FH L. cbv zeta.
  assert (W : fin (f_clamp x lo hi) /\ nearest_within x (val lo) (val hi) (val (f_clamp x lo hi))).
  { assert (FIN : fin x -> fin (f_clamp x lo hi) /\ val lo <= val (f_clamp x lo hi) <= val hi /\ forall y, val lo <= y <= val hi -> Rabs (val (f_clamp x lo hi) - val x) <= Rabs (y - val x)).
    { intro FX. destruct (clamp_finite x lo hi FX FL FH L) as (F & V). split; [exact F|]. rewrite V. unfold Rmax, Rmin. split; [repeat destruct (Rle_dec _ _); lra|].
      intros y Y. repeat destruct (Rle_dec _ _); unfold Rabs; repeat destruct (Rcase_abs _); lra. }
    destruct x as [s|s| |s m e H].
    - destruct (FIN eq_refl) as (F & B & N). split; [exact F|]. split; [exact B|exact N].
    - clear FIN. destruct s; [rewrite clamp_bottom by assumption; split; [exact FL|]; split; [lra|reflexivity]|rewrite clamp_top by assumption; split; [exact FH|]; split; [lra|reflexivity]].
    - discriminate NX.
    - destruct (FIN eq_refl) as (F & B & N). split; [exact F|]. split; [exact B|exact N]. }
  destruct W as (F & W). split; [exact F|]. split; [exact W|]. destruct W as (B & _). set (r := f_clamp x lo hi) in *. clearbody r. unfold f_clamp, fgt. fold (flt hi r).
  destruct (flt r lo) eqn:E0; [apply (flt_val _ _ F FL) in E0; lra|]. destruct (flt hi r) eqn:E1; [apply (flt_val _ _ FH F) in E1; lra|]. reflexivity.
Qed.
Example clamp_case : is_nan (of_Z 300) = false /\ fin fzero /\ fin (of_Z 255) /\ val fzero <= val (of_Z 255).
Proof. destruct fzero_val as (F & V). destruct (of_Z_exact 255) as (F' & V'); [lia|]. split; [vm_compute; reflexivity|]. split; [exact F|]. split; [exact F'|]. rewrite V, V'. lra. Qed.
Print Assumptions float_clamp.

(* C439 for vectors: every coordinate within its own bounds *)
Theorem float_clamp_vec : forall v lo hi, is_nan (fx v) = false -> is_nan (fy v) = false -> is_nan (fz v) = false -> vfin lo -> vfin hi ->
  val (fx lo) <= val (fx hi) -> val (fy lo) <= val (fy hi) -> val (fz lo) <= val (fz hi) ->
  let w := f_clamp_vec v lo hi in vfin w /\ nearest_within (fx v) (val (fx lo)) (val (fx hi)) (val (fx w)) /\
  nearest_within (fy v) (val (fy lo)) (val (fy hi)) (val (fy w)) /\ nearest_within (fz v) (val (fz lo)) (val (fz hi)) (val (fz w)).
Proof.
  intros v lo hi NX NY NZ (LX & LY & LZ) (HX & HY & HZ) X Y Z_. cbv zeta. unfold f_clamp_vec. cbn [fx fy fz].
  destruct (float_clamp (fx v) (fx lo) (fx hi) NX LX HX X) as (FX & BX & _). destruct (float_clamp (fy v) (fy lo) (fy hi) NY LY HY Y) as (FY & BY & _). destruct (float_clamp (fz v) (fz lo) (fz hi) NZ LZ HZ Z_) as (FZ & BZ & _).
  split; [split; [exact FX|split; [exact FY|exact FZ]]|]. split; [exact BX|]. split; [exact BY|exact BZ].
Qed.
Example clamp_vec_case : let lo := mk_fvec fzero fzero fzero in let hi := mk_fvec (of_Z 255) (of_Z 1) (of_Z 2) in vfin lo /\ vfin hi /\
  val (fx lo) <= val (fx hi) /\ val (fy lo) <= val (fy hi) /\ val (fz lo) <= val (fz hi).
Proof.
  destruct fzero_val as (F & V). destruct (of_Z_exact 255) as (F1 & V1); [lia|]. destruct (of_Z_exact 1) as (F2 & V2); [lia|]. destruct (of_Z_exact 2) as (F3 & V3); [lia|].
  cbv zeta. cbn [fx fy fz]. split; [split; [exact F|split; [exact F|exact F]]|]. split; [split; [exact F1|split; [exact F2|exact F3]]|]. rewrite V, V1, V2, V3. lra.
Qed.
Print Assumptions float_clamp_vec.

(* C440: colours of the scene file convert to bytes without undefined behaviour *)
Theorem float_colour_byte :
  (forall x, fin x -> f_colour_byte x = Ok (Z.max 0 (Z.min 255 (Ztrunc (val x))))) /\
  f_colour_byte (B754_infinity false) = Ok 255%Z /\ f_colour_byte (B754_infinity true) = Ok 0%Z.
Proof.
  destruct fzero_val as (F0 & V0). destruct (of_Z_exact 255) as (F2 & V2); [lia|].
  split; [|split; vm_compute; reflexivity]. intros x FX. unfold f_colour_byte, to_range. destruct (clamp_finite x fzero (of_Z 255) FX F0 F2 ltac:(rewrite V0, V2; lra)) as (F & V). rewrite V0, V2 in V.
  change (is_finite (f_clamp x fzero (of_Z 255))) with (is_finite (f_clamp x fzero (of_Z 255))). rewrite F. cbv zeta. rewrite trunc_eq, V. clear F V.
  assert (E : Ztrunc (Rmax 0 (Rmin 255 (val x))) = Z.max 0 (Z.min 255 (Ztrunc (val x)))).
  { destruct (Rle_lt_dec (val x) 0) as [A|A].
    - rewrite Rmin_right by lra. rewrite Rmax_left by lra. change 0 with (IZR 0). rewrite Ztrunc_IZR. apply Ztrunc_le in A. change 0 with (IZR 0) in A. rewrite Ztrunc_IZR in A. lia.
    - destruct (Rle_lt_dec (val x) 255) as [B|B].
      + rewrite Rmin_right by lra. rewrite Rmax_right by lra. apply Rlt_le in A. apply Ztrunc_le in A. apply Ztrunc_le in B. change 0 with (IZR 0) in A. rewrite Ztrunc_IZR in *. lia.
      + rewrite Rmin_left by lra. rewrite Rmax_right by lra. rewrite Ztrunc_IZR. apply Rlt_le in B. apply Ztrunc_le in B. rewrite Ztrunc_IZR in B. lia. }
  rewrite E. set (n := Z.max 0 (Z.min 255 (Ztrunc (val x)))) in *. assert (N : (0 <= n <= 255)%Z) by lia. clearbody n. destruct (Z.leb_spec 0 n); [|lia]. destruct (Z.leb_spec n 255); [|lia]. reflexivity.
Qed.
Example colour_byte_case : f_colour_byte (fnum 511 (-1)) = Ok 255%Z /\ f_colour_byte (fnum (-3) (-1)) = Ok 0%Z /\ f_colour_byte (fnum 7 (-1)) = Ok 3%Z.
Proof. repeat split; vm_compute; reflexivity. Qed.
Print Assumptions float_colour_byte.

(* C441: every coordinate of a saturated vector is in [0, 1], unless it is not a number *)
Theorem float_saturate : forall v, is_nan (fx v) = false -> is_nan (fy v) = false -> is_nan (fz v) = false ->
  let w := f_saturate v in vfin w /\ 0 <= val (fx w) <= 1 /\ 0 <= val (fy w) <= 1 /\ 0 <= val (fz w) <= 1 /\ f_saturate w = w /\
  (vfin v -> 0 <= val (fx v) <= 1 -> 0 <= val (fy v) <= 1 -> 0 <= val (fz v) <= 1 -> w = v).
Proof.
  intros v NX NY NZ. cbv zeta. destruct fzero_val as (F0 & V0). destruct fone_val as (F1 & V1). assert (L : val fzero <= val fone) by (rewrite V0, V1; lra).
  destruct (float_clamp (fx v) fzero fone NX F0 F1 L) as (FX & (BX & _) & IX). destruct (float_clamp (fy v) fzero fone NY F0 F1 L) as (FY & (BY & _) & IY). destruct (float_clamp (fz v) fzero fone NZ F0 F1 L) as (FZ & (BZ & _) & IZ_).
  rewrite V0, V1 in BX, BY, BZ. unfold f_saturate, f_clamp_vec. cbn [fx fy fz]. split; [split; [exact FX|split; [exact FY|exact FZ]]|]. split; [exact BX|]. split; [exact BY|]. split; [exact BZ|]. split; [rewrite IX, IY, IZ_; reflexivity|].
  intros (GX & GY & GZ) CX CY CZ.
  assert (K : forall x, fin x -> 0 <= val x <= 1 -> f_clamp x fzero fone = x).
  { intros x F C. unfold f_clamp, fgt. fold (flt fone x). destruct (flt x fzero) eqn:E0; [apply (flt_val _ _ F F0) in E0; lra|]. destruct (flt fone x) eqn:E1; [apply (flt_val _ _ F1 F) in E1; lra|]. reflexivity. }
  rewrite (K _ GX CX), (K _ GY CY), (K _ GZ CZ). destruct v; reflexivity.
Qed.
Example saturate_case : let v := mk_fvec (B754_infinity false) (of_Z (-2)) (fnum 1 (-1)) in is_nan (fx v) = false /\ is_nan (fy v) = false /\ is_nan (fz v) = false.
Proof. vm_compute. repeat split. Qed.
Print Assumptions float_saturate.

(* C442: numbers that are none pass *)
Theorem float_clamp_nan_refuted : forall lo hi, f_clamp B754_nan lo hi = B754_nan /\ f_colour_byte B754_nan = UB.
Proof. intros lo hi. split; [|vm_compute; reflexivity]. destruct lo, hi; reflexivity. Qed.
Print Assumptions float_clamp_nan_refuted.
