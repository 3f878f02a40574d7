(* Offsets of pixels from samples, and coordinates in textures, in single precision. *)
From Coq Require Import ZArith Reals Lra Lia Bool.
From Flocq Require Import Core.Core IEEE754.BinarySingleNaN.
From Verif Require Import Common FltModel FltFacts FltProps FExtFacts FNearFacts FTexModel FTexProps FFilterModel.
Local Open Scope R_scope.

(* The filter is evaluated at the distance of the centre of the pixel from the sample: x + 1/2 - pos up to
   the rounding of two operations, and exactly 0 for a sample in the centre of the pixel. *)
Theorem float_filter_offset : forall x pos, (0 <= x <= 65535)%Z -> fin pos -> 0 <= val pos <= 65536 ->
  let o := f_offset x pos in
  fin o /\ Rabs (val o - (IZR x + / 2 - val pos)) <= (val pos + Rabs (IZR x + / 2 - val pos) + 3 / 2) / 16777216 /\
  (val pos = IZR x + / 2 -> val o = 0).
Proof.
  intros x pos HX FP P. cbv zeta. unfold f_offset. destruct half_val as (FH & VH). destruct (of_Z_exact x) as (FX & VX); [lia|].
  assert (X : 0 <= IZR x <= 65535) by (split; apply IZR_le; lia).
  pose proof (near_exact pos (val pos) FP ltac:(rewrite Rabs_pos_eq; lra)) as NP. pose proof (near_exact _ (/ 2) FH ltac:(rewrite VH, Rabs_pos_eq; lra)) as NH. rewrite VH in NH. pose proof (near_exact (of_Z x) 65535 FX ltac:(rewrite VX, Rabs_pos_eq; lra)) as NX. rewrite VX in NX.
  assert (N1 : near (fsub pos (fnum 1 (-1))) (val pos - / 2) (val pos + / 2) (val pos + 1)).
  { eapply near_weaken; [apply (near_sub _ _ _ _ _ _ _ _ (val pos + / 2) NP NH)| |]; try lra. apply Rabs_le. lra. }
  assert (E0 : IZR x - (val pos - / 2) = IZR x + / 2 - val pos) by ring.
  pose proof (near_sub _ _ _ _ _ _ _ _ (Rabs (IZR x + / 2 - val pos)) NX N1 ltac:(rewrite E0; lra) ltac:(lra) ltac:(lra) ltac:(lra) ltac:(lra)) as N2. rewrite E0 in N2. destruct N2 as (F & E & _).
  split; [exact F|]. split; [eapply Rle_trans; [exact E|]; unfold u24; lra|]. intro C. clear E F.
  destruct N1 as (F1 & _ & _). destruct (fsub_val pos (fnum 1 (-1)) FP FH) as (_ & V1); [apply big_127; rewrite VH; apply Rabs_le; lra|]. rewrite VH, C in V1. replace (IZR x + / 2 - / 2) with (val (of_Z x)) in V1 by (rewrite VX; lra). rewrite (rnd_fits _ (fits_val _)) in V1.
  destruct (fsub_val (of_Z x) (fsub pos (fnum 1 (-1))) FX F1) as (_ & V2); rewrite V1 in *; [rewrite Rminus_diag_eq, Rabs_R0 by reflexivity; apply bpow_ge_0|]. rewrite V2, Rminus_diag_eq by reflexivity. apply rnd_0.
Qed.
Example offset_case : fin (fnum 7 (-1)) /\ 0 <= val (fnum 7 (-1)) <= 65536 /\ val (fnum 7 (-1)) = IZR 3 + / 2.
Proof.
  assert (V : val (fnum 7 (-1)) = IZR 14680064 * bpow radix2 (-22)) by (apply lit_val; vm_compute; reflexivity). assert (B : bpow radix2 (-22) = / 4194304) by (cbn; lra). rewrite B in V.
  split; [vm_compute; reflexivity|]. rewrite V. lra.
Qed.
Print Assumptions float_filter_offset.

(* Coordinates in a texture are scaled, then shifted; with scale 1 and shift 0 nothing changes. *)
Theorem float_texture_coordinate : forall uv scale shift, fin uv -> fin scale -> fin shift ->
  Rabs (val uv) <= 1024 -> Rabs (val scale) <= 1024 -> Rabs (val shift) <= 1048576 ->
  let t := f_texcoord uv scale shift in
  fin t /\ Rabs (val t - (val uv * val scale + val shift)) <= (2 * Rabs (val uv * val scale) + Rabs (val shift) + 5 / 4) / 16777216 /\
  (val scale = 1 -> val shift = 0 -> val t = val uv).
Proof.
  intros uv scale shift FU FS FT U S T. cbv zeta. unfold f_texcoord.
  pose proof (near_exact uv 1024 FU U) as NU. pose proof (near_exact scale 1024 FS S) as NS. pose proof (near_exact shift 1048576 FT T) as NT.
  assert (P : Rabs (val uv * val scale) <= 1048576) by (rewrite Rabs_mult; replace 1048576 with (1024 * 1024) by ring; apply Rmult_le_compat; try apply Rabs_pos; assumption).
  assert (N1 : near (fmul uv scale) (val uv * val scale) 1048576 (Rabs (val uv * val scale) + 3 / 4)).
  { eapply near_weaken; [apply (near_mul _ _ _ _ _ _ _ _ (Rabs (val uv * val scale)) NU NS)| |]; try lra. }
  pose proof (near_add _ _ _ _ _ _ _ _ (Rabs (val uv * val scale) + Rabs (val shift)) N1 NT ltac:(apply Rabs_triang) ltac:(lra) ltac:(lra) ltac:(lra) ltac:(lra)) as (F & E & _).
  split; [exact F|]. split; [eapply Rle_trans; [exact E|]; unfold u24; lra|]. intros S1 T0. clear E F.
  destruct (fmul_val uv scale FU FS) as (F1 & V1); [apply big_127; lra|]. rewrite S1, Rmult_1_r, (rnd_fits _ (fits_val _)) in V1.
  destruct (fadd_val (fmul uv scale) shift F1 FT) as (_ & V2); rewrite V1, T0, Rplus_0_r in *; [apply big_127; lra|]. rewrite V2. apply rnd_fits, fits_val.
Qed.
Example texcoord_case : fin (fnum 1 (-1)) /\ fin (of_Z 4) /\ fin (of_Z (-3)) /\ Rabs (val (fnum 1 (-1))) <= 1024 /\ Rabs (val (of_Z 4)) <= 1024 /\ Rabs (val (of_Z (-3))) <= 1048576.
Proof.
  destruct half_val as (F & V). destruct (of_Z_exact 4) as (F4 & V4); [lia|]. destruct (of_Z_exact (-3)) as (F3 & V3); [lia|]. rewrite V, V4, V3. repeat (split; [assumption|]). split; [|split]; apply Rabs_le; lra.
Qed.
Print Assumptions float_texture_coordinate.
