(* Theorems about FltModel: what rounding does to samples, the film, lights, faces and
   vectors. *)
From Coq Require Import ZArith Reals Lra Lia List.
From Flocq Require Import Core.Core IEEE754.BinarySingleNaN.
From Flocq Require Relative.
From Verif Require Import Common FltModel FltFacts.
Import ListNotations.
Local Open Scope R_scope.

(* powers of two as fractions *)
Definition u24 : R := / 16777216.
Lemma u24_bpow : bpow radix2 (-24) = u24.
Proof. unfold u24; cbn; lra. Qed.
Lemma u32_bpow : bpow radix2 (-32) = / 4294967296.
Proof. cbn; lra. Qed.
Lemma tiny_bpow : 0 < bpow radix2 (-150) <= / 1125899906842624.
Proof.
  split; [apply bpow_gt_0 |]; apply Rle_trans with (bpow radix2 (-50)); [apply bpow_le; lia |].
  cbn; lra.
Qed.

Lemma err : forall x, Rabs (rnd x - x) <= u24 * Rabs x + / 1125899906842624.
Proof.
  intro x; pose proof (rnd_err x) as E; rewrite u24_bpow in E; pose proof tiny_bpow; lra.
Qed.

Lemma abs_bounds : forall x b, Rabs x <= b <-> - b <= x <= b.
Proof. intros x b; unfold Rabs; destruct (Rcase_abs x); lra. Qed.

Lemma rand_val : forall z, (0 <= z < 2 ^ 32)%Z ->
  fin (f_rand z) /\ 0 <= val (f_rand z) <= 1 /\ Rabs (val (f_rand z) - IZR z / 4294967296) <= / 8388608.
Proof.
  intros z Z; destruct (of_Z_val z) as [F V]; [lia |].
  assert (ZR : 0 <= IZR z <= 4294967296) by (split; [apply (IZR_le 0); lia | apply (IZR_le z 4294967296); lia]).
  assert (B : 0 <= rnd (IZR z) <= 4294967296).
  { apply rnd_between; [| | exact ZR].
    - replace 0 with (IZR 0) by reflexivity; apply fits_Z; lia.
    - replace 4294967296 with (bpow radix2 32) by (cbn; lra); apply fits_bpow; lia. }
  destruct (fnum_val 1 (-32)) as [F' V'].
  { rewrite Rmult_1_l, Rabs_pos_eq by apply bpow_ge_0; apply bpow_le; lia. }
  assert (V2 : val (fnum 1 (-32)) = / 4294967296).
  { rewrite V', Rmult_1_l, rnd_fits by (apply fits_bpow; lia); apply u32_bpow. }
  assert (P : 0 <= rnd (IZR z) * / 4294967296 <= 1) by lra.
  destruct (fmul_val (of_Z z) (fnum 1 (-32)) F F') as [F3 V3].
  { rewrite V, V2, Rabs_pos_eq by apply P; apply Rle_trans with 1; [apply P |].
    replace 1 with (bpow radix2 0) by reflexivity; apply bpow_le; lia. }
  rewrite V, V2 in V3; fold (f_rand z) in F3, V3.
  split; [exact F3 |]; rewrite V3; split.
  - apply rnd_between; [| | exact P]; [replace 0 with (IZR 0) by reflexivity | replace 1 with (IZR 1) by reflexivity]; apply fits_Z; lia.
  - pose proof (err (IZR z)) as E1; pose proof (err (rnd (IZR z) * / 4294967296)) as E2.
    rewrite (Rabs_pos_eq (IZR z)) in E1 by lra; rewrite (Rabs_pos_eq (rnd (IZR z) * / 4294967296)) in E2 by lra.
    apply abs_bounds in E1; apply abs_bounds in E2; apply abs_bounds; unfold u24 in *.
    set (a := rnd (IZR z)) in *; set (b := rnd (a * / 4294967296)) in *; lra.
Qed.

Lemma big : forall n, (n <= 2 ^ 126)%Z -> forall x, Rabs x <= IZR n -> Rabs x <= bpow radix2 127.
Proof.
  intros n N x X; apply Rle_trans with (1 := X); replace (bpow radix2 127) with (IZR (2 ^ 127)) by reflexivity; apply IZR_le; lia.
Qed.

(* C308: positions of the random sampler *)
Theorem float_random_positions : forall next z, (0 <= next < 2 ^ 24)%Z -> (0 <= z < 2 ^ 32)%Z ->
  let p := random_pos next z in
  fin p /\ IZR next <= val p <= IZR next + 1 /\
  Rabs (val p - (IZR next + IZR z / 4294967296)) <= (IZR next + 4) / 16777216.
Proof.
  intros next z N Z p; destruct (rand_val z Z) as (FR & BR & ER); destruct (of_Z_exact next) as [FN VN]; [lia |].
  assert (NR : 0 <= IZR next <= 16777215) by (split; [apply (IZR_le 0); lia | apply (IZR_le next 16777215); lia]).
  destruct (fadd_val (of_Z next) (f_rand z) FN FR) as [F V].
  { rewrite VN; apply (big (2 ^ 24)); [lia |]; apply abs_bounds; change (IZR (2 ^ 24)) with 16777216; lra. }
  rewrite VN in V; split; [exact F |]; unfold p, random_pos; rewrite V; split.
  - replace (IZR next + 1) with (IZR (next + 1)) by (rewrite plus_IZR; reflexivity).
    apply rnd_between; [apply fits_Z; lia | apply fits_Z; lia | rewrite plus_IZR; lra].
  - pose proof (err (IZR next + val (f_rand z))) as E; rewrite (Rabs_pos_eq (IZR next + val (f_rand z))) in E by lra.
    apply abs_bounds in E; apply abs_bounds in ER; apply abs_bounds; unfold u24 in *.
    set (a := rnd (IZR next + val (f_rand z))) in *; lra.
Qed.
Print Assumptions float_random_positions.

Example float_random_positions_ex : val (random_pos 7 (2 ^ 31)) = 7.5.
Proof.
  unfold val; assert (E : B2SF (random_pos 7 (2 ^ 31)) = SpecFloat.S754_finite false 15728640 (-21)) by (vm_compute; reflexivity).
  rewrite <- SF2R_B2SF, E; unfold SF2R, F2R; cbn; lra.
Qed.

Lemma lit_val : forall x m e, B2SF x = SpecFloat.S754_finite false m e -> val x = IZR (Zpos m) * bpow radix2 e.
Proof. intros x m e E; unfold val; rewrite <- SF2R_B2SF, E; reflexivity. Qed.

(* the largest float below a float of at least 2 is at least 2^-22 below it, for whole
   numbers from 3 *)
Lemma near_top : forall n y, (3 <= n <= 2 ^ 24)%Z -> IZR n - / 8388608 < y <= IZR n -> rnd y = IZR n.
Proof.
  intros n y N [L U]; assert (FN : fits (IZR n)) by (apply fits_Z; lia).
  assert (NR : 3 <= IZR n) by (apply (IZR_le 3); lia).
  apply Rle_antisym; [apply (rnd_between y 0 (IZR n)); [replace 0 with (IZR 0) by reflexivity; apply fits_Z; lia | exact FN | lra] |].
  apply round_N_ge_midp; auto with typeclass_instances.
  assert (P : pred radix2 (FLT_exp (-149) 24) (IZR n) <= IZR n - / 4194304).
  { replace (IZR n - / 4194304) with (IZR (n * 4194304 - 1) * bpow radix2 (-22)).
    2: { rewrite minus_IZR, mult_IZR; replace (bpow radix2 (-22)) with (/ 4194304) by (cbn; lra); field. }
    apply Rnot_lt_le; intro Q.
    (* a float strictly between would be a multiple of 2^-22 *)
    set (p := pred radix2 (FLT_exp (-149) 24) (IZR n)) in *.
    assert (FP : fits p) by (apply generic_format_pred; auto with typeclass_instances).
    assert (PN : p < IZR n) by (apply pred_lt_id; lra).
    assert (P2 : 2 < p).
    { apply Rle_lt_trans with (2 := Q); replace (bpow radix2 (-22)) with (/ 4194304) by (cbn; lra).
      rewrite minus_IZR, mult_IZR; lra. }
    pose proof FP as FP'; unfold fits, generic_format, F2R in FP'; cbn [Fnum Fexp] in FP'.
    set (c := cexp radix2 (FLT_exp (-149) 24) p) in *; set (m := Ztrunc (scaled_mantissa radix2 (FLT_exp (-149) 24) p)) in *.
    assert (C : (-22 <= c)%Z).
    { unfold c, cexp, FLT_exp; assert ((2 <= mag radix2 p)%Z); [| lia].
      apply mag_ge_bpow; rewrite Rabs_pos_eq by lra; cbn; lra. }
    assert (E : p = IZR (m * 2 ^ (c + 22)) * bpow radix2 (-22)).
    { rewrite FP' at 1; rewrite mult_IZR.
      replace (IZR (2 ^ (c + 22))) with (bpow radix2 (c + 22)) by (symmetry; apply (IZR_Zpower radix2); lia).
      rewrite Rmult_assoc, <- bpow_plus; do 2 f_equal; lia. }
    rewrite E in Q, PN; apply Rmult_lt_reg_r in Q; [| apply bpow_gt_0]; apply lt_IZR in Q.
    replace (IZR n) with (IZR (n * 4194304) * bpow radix2 (-22)) in PN.
    2: { rewrite mult_IZR; replace (bpow radix2 (-22)) with (/ 4194304) by (cbn; lra); field. }
    apply Rmult_lt_reg_r in PN; [| apply bpow_gt_0]; apply lt_IZR in PN; lia. }
  lra.
Qed.

(* C309: a sample may lie in the next pixel *)
Theorem float_next_pixel_refuted : forall next, (2 <= next < 2 ^ 24)%Z ->
  val (f_rand (2 ^ 32 - 256)) < 1 /\ val (random_pos next (2 ^ 32 - 256)) = IZR next + 1.
Proof.
  intros next N.
  assert (V : val (f_rand (2 ^ 32 - 256)) = 1 - / 16777216).
  { rewrite (lit_val _ 16777215 (-24)) by (vm_compute; reflexivity); cbn; lra. }
  split; [rewrite V; lra |].
  destruct (rand_val (2 ^ 32 - 256)) as (FR & BR & _); [lia |]; destruct (of_Z_exact next) as [FN VN]; [lia |].
  assert (NR : 0 <= IZR next <= 16777215) by (split; [apply (IZR_le 0); lia | apply (IZR_le next 16777215); lia]).
  destruct (fadd_val (of_Z next) (f_rand (2 ^ 32 - 256)) FN FR) as [_ W].
  { rewrite VN; apply (big (2 ^ 24)); [lia |]; apply abs_bounds; change (IZR (2 ^ 24)) with 16777216; lra. }
  unfold random_pos; rewrite W, VN, V; replace (IZR next + 1) with (IZR (next + 1)) by (rewrite plus_IZR; reflexivity).
  apply near_top; [lia |]; rewrite plus_IZR; lra.
Qed.
Print Assumptions float_next_pixel_refuted.

Lemma rel : forall x, bpow radix2 (-126) <= Rabs x -> Rabs (rnd x - x) <= u24 * Rabs x.
Proof.
  intros x X; pose proof (Relative.relative_error_N_FLT radix2 (-149) 24 eq_refl (fun n => negb (Z.even n)) x) as E.
  cbv zeta in E; specialize (E X).
  change (bpow radix2 (Z.opp 24 + 1)) with (bpow radix2 (-23)) in E; replace (/ 2 * bpow radix2 (-23)) with u24 in E by (unfold u24; cbn; lra); exact E.
Qed.

Lemma tie_one : rnd (1 + u24) = 1.
Proof.
  destruct (fnum_val 16777217 (-24)) as [_ V].
  { replace (IZR 16777217 * bpow radix2 (-24)) with (1 + u24) by (unfold u24; cbn; lra).
    apply (big 2); [lia |]; apply abs_bounds; unfold u24; lra. }
  replace (IZR 16777217 * bpow radix2 (-24)) with (1 + u24) in V by (unfold u24; cbn; lra).
  rewrite <- V, (lit_val _ 8388608 (-23)) by (vm_compute; reflexivity); cbn; lra.
Qed.

Lemma fits_0 : fits 0. Proof. apply (fits_Z 0); lia. Qed.
Lemma fits_1 : fits 1. Proof. apply (fits_Z 1); lia. Qed.

(* C310: positions of the stratified sampler *)
Theorem float_stratified_positions : forall strata next x z,
  (1 <= strata <= 4096)%Z -> (0 <= next < 2 ^ 24)%Z -> (0 <= x < strata)%Z -> (0 <= z < 2 ^ 32)%Z ->
  let p := strat_pos strata next x z in
  fin p /\ IZR next <= val p <= IZR next + 1 /\
  Rabs (val p - (IZR next + (IZR x + IZR z / 4294967296) / IZR strata)) <= (IZR next + 8) / 16777216.
Proof.
  intros n next x z N NX X Z p.
  destruct (rand_val z Z) as (FR & BR & ER); destruct (of_Z_exact next) as [FN VN]; [lia |].
  destruct (of_Z_exact x) as [FX VX]; [lia |]; destruct (of_Z_exact n) as [FS VS]; [lia |].
  destruct fone_val as [F1 V1].
  assert (NR : 1 <= IZR n <= 4096) by (split; [apply (IZR_le 1); lia | apply (IZR_le n 4096); lia]).
  assert (NXR : 0 <= IZR next <= 16777215) by (split; [apply (IZR_le 0); lia | apply (IZR_le next 16777215); lia]).
  assert (XR : 0 <= IZR x <= IZR n - 1).
  { split; [apply (IZR_le 0); lia |]; rewrite <- (minus_IZR n 1); apply IZR_le; lia. }
  assert (IN : / 4096 <= 1 / IZR n <= 1).
  { unfold Rdiv; rewrite Rmult_1_l; split; [apply Rinv_le; lra |]; rewrite <- Rinv_1; apply Rinv_le; lra. }
  assert (NI : IZR n * (1 / IZR n) = 1) by (field; lra).
  destruct (fdiv_val fone (of_Z n) F1) as [FD VD].
  { rewrite VS; lra. }
  { rewrite V1, VS; apply (big 1); [lia |]; apply abs_bounds; lra. }
  rewrite V1, VS in VD; set (d := fdiv fone (of_Z n)) in *.
  assert (ED : Rabs (val d - 1 / IZR n) <= u24 * (1 / IZR n)).
  { rewrite VD; rewrite <- (Rabs_pos_eq (1 / IZR n)) at 3 by lra; apply rel; rewrite Rabs_pos_eq by lra.
    apply Rle_trans with (bpow radix2 (-12)); [apply bpow_le; lia |]; cbn; lra. }
  assert (DB : 0 <= val d <= 1) by (rewrite VD; apply rnd_between; [apply fits_0 | apply fits_1 | lra]).
  destruct (fadd_val (of_Z x) (f_rand z) FX FR) as [FA VA].
  { rewrite VX; apply (big (2 ^ 24)); [lia |]; apply abs_bounds; change (IZR (2 ^ 24)) with 16777216; lra. }
  rewrite VX in VA; set (a := fadd (of_Z x) (f_rand z)) in *.
  assert (AB : IZR x <= val a <= IZR x + 1).
  { rewrite VA; replace (IZR x + 1) with (IZR (x + 1)) by (rewrite plus_IZR; reflexivity).
    apply rnd_between; [apply fits_Z; lia | apply fits_Z; lia | rewrite plus_IZR; lra]. }
  assert (EA : Rabs (val a - (IZR x + val (f_rand z))) <= u24 * IZR n + / 1125899906842624).
  { rewrite VA; pose proof (err (IZR x + val (f_rand z))) as E; rewrite (Rabs_pos_eq (IZR x + _)) in E by lra.
    apply Rle_trans with (1 := E); unfold u24; lra. }
  assert (AD : 0 <= val a * val d <= 1 + u24).
  { split; [apply Rmult_le_pos; lra |]; apply Rle_trans with (IZR n * val d); [apply Rmult_le_compat_r; lra |].
    apply abs_bounds in ED; apply Rle_trans with (IZR n * ((1 + u24) * (1 / IZR n))).
    - apply Rmult_le_compat_l; lra.
    - replace (IZR n * ((1 + u24) * (1 / IZR n))) with ((1 + u24) * (IZR n * (1 / IZR n))) by ring; rewrite NI; lra. }
  destruct (fmul_val a d FA FD) as [FM VM].
  { apply (big 2); [lia |]; apply abs_bounds; unfold u24 in AD; lra. }
  set (m := fmul a d) in *.
  assert (MB : 0 <= val m <= 1).
  { rewrite VM; split; [apply (rnd_between _ 0 2); [apply fits_0 | apply (fits_Z 2); lia | unfold u24 in AD; lra] |].
    rewrite <- tie_one; apply rnd_le, AD. }
  destruct (fadd_val (of_Z next) m FN FM) as [F V].
  { rewrite VN; apply (big (2 ^ 24)); [lia |]; apply abs_bounds; change (IZR (2 ^ 24)) with 16777216; lra. }
  rewrite VN in V; split; [exact F |]; unfold p, strat_pos; cbv zeta; fold d; fold a; fold m; rewrite V; split.
  { replace (IZR next + 1) with (IZR (next + 1)) by (rewrite plus_IZR; reflexivity).
    apply rnd_between; [apply fits_Z; lia | apply fits_Z; lia | rewrite plus_IZR; lra]. }
  pose proof (err (IZR next + val m)) as E4; rewrite (Rabs_pos_eq (IZR next + _)) in E4 by lra.
  pose proof (err (val a * val d)) as E3; rewrite (Rabs_pos_eq (_ * _)) in E3 by lra; rewrite <- VM in E3.
  set (r := val (f_rand z)) in *; set (zr := IZR z / 4294967296) in *.
  (* a d against (x + z) / n *)
  assert (E2 : Rabs (val a * val d - (IZR x + zr) / IZR n) <= 5 / 16777216).
  { replace (val a * val d - (IZR x + zr) / IZR n) with
      (val a * (val d - 1 / IZR n) + (val a - (IZR x + r)) * (1 / IZR n) + (r - zr) * (1 / IZR n)) by (field; lra).
    apply Rle_trans with (1 := Rabs_triang _ _); apply Rle_trans with (1 := Rplus_le_compat_r _ _ _ (Rabs_triang _ _)).
    rewrite !Rabs_mult, (Rabs_pos_eq (val a)), (Rabs_pos_eq (1 / IZR n)) by lra.
    assert (T1 : val a * Rabs (val d - 1 / IZR n) <= u24).
    { apply Rle_trans with (IZR n * (u24 * (1 / IZR n))).
      - apply Rmult_le_compat; [lra | apply Rabs_pos | lra | exact ED].
      - replace (IZR n * (u24 * (1 / IZR n))) with (u24 * (IZR n * (1 / IZR n))) by ring; rewrite NI; lra. }
    assert (T2 : Rabs (val a - (IZR x + r)) * (1 / IZR n) <= (u24 * IZR n + / 1125899906842624) * (1 / IZR n)).
    { apply Rmult_le_compat_r; [lra | exact EA]. }
    replace ((u24 * IZR n + / 1125899906842624) * (1 / IZR n)) with (u24 * (IZR n * (1 / IZR n)) + / 1125899906842624 * (1 / IZR n)) in T2 by ring.
    rewrite NI in T2.
    assert (T3 : Rabs (r - zr) * (1 / IZR n) <= / 8388608 * 1) by (apply Rmult_le_compat; [apply Rabs_pos | lra | exact ER | lra]).
    unfold u24 in *; lra. }
  apply abs_bounds in E4; apply abs_bounds in E3; apply abs_bounds in E2; apply abs_bounds; unfold u24 in *.
  set (q := (IZR x + zr) / IZR n) in *; set (ad := val a * val d) in *; clearbody q ad.
  set (v := rnd (IZR next + val m)) in *; clearbody v; clear - E4 E3 E2 MB AD; lra.
Qed.
Print Assumptions float_stratified_positions.

Example float_stratified_positions_ex : val (strat_pos 4 9 3 (2 ^ 31)) = 9.875.
Proof. rewrite (lit_val _ 10354688 (-20)) by (vm_compute; reflexivity); cbn; lra. Qed.

(* C311: the number of strata *)
Theorem float_strata : forall spp, (1 <= spp <= 2 ^ 22)%Z -> f_strata spp = Ok (Z.sqrt spp).
Proof.
  intros n N; destruct (of_Z_exact n) as [F V]; [lia |].
  assert (NR : 0 <= IZR n) by (apply (IZR_le 0); lia).
  destruct (fsqrt_val (of_Z n) F) as [F2 V2]; [rewrite V; exact NR |]; rewrite V in V2.
  destruct (Z.sqrt_spec n) as [L U]; [lia |]; set (s := Z.sqrt n) in *.
  assert (SB : (1 <= s <= 2048)%Z) by nia.
  assert (SR : 1 <= IZR s <= 2048) by (split; [apply (IZR_le 1); lia | apply (IZR_le s 2048); lia]).
  assert (LR : IZR s * IZR s <= IZR n) by (rewrite <- mult_IZR; apply IZR_le, L).
  assert (UR : IZR n <= (IZR s + 1) * (IZR s + 1) - 1).
  { rewrite <- (plus_IZR s 1), <- mult_IZR, <- minus_IZR; apply IZR_le; unfold Z.succ in U; lia. }
  set (q := sqrt (IZR n)) in *.
  assert (QL : IZR s <= q) by (unfold q; rewrite <- (sqrt_square (IZR s)) by lra; apply sqrt_le_1_alt, LR).
  assert (QQ : q * q = IZR n) by (apply sqrt_sqrt, NR).
  assert (RL : IZR s <= rnd q) by (rewrite <- (rnd_fits (IZR s)) by (apply fits_Z; lia); apply rnd_le, QL).
  assert (RU : rnd q < IZR s + 1).
  { pose proof (err q) as E; rewrite (Rabs_pos_eq q) in E by lra; apply abs_bounds in E; destruct E as [_ E].
    apply Rle_lt_trans with (q + (u24 * q + / 1125899906842624)); [lra |].
    assert (Q2 : q <= IZR s + 1) by nra.
    assert (G : (IZR s + 1) - q >= / 4200).
    { assert (P : ((IZR s + 1) - q) * ((IZR s + 1) + q) >= 1) by nra.
      assert (W : (IZR s + 1) + q <= 4100) by lra.
      assert (W2 : ((IZR s + 1) - q) * ((IZR s + 1) + q) <= ((IZR s + 1) - q) * 4100) by (apply Rmult_le_compat_l; lra).
      lra. }
    unfold u24; lra. }
  assert (T : Ztrunc (val (fsqrt (of_Z n))) = s).
  { rewrite V2, Ztrunc_floor by lra; apply Zfloor_imp; rewrite plus_IZR; lra. }
  unfold f_strata, to_int; rewrite to_range_ok; [rewrite T; reflexivity | exact F2 | rewrite T; lia].
Qed.
Print Assumptions float_strata.
Example float_strata_ex : f_strata 99 = Ok 9%Z. Proof. vm_compute; reflexivity. Qed.

(* ----- the film ----- *)

Lemma ceil_val : forall x, fin x -> fin (f_ceil x) /\ val (f_ceil x) = IZR (Zceil (val x)).
Proof.
  intros x F; destruct (Bnearbyint_correct 24 128 emax128 mode_UP x) as (V & G & _); split; [unfold fin, f_ceil; rewrite G; exact F |].
  unfold val, f_ceil; rewrite V; apply (round_FIX_IZR Zceil).
Qed.
Lemma floor_val : forall x, fin x -> fin (f_floor x) /\ val (f_floor x) = IZR (Zfloor (val x)).
Proof.
  intros x F; destruct (Bnearbyint_correct 24 128 emax128 mode_DN x) as (V & G & _); split; [unfold fin, f_floor; rewrite G; exact F |].
  unfold val, f_floor; rewrite V; apply (round_FIX_IZR Zfloor).
Qed.

Lemma half_val : fin (fnum 1 (-1)) /\ val (fnum 1 (-1)) = / 2.
Proof.
  destruct (fnum_val 1 (-1)) as [F V]; [apply (big 1); [lia |]; apply abs_bounds; cbn; lra |].
  split; [exact F |]; rewrite V, rnd_fits; [cbn; lra |]; replace (1 * bpow radix2 (-1)) with (bpow radix2 (-1)) by ring; apply fits_bpow; lia.
Qed.

(* C312: the pixels a sample reaches *)
Theorem float_film_reach : forall side range pos,
  (0 <= side)%Z -> fin range -> fin pos -> 0 <= val range <= 4096 -> 0 <= val pos <= 65536 ->
  exists x0 x1, f_update side range pos = Ok (x0, x1) /\ (0 <= x0)%Z /\ (x1 <= side)%Z /\
  (forall i, (x0 <= i < x1)%Z -> Rabs (IZR i + / 2 - val pos) <= val range + / 64) /\
  (forall i, (0 <= i < side)%Z -> Rabs (IZR i + / 2 - val pos) <= val range - 1 - / 64 -> (x0 <= i < x1)%Z).
Proof.
  intros side range pos SD FR FP RB PB; destruct half_val as [FH VH].
  destruct (fsub_val pos (fnum 1 (-1)) FP FH) as [FC VC].
  { rewrite VH; apply (big (2 ^ 24)); [lia |]; apply abs_bounds; change (IZR (2 ^ 24)) with 16777216; lra. }
  rewrite VH in VC; set (centre := fsub pos (fnum 1 (-1))) in *.
  assert (CE : Rabs (val centre - (val pos - / 2)) <= / 250).
  { rewrite VC; apply Rle_trans with (1 := err _).
    assert (Rabs (val pos - / 2) <= 65536) by (apply abs_bounds; lra); unfold u24; lra. }
  apply abs_bounds in CE.
  destruct (fsub_val centre range FC FR) as [FL VL].
  { apply (big (2 ^ 24)); [lia |]; apply abs_bounds; change (IZR (2 ^ 24)) with 16777216; lra. }
  destruct (fadd_val centre range FC FR) as [FU VU].
  { apply (big (2 ^ 24)); [lia |]; apply abs_bounds; change (IZR (2 ^ 24)) with 16777216; lra. }
  assert (LE : Rabs (val (fsub centre range) - (val centre - val range)) <= / 230).
  { rewrite VL; apply Rle_trans with (1 := err _).
    assert (Rabs (val centre - val range) <= 70000) by (apply abs_bounds; lra); unfold u24; lra. }
  assert (UE : Rabs (val (fadd centre range) - (val centre + val range)) <= / 230).
  { rewrite VU; apply Rle_trans with (1 := err _).
    assert (Rabs (val centre + val range) <= 70000) by (apply abs_bounds; lra); unfold u24; lra. }
  apply abs_bounds in LE; apply abs_bounds in UE.
  destruct (ceil_val _ FL) as [F0 V0]; destruct (floor_val _ FU) as [F1 V1].
  set (l := val (fsub centre range)) in *; set (u := val (fadd centre range)) in *.
  assert (CL : (-80000 <= Zceil l <= 80000)%Z).
  { split; [apply le_IZR, Rle_trans with l; [lra | apply Zceil_ub] | apply Zceil_glb; lra]. }
  assert (CU : (-80000 <= Zfloor u <= 80000)%Z).
  { split; [apply Zfloor_lub; lra | apply le_IZR, Rle_trans with u; [apply Zfloor_lb | lra]]. }
  exists (Z.max (Zceil l) 0), (Z.min (Zfloor u) side); split.
  { unfold f_update; fold centre; unfold to_int.
    rewrite to_range_ok; [| exact F0 | rewrite V0, Ztrunc_IZR; lia]; cbn [bind].
    rewrite to_range_ok; [| exact F1 | rewrite V1, Ztrunc_IZR; lia]; cbn [bind].
    rewrite V0, V1, !Ztrunc_IZR; reflexivity. }
  split; [lia |]; split; [lia |]; split.
  - intros i I; pose proof (Zceil_ub l); pose proof (Zfloor_lb u).
    assert (IZR (Zceil l) <= IZR i) by (apply IZR_le; lia); assert (IZR i <= IZR (Zfloor u)) by (apply IZR_le; lia).
    apply abs_bounds; lra.
  - intros i I D; apply abs_bounds in D; split.
    + assert (Zceil l <= i)%Z by (apply Zceil_glb; lra); lia.
    + assert (i + 1 <= Zfloor u)%Z by (apply Zfloor_lub; rewrite plus_IZR; lra); lia.
Qed.
Print Assumptions float_film_reach.
Example float_film_reach_ex : f_update 800 (of_Z 2) (fnum 201 (-1)) = Ok (98%Z, 102%Z).
Proof. vm_compute; reflexivity. Qed.

Lemma val255 : fin (of_Z 255) /\ val (of_Z 255) = 255.
Proof. apply (of_Z_exact 255); lia. Qed.

Lemma mul255_big : forall c, fin c -> 1 <= val c -> flt (fmul c (of_Z 255)) (of_Z 255) = false.
Proof.
  intros c F C; destruct val255 as [G V]; pose proof (Bmult_correct 24 128 prec24 emax128 mode_NE c (of_Z 255)) as M.
  cbn [round_mode] in M; change (round radix2 (SpecFloat.fexp 24 128) ZnearestE (B2R c * B2R (of_Z 255))) with (rnd (val c * val (of_Z 255))) in M.
  rewrite V in M; destruct (Rlt_bool_spec (Rabs (rnd (val c * 255))) (bpow radix2 128)) as [L | L].
  - destruct M as (W & FM & _); fold (fmul c (of_Z 255)) in W, FM; rewrite F, G in FM.
    destruct (flt _ _) eqn:E; [| reflexivity]; apply flt_val in E; [| exact FM | exact G].
    unfold val in E; rewrite W in E; fold (val (of_Z 255)) in E; rewrite V in E.
    assert (255 <= rnd (val c * 255)); [| lra].
    pose proof (rnd_le 255 (val c * 255) ltac:(lra)) as K; rewrite (rnd_fits 255) in K by (apply (fits_Z 255); lia); exact K.
  - unfold flt, Bltb; fold (fmul c (of_Z 255)) in M; rewrite M.
    assert (S : Bsign c = false).
    { destruct c as [s | s | | s m e b]; try discriminate; try (unfold val in C; cbn in C; lra).
      destruct s; [| reflexivity]; unfold val, B2R in C; exfalso.
      assert (F2R (Float radix2 (cond_Zopp true (Zpos m)) e) < 0) by (apply F2R_lt_0; reflexivity); lra. }
    rewrite S; vm_compute; reflexivity.
Qed.

(* the byte of a number *)
Lemma byte_val : forall c, fin c -> f_byte c = Ok (if Rle_lt_dec (val c) 0 then 0%Z else if Rle_lt_dec 1 (val c) then 255%Z else Zfloor (rnd (val c * 255))).
Proof.
  intros c F; destruct val255 as [G V]; destruct fzero_val as [FZ VZ]; unfold f_byte, to_u32.
  assert (T255 : to_range 0 (2 ^ 32 - 1) (of_Z 255) = Ok 255%Z).
  { rewrite to_range_ok; [| exact G |]; rewrite V, (Ztrunc_IZR 255); [reflexivity | lia]. }
  assert (M : exists m, fin m /\ fmax fzero c = m /\ val m = Rmax 0 (val c)).
  { unfold fmax, fgt; fold (flt c fzero); destruct (flt c fzero) eqn:E.
    - apply flt_val in E; [| exact F | exact FZ]; exists fzero; split; [exact FZ |]; split; [reflexivity |]; rewrite VZ in *; rewrite Rmax_left; lra.
    - exists c; split; [exact F |]; split; [reflexivity |]; rewrite Rmax_right; [reflexivity |]; apply Rnot_lt_le; intro L.
      assert (flt c fzero = true) by (apply flt_val; [exact F | exact FZ | lra]); congruence. }
  destruct M as (m & FM & -> & VM); destruct (Rle_lt_dec (val c) 0) as [L | L]; [| destruct (Rle_lt_dec 1 (val c)) as [L1 | L1]].
  - rewrite Rmax_left in VM by lra; destruct (fmul_val m (of_Z 255) FM G) as [FP VP].
    { rewrite VM; apply (big 1); [lia |]; apply abs_bounds; lra. }
    rewrite VM, Rmult_0_l, (rnd_fits 0 fits_0) in VP; unfold fmin.
    destruct (flt (fmul m (of_Z 255)) (of_Z 255)) eqn:E.
    + rewrite to_range_ok; [| exact FP |]; rewrite VP, (Ztrunc_IZR 0); [reflexivity | lia].
    + assert (flt (fmul m (of_Z 255)) (of_Z 255) = true) by (apply flt_val; [exact FP | exact G | lra]); congruence.
  - rewrite Rmax_right in VM by lra; unfold fmin; rewrite mul255_big by (assumption || lra); exact T255.
  - rewrite Rmax_right in VM by lra; destruct (fmul_val m (of_Z 255) FM G) as [FP VP].
    { rewrite VM, V; apply (big 255); [lia |]; apply abs_bounds; lra. }
    rewrite VM, V in VP.
    assert (B : 0 <= rnd (val c * 255) <= 255) by (apply rnd_between; [apply fits_0 | apply (fits_Z 255); lia | lra]).
    unfold fmin; destruct (flt (fmul m (of_Z 255)) (of_Z 255)) eqn:E.
    + assert (T : Ztrunc (val (fmul m (of_Z 255))) = Zfloor (rnd (val c * 255))) by (rewrite VP; apply Ztrunc_floor, B).
      rewrite to_range_ok; [rewrite T; reflexivity | exact FP |]; rewrite T; split; [apply Zfloor_lub, B |].
      apply le_IZR, Rle_trans with (rnd (val c * 255)); [apply Zfloor_lb |]; change (IZR (2 ^ 32 - 1)) with 4294967295; lra.
    + assert (N : ~ (rnd (val c * 255) < 255)).
      { intro K; assert (flt (fmul m (of_Z 255)) (of_Z 255) = true) by (apply flt_val; [exact FP | exact G | lra]); congruence. }
      assert (Q : rnd (val c * 255) = IZR 255) by (apply Rle_antisym; lra); rewrite Q, Zfloor_IZR; exact T255.
Qed.

Lemma byte_range : forall v, (0 <= (if Rle_lt_dec v 0 then 0 else if Rle_lt_dec 1 v then 255 else Zfloor (rnd (v * 255))) <= 255)%Z.
Proof.
  intro v; destruct (Rle_lt_dec v 0); [lia |]; destruct (Rle_lt_dec 1 v); [lia |].
  assert (B : 0 <= rnd (v * 255) <= 255) by (apply rnd_between; [apply fits_0 | apply (fits_Z 255); lia | lra]).
  split; [apply Zfloor_lub, B | apply le_IZR, Rle_trans with (2 := proj2 B), Zfloor_lb].
Qed.

(* C313: every channel has a byte *)
Theorem float_byte : forall c : f32, exists b, f_byte c = Ok b /\ (0 <= b <= 255)%Z /\
  (is_nan c = true -> b = 255%Z) /\
  (fin c -> val c <= 0 -> b = 0%Z) /\ (fin c -> 1 <= val c -> b = 255%Z) /\
  (fin c -> 0 <= val c <= 1 -> IZR b - / 65536 <= 255 * val c < IZR b + 1 + / 65536) /\
  (forall d, fin c -> fin d -> val c <= val d -> exists b', f_byte d = Ok b' /\ (b <= b')%Z).
Proof.
  intro c; destruct (is_finite c) eqn:F.
  2: { destruct c as [s | s | | s m e H]; try discriminate F.
       - destruct s; [exists 0%Z | exists 255%Z]; (split; [vm_compute; reflexivity |]; split; [lia |];
           repeat split; try discriminate; intros; discriminate).
       - exists 255%Z; split; [vm_compute; reflexivity |]; split; [lia |]; repeat split; try discriminate; intros; discriminate. }
  pose proof (byte_val c F) as E; pose proof (byte_range (val c)) as B.
  eexists; split; [exact E |]; split; [exact B |].
  split; [intro N; destruct c; discriminate |].
  split; [intros _ L; destruct (Rle_lt_dec (val c) 0); [reflexivity | lra] |].
  split; [intros _ L; destruct (Rle_lt_dec (val c) 0); [lra |]; destruct (Rle_lt_dec 1 (val c)); [reflexivity | lra] |].
  split.
  - intros _ L; destruct (Rle_lt_dec (val c) 0); [lra |]; destruct (Rle_lt_dec 1 (val c)); [lra |].
    pose proof (err (val c * 255)) as R1; rewrite (Rabs_pos_eq (val c * 255)) in R1 by lra; apply abs_bounds in R1; unfold u24 in R1.
    pose proof (Zfloor_lb (rnd (val c * 255))); pose proof (Zfloor_ub (rnd (val c * 255))); lra.
  - intros d _ FD L; pose proof (byte_val d FD) as E'; eexists; split; [exact E' |].
    pose proof (byte_range (val d)) as B'.
    destruct (Rle_lt_dec (val c) 0); [exact (proj1 B') |]; destruct (Rle_lt_dec (val d) 0); [lra |].
    destruct (Rle_lt_dec 1 (val d)); [exact (proj2 B) |]; destruct (Rle_lt_dec 1 (val c)); [lra |].
    apply Zfloor_le, rnd_le; lra.
Qed.
Print Assumptions float_byte.
Example float_byte_ex : f_byte (fnum 3 (-2)) = Ok 191%Z. Proof. vm_compute; reflexivity. Qed.
