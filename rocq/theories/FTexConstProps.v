(* Textures of one colour and repeated coordinates in single precision. *)
From Coq Require Import ZArith Reals List Lra Lia Bool.
From Flocq Require Import Core.Core IEEE754.BinarySingleNaN.
From Flocq Require Mult_error.
From Verif Require Import Common FltModel FltFacts FltProps FExtFacts FRayModel FRayFacts FSphereProps FBoxMarginProps FMatProps FMatBoundProps FFilmProps FQuadProps FFresProps FFresNearProps FTexModel FTexProps.
Import ListNotations.
Local Open Scope R_scope.

(* two parts of a number, each rounded: the sum is within half a unit of the number *)
Lemma two_parts : forall c p m x y, (-100 <= p <= 100)%Z -> bpow radix2 p < c <= bpow radix2 (p + 1) -> c = IZR m * bpow radix2 (p - 23) -> x + y = c -> 0 <= y <= x ->
  Rabs (rnd x + rnd y - c) <= bpow radix2 (p - 24).
Proof.
  intros c p m x y P C M S XY. pose proof (bpow_gt_0 radix2 p) as PP.
  assert (B1 : bpow radix2 (p + 1) = 2 * bpow radix2 p) by (rewrite bpow_plus; change (bpow radix2 1) with 2; ring).
  assert (H2 : bpow radix2 (p - 23) = 2 * bpow radix2 (p - 24)) by (replace (p - 23)%Z with (p - 24 + 1)%Z by lia; rewrite bpow_plus; change (bpow radix2 1) with 2; ring).
  assert (H3 : bpow radix2 (p - 24) = 2 * bpow radix2 (p - 25)) by (replace (p - 24)%Z with (p - 25 + 1)%Z by lia; rewrite bpow_plus; change (bpow radix2 1) with 2; ring).
  destruct (Rle_dec x (bpow radix2 p)) as [L|L].
  - assert (EX : Rabs (rnd x - x) <= bpow radix2 (p - 25)) by (apply half_error; [rewrite Rabs_pos_eq; lra|lia]).
    assert (EY : Rabs (rnd y - y) <= bpow radix2 (p - 25)) by (apply half_error; [rewrite Rabs_pos_eq; lra|lia]).
    apply abs_both in EX. apply abs_both in EY. apply Rabs_le. lra.
  - assert (EX : Rabs (rnd x - x) <= bpow radix2 (p - 24)).
    { replace (p - 24)%Z with (p + 1 - 25)%Z by lia. apply half_error; [rewrite Rabs_pos_eq; lra|lia]. }
    assert (G : bpow radix2 p <= rnd x) by (rewrite <- (rnd_fits (bpow radix2 p)) by (apply fits_bpow; lia); apply rnd_le; lra).
    destruct (fits_grid (rnd x) p (fits_rnd x) G) as (n & N); [lia|].
    assert (Z0 : c - rnd x = IZR (m - n) * bpow radix2 (p - 23)) by (rewrite M, N, minus_IZR; ring). set (z := (m - n)%Z) in *.
    assert (P23 : bpow radix2 p = IZR 8388608 * bpow radix2 (p - 23)) by (change 8388608 with (bpow radix2 23); rewrite <- bpow_plus; f_equal; lia).
    set (h := bpow radix2 (p - 24)) in *. assert (PH : 0 < h) by apply bpow_gt_0. rewrite H2 in *. apply abs_both in EX.
    assert (ZL : (0 <= z)%Z).
    { apply Z.lt_succ_r. replace (Z.succ z) with (z + 1)%Z by lia. apply lt_IZR. rewrite plus_IZR. apply (Rmult_lt_reg_r (2 * h)); [lra|]. rewrite Rmult_plus_distr_r, <- Z0. lra. }
    assert (RY : rnd y <= bpow radix2 p) by (rewrite <- (rnd_fits (bpow radix2 p)) by (apply fits_bpow; lia); apply rnd_le; lra).
    assert (LO : c - rnd x - h <= rnd y).
    { replace (c - rnd x - h) with (IZR (2 * z - 1) * bpow radix2 (p - 24)) by (fold h; rewrite minus_IZR, mult_IZR, Z0; ring).
      destruct (Z_lt_dec (2 * z - 1) (2 ^ 24)) as [Q|Q].
      - rewrite <- (rnd_fits (IZR (2 * z - 1) * bpow radix2 (p - 24))) by (apply fits_scaled; [change (2 ^ 24)%Z with 16777216%Z in *; lia|lia]). apply rnd_le.
        fold h. rewrite minus_IZR, mult_IZR. replace ((2 * IZR z - 1) * h) with (IZR z * (2 * h) - h) by ring. rewrite <- Z0. lra.
      - exfalso. assert (W : (8388609 <= z)%Z) by (change (2 ^ 24)%Z with 16777216%Z in Q; lia). apply IZR_le in W.
        assert (8388609 * (2 * h) <= c - rnd x) by (rewrite Z0; apply Rmult_le_compat_r; lra). lra. }
    assert (UP : rnd y <= c - rnd x + h).
    { destruct (Z_le_dec z 8388607) as [Q|Q].
      - replace (c - rnd x + h) with (IZR (2 * z + 1) * bpow radix2 (p - 24)) by (fold h; rewrite plus_IZR, mult_IZR, Z0; ring).
        rewrite <- (rnd_fits (IZR (2 * z + 1) * bpow radix2 (p - 24))) by (apply fits_scaled; [change (2 ^ 24)%Z with 16777216%Z; lia|lia]). apply rnd_le.
        fold h. rewrite plus_IZR, mult_IZR. replace ((2 * IZR z + 1) * h) with (IZR z * (2 * h) + h) by ring. rewrite <- Z0. lra.
      - assert (W : (8388608 <= z)%Z) by lia. apply IZR_le in W. assert (8388608 * (2 * h) <= c - rnd x) by (rewrite Z0; apply Rmult_le_compat_r; lra). lra. }
    apply Rabs_le. lra.
Qed.

(* bytes are even in the last place: half a unit more or less rounds back *)
Definition steady (c : Z) : bool :=
  Beqb (fadd (of_Z c) (fnum 1 (Z.log2_up c - 25))) (of_Z c) && Beqb (fsub (of_Z c) (fnum 1 (Z.log2_up c - 25))) (of_Z c).

Lemma all_steady : forallb steady (map Z.of_nat (seq 1 255)) = true.
Proof. vm_compute. reflexivity. Qed.

Lemma byte_steady : forall c e, (1 <= c <= 255)%Z -> Rabs e <= bpow radix2 (Z.log2_up c - 25) -> rnd (IZR c + e) = IZR c.
Proof.
  intros c e C E. pose proof all_steady as A. rewrite forallb_forall in A.
  assert (IN : In c (map Z.of_nat (seq 1 255))). { apply in_map_iff. exists (Z.to_nat c). split; [lia|]. apply in_seq. lia. }
  specialize (A c IN). unfold steady in A. apply andb_prop in A. destruct A as (A1 & A2).
  destruct (of_Z_exact c) as (FC & VC); [change (2 ^ 24)%Z with 16777216%Z; lia|].
  assert (LG : (0 <= Z.log2_up c <= 8)%Z). { split; [apply Z.log2_up_nonneg|]. change 8%Z with (Z.log2_up 256). apply Z.log2_up_le_mono. lia. }
  set (q := (Z.log2_up c - 25)%Z) in *. assert (Q : (-25 <= q <= -17)%Z) by (unfold q; lia). clearbody q.
  assert (BQ : 0 < bpow radix2 q <= 1). { split; [apply bpow_gt_0|]. change 1 with (bpow radix2 0). apply bpow_le; lia. }
  destruct (fnum_val 1 q) as (FH & VH). { rewrite Rmult_1_l. apply one_127. rewrite Rabs_pos_eq; lra. }
  rewrite Rmult_1_l, rnd_fits in VH by (apply fits_bpow; lia).
  assert (BC : 1 <= IZR c <= 255) by (split; apply IZR_le; lia).
  destruct (fadd_val _ _ FC FH) as (F1 & V1). { rewrite VC, VH. apply (small_127 _ 8); [lia|]. change (bpow radix2 8) with 256. rewrite Rabs_pos_eq; lra. }
  destruct (fsub_val _ _ FC FH) as (F2 & V2). { rewrite VC, VH. apply (small_127 _ 8); [lia|]. change (bpow radix2 8) with 256. apply Rabs_le; lra. }
  rewrite (Beqb_correct _ _ _ _ F1 FC) in A1. rewrite (Beqb_correct _ _ _ _ F2 FC) in A2. fold (val (fadd (of_Z c) (fnum 1 q))) (val (of_Z c)) in A1. fold (val (fsub (of_Z c) (fnum 1 q))) (val (of_Z c)) in A2.
  rewrite V1, VC, VH in A1. rewrite V2, VC, VH in A2.
  destruct (Req_bool_spec (rnd (IZR c + bpow radix2 q)) (IZR c)) as [G1|]; [|discriminate]. destruct (Req_bool_spec (rnd (IZR c - bpow radix2 q)) (IZR c)) as [G2|]; [|discriminate].
  apply abs_both in E. apply Rle_antisym; [rewrite <- G1 at 2|rewrite <- G2 at 1]; apply rnd_le; lra.
Qed.

Lemma byte_parts : forall c x y, byte c -> x + y = IZR c -> 0 <= x -> 0 <= y -> rnd (rnd x + rnd y) = IZR c.
Proof.
  assert (W : forall c x y, (1 <= c <= 255)%Z -> x + y = IZR c -> 0 <= y <= x -> rnd (rnd x + rnd y) = IZR c).
  { intros c x y C S XY. replace (rnd x + rnd y) with (IZR c + (rnd x + rnd y - IZR c)) by ring. apply byte_steady; [exact C|].
    assert (LG : (0 <= Z.log2_up c <= 8)%Z). { split; [apply Z.log2_up_nonneg|]. change 8%Z with (Z.log2_up 256). apply Z.log2_up_le_mono. lia. }
    replace (Z.log2_up c - 25)%Z with (Z.log2_up c - 1 - 24)%Z by lia.
    assert (E : bpow radix2 (Z.log2_up c - 1) < IZR c <= bpow radix2 (Z.log2_up c - 1 + 1)).
    { destruct (Z.eq_dec c 1) as [-> | N]; [change (Z.log2_up 1) with 0%Z; cbn; lra|]. pose proof (Z.log2_up_spec c ltac:(lia)) as (L & U). unfold Z.pred in L.
      assert (1 <= Z.log2_up c)%Z by (assert (Z.log2_up 2 <= Z.log2_up c)%Z by (apply Z.log2_up_le_mono; lia); exact H).
      replace (Z.log2_up c - 1 + 1)%Z with (Z.log2_up c) by lia. rewrite <- !IZR_Zpower by lia. split; [apply IZR_lt; exact L|apply IZR_le; exact U]. }
    assert (M : IZR c = IZR (c * 2 ^ (23 - (Z.log2_up c - 1))) * bpow radix2 (Z.log2_up c - 1 - 23)).
    { rewrite mult_IZR. replace (IZR (2 ^ (23 - (Z.log2_up c - 1)))) with (bpow radix2 (23 - (Z.log2_up c - 1))) by (rewrite <- IZR_Zpower by lia; reflexivity).
      rewrite Rmult_assoc, <- bpow_plus. replace (23 - (Z.log2_up c - 1) + (Z.log2_up c - 1 - 23))%Z with 0%Z by lia. cbn. ring. }
    apply (two_parts (IZR c) (Z.log2_up c - 1) _ x y ltac:(lia) E M S XY). }
  intros c x y C S X Y. destruct (Z.eq_dec c 0) as [Z|NZ].
  - subst c. assert (x = 0 /\ y = 0) as (-> & ->) by (split; lra). rewrite rnd_0, Rplus_0_r. apply rnd_0.
  - assert (C1 : (1 <= c <= 255)%Z) by (unfold byte in C; lia). destruct (Rle_dec y x) as [L|L]; [apply W; [exact C1|exact S|lra]|].
    rewrite Rplus_comm. apply W; [exact C1|lra|lra].
Qed.

Definition weight (d : f32) : Prop := fin d /\ exists n, (0 <= n <= 2 ^ 24)%Z /\ val d = IZR n * bpow radix2 (-24).

Lemma weight_other : forall d, weight d -> 0 <= val d <= 1 /\ fin (fsub fone d) /\ val (fsub fone d) = 1 - val d.
Proof.
  intros d (F & n & N & V). assert (D : 0 <= val d <= 1).
  { rewrite V, u24_bpow. assert (0 <= IZR n <= 16777216) by (split; apply IZR_le; change (2 ^ 24)%Z with 16777216%Z in N; lia). unfold u24. lra. }
  split; [exact D|]. destruct (other_weight d F D) as (FI & _ & VI & _). split; [exact FI|]. rewrite VI. apply rnd_fits.
  replace (1 - val d) with (IZR (16777216 - n) * bpow radix2 (-24)) by (rewrite V, minus_IZR, u24_bpow; unfold u24; lra).
  destruct (Z.eq_dec n 0) as [-> | NZ]; [replace (IZR (16777216 - 0) * bpow radix2 (-24)) with 1 by (rewrite u24_bpow; unfold u24; cbn; lra); apply (fits_Z 1); cbn; lia|].
  apply fits_scaled; [change (2 ^ 24)%Z with 16777216%Z in *; lia|lia].
Qed.

(* any number that is a byte, split by exact weights and added up again *)
Lemma split_again : forall c x y d, byte c -> fin x -> fin y -> val x = IZR c -> val y = IZR c -> weight d ->
  fin (fadd (fmul x (fsub fone d)) (fmul y d)) /\ val (fadd (fmul x (fsub fone d)) (fmul y d)) = IZR c.
Proof.
  intros c x y d C FX FY VX VY W. destruct (weight_other d W) as (D & FI & VI). destruct W as (FD & _).
  assert (BC : 0 <= IZR c <= 255) by (split; apply IZR_le; apply C).
  assert (PR : forall w, 0 <= w <= 1 -> 0 <= IZR c * w <= 255). { intros w A. split; [apply Rmult_le_pos; lra|]. rewrite <- (Rmult_1_r 255). apply Rmult_le_compat; lra. }
  assert (P1 := PR (1 - val d) ltac:(lra)). assert (P2 := PR (val d) D).
  destruct (fmul_val x (fsub fone d) FX FI) as (F1 & V1). { rewrite VX, VI. apply (small_127 _ 8); [lia|]. change (bpow radix2 8) with 256. rewrite Rabs_pos_eq; lra. }
  destruct (fmul_val y d FY FD) as (F2 & V2). { rewrite VY. apply (small_127 _ 8); [lia|]. change (bpow radix2 8) with 256. rewrite Rabs_pos_eq; lra. }
  rewrite VX, VI in V1. rewrite VY in V2.
  assert (RB : forall z, 0 <= z <= 255 -> 0 <= rnd z <= 255). { intros z Z. apply rnd_between; [apply (fits_Z 0); cbn; lia|apply (fits_Z 255); cbn; lia|exact Z]. }
  assert (Q1 := RB _ P1). assert (Q2 := RB _ P2).
  destruct (fadd_val _ _ F1 F2) as (FA & VA). { rewrite V1, V2. apply (small_127 _ 9); [lia|]. change (bpow radix2 9) with 512. rewrite Rabs_pos_eq; lra. }
  split; [exact FA|]. rewrite VA, V1, V2. apply byte_parts; [exact C|ring|lra|lra].
Qed.

(* A texture of one colour keeps it in the bilinear look up, exactly, from half a texel on: for sides
   of 2^k texels, k at most 15, and coordinates between 2^-(k+1) and 1. *)
Theorem float_bilinear_constant : forall k c u v, (0 <= k <= 15)%Z -> (0 <= c <= 255)%Z -> fin u -> fin v ->
  / 2 <= val u * IZR (2 ^ k) -> val u <= 1 -> / 2 <= val v * IZR (2 ^ k) -> val v <= 1 ->
  f_bilinear (2 ^ k) (fun _ _ => Ok c) u v = Ok c.
Proof.
  intros k c u v K C FU FV LU UU LV UV. destruct (side_val k K) as (_ & _ & I). rewrite I in LU, LV. pose proof (bpow_gt_0 radix2 k) as PK.
  assert (U : 0 <= val u <= 1). { split; [|exact UU]. apply (Rmult_le_reg_r (bpow radix2 k)); [exact PK|]. lra. }
  assert (V : 0 <= val v <= 1). { split; [|exact UV]. apply (Rmult_le_reg_r (bpow radix2 k)); [exact PK|]. lra. }
  destruct (texel_parts k u K FU U) as (du & EU & _ & FDU & _ & _ & DU). destruct (texel_parts k v K FV V) as (dv & EV & _ & FDV & _ & _ & DV). cbv zeta in *.
  destruct (DU LU) as (_ & WU). destruct (DV LV) as (_ & WV). assert (W1 : weight du) by (split; assumption). assert (W2 : weight dv) by (split; assumption).
  unfold f_bilinear. rewrite EU. cbn [bind]. rewrite EV. cbn [bind]. unfold f_mix. cbv zeta.
  destruct (of_Z_exact c) as (FC & VC); [change (2 ^ 24)%Z with 16777216%Z; lia|].
  destruct (split_again c _ _ du C FC FC VC VC W1) as (F1 & V1). destruct (split_again c _ _ dv C F1 F1 V1 V1 W2) as (F2 & V2).
  rewrite (to_range_ok _ _ _ F2); rewrite V2, Ztrunc_IZR; [reflexivity|lia].
Qed.
Print Assumptions float_bilinear_constant.

(* a white texture of 4 x 4 texels, in the third texel *)
Example float_bilinear_constant_case : let u := fnum 9 (-4) in fin u /\ / 2 <= val u * IZR (2 ^ 2) /\ val u <= 1 /\ f_bilinear (2 ^ 2) (fun _ _ => Ok 255%Z) u u = Ok 255%Z.
Proof.
  cbv zeta. assert (V : val (fnum 9 (-4)) = 9 / 16) by (erewrite lit_val by (vm_compute; reflexivity); cbn; lra). rewrite V.
  split; [reflexivity|]. split; [cbn; lra|]. split; [lra|]. vm_compute. reflexivity.
Qed.

(* Within the first half texel it may not: white becomes 254 at (1/2 - 3 * 2^-25) texels, for every side. *)
Theorem float_bilinear_constant_refuted : forall k, (0 <= k <= 15)%Z -> exists u v, fin u /\ fin v /\ 0 <= val u <= 1 /\ 0 <= val v <= 1 /\
  f_bilinear (2 ^ k) (fun _ _ => Ok 255%Z) u v = Ok 254%Z.
Proof.
  intros k K. destruct (side_val k K) as (FS & VS & I). exists (fnum 16777213 (-25 - k)), (fnum 1 (-1 - k)).
  assert (PK : bpow radix2 (- k) <= 1) by (change 1 with (bpow radix2 0); apply bpow_le; lia). pose proof (bpow_gt_0 radix2 (- k)) as P0.
  assert (B25 : bpow radix2 (-25 - k) = / 33554432 * bpow radix2 (- k)) by (change (/ 33554432) with (bpow radix2 (-25)); rewrite <- bpow_plus; f_equal; lia).
  assert (B1 : bpow radix2 (-1 - k) = / 2 * bpow radix2 (- k)) by (change (/ 2) with (bpow radix2 (-1)); rewrite <- bpow_plus; f_equal; lia).
  destruct (fnum_val 16777213 (-25 - k)) as (FU & VU). { apply one_127. rewrite B25, Rabs_pos_eq; lra. } rewrite rnd_fits in VU by (apply fits_scaled; [cbn; lia|lia]).
  destruct (fnum_val 1 (-1 - k)) as (FV & VV). { apply one_127. rewrite B1, Rabs_pos_eq; lra. } rewrite rnd_fits in VV by (apply fits_scaled; [cbn; lia|lia]).
  split; [exact FU|]. split; [exact FV|]. rewrite VU, VV, B25, B1. split; [lra|]. split; [lra|].
  assert (KK : bpow radix2 (- k) * bpow radix2 k = 1) by (rewrite <- bpow_plus; replace (- k + k)%Z with 0%Z by lia; reflexivity).
  assert (MU : fmul (fnum 16777213 (-25 - k)) (of_Z (2 ^ k)) = fnum 16777213 (-25)).
  { assert (E : val (fnum 16777213 (-25 - k)) * val (of_Z (2 ^ k)) = 16777213 / 33554432). { rewrite VU, VS, B25. replace (16777213 * (/ 33554432 * bpow radix2 (- k)) * bpow radix2 k) with (16777213 / 33554432 * (bpow radix2 (- k) * bpow radix2 k)) by (unfold Rdiv; ring). rewrite KK. ring. }
    destruct (fmul_val _ _ FU FS) as (FM & VM). { rewrite E. apply one_127. rewrite Rabs_pos_eq; lra. }
    assert (R : val (fnum 16777213 (-25)) = 16777213 / 33554432) by (erewrite lit_val by (vm_compute; reflexivity); cbn; lra).
    apply same_float; [exact FM|reflexivity| |rewrite R; lra]. rewrite VM, E, R. apply rnd_fits. rewrite <- R. apply fits_val. }
  assert (MV : fmul (fnum 1 (-1 - k)) (of_Z (2 ^ k)) = fnum 1 (-1)).
  { assert (E : val (fnum 1 (-1 - k)) * val (of_Z (2 ^ k)) = / 2). { rewrite VV, VS, B1. replace (1 * (/ 2 * bpow radix2 (- k)) * bpow radix2 k) with (/ 2 * (bpow radix2 (- k) * bpow radix2 k)) by ring. rewrite KK. ring. }
    destruct (fmul_val _ _ FV FS) as (FM & VM). { rewrite E. apply one_127. rewrite Rabs_pos_eq; lra. }
    destruct half_val as (FH & R). apply same_float; [exact FM|exact FH| |rewrite R; lra]. rewrite VM, E, R. apply rnd_fits. rewrite <- R. apply fits_val. }
  unfold f_bilinear, f_texel, f_texel_pos. rewrite MU, MV. vm_compute. reflexivity.
Qed.
Print Assumptions float_bilinear_constant_refuted.

(* ----- repeated coordinates ----- *)

Lemma big_integer : forall x, fits x -> 8388608 <= x -> IZR (Zfloor x) = x.
Proof.
  intros x F L. destruct (fits_grid x 23 F) as (n & N); [exact L|lia|]. change (23 - 23)%Z with 0%Z in N. change (bpow radix2 0) with 1 in N. rewrite Rmult_1_r in N. rewrite N, Zfloor_IZR. reflexivity.
Qed.

(* Repetition is exact: coordinates above 1 and below 2^31 lose their whole part and nothing else. *)
Theorem float_repeat : forall u, fin u -> 0 <= val u -> val u < 2147483648 ->
  exists r, f_repeat u = Ok r /\ fin r /\ 0 <= val r <= 1 /\ val r = if Rle_dec (val u) 1 then val u else val u - IZR (Zfloor (val u)).
Proof.
  intros u F L U. destruct fone_val as (FO & VO). unfold f_repeat, fgt. fold (flt fone u). destruct (Rle_dec (val u) 1) as [H|H].
  - exists u. assert (E : flt fone u = false). { destruct (flt fone u) eqn:G; [|reflexivity]. apply (flt_val _ _ FO F) in G. lra. } rewrite E. repeat split; try assumption; lra.
  - assert (E : flt fone u = true) by (apply (flt_val _ _ FO F); lra). rewrite E. set (n := Zfloor (val u)).
    pose proof (Zfloor_lb (val u)) as N1. pose proof (Zfloor_ub (val u)) as N2. fold n in N1, N2.
    assert (NZ : (0 <= n < 2147483648)%Z). { split; [apply Zfloor_lub; cbn; lra|]. apply lt_IZR. lra. }
    assert (T : to_int u = Ok n). { unfold to_int. rewrite (to_range_ok _ _ u F); rewrite Ztrunc_floor by lra; [reflexivity|]. fold n. change (2 ^ 31)%Z with 2147483648%Z. lia. }
    rewrite T. cbn [bind].
    assert (FN : fits (IZR n)). { destruct (Rle_dec 8388608 (val u)) as [B|B]; [unfold n; rewrite big_integer; [apply fits_val|apply fits_val|exact B]|].
      apply fits_Z. change (2 ^ 24)%Z with 16777216%Z. assert (n < 8388608)%Z by (apply lt_IZR; lra). lia. }
    destruct (fnum_val n 0) as (FI & VI). { change (bpow radix2 0) with 1. rewrite Rmult_1_r. apply (small_127 _ 31); [lia|]. change (bpow radix2 31) with 2147483648. apply Rabs_le. assert (0 <= IZR n) by (apply IZR_le; lia). lra. }
    change (bpow radix2 0) with 1 in VI. rewrite Rmult_1_r, (rnd_fits _ FN) in VI. fold (of_Z n) in FI, VI.
    assert (FD : fits (val u - IZR n)).
    { destruct (Rle_dec 8388608 (val u)) as [B|B].
      - unfold n. rewrite big_integer, Rminus_diag_eq by (reflexivity || apply fits_val || exact B). apply (fits_Z 0). cbn; lia.
      - apply (fits_sub (val u) (IZR n) n 0); [apply fits_val|lra|change (bpow radix2 (0 + 24)) with 16777216; lra|lia|cbn; ring|]. assert (0 <= IZR n) by (apply IZR_le; lia). lra. }
    destruct (fsub_val u (of_Z n) F FI) as (FR & VR). { rewrite VI. apply one_127. apply Rabs_le. lra. }
    rewrite VI, (rnd_fits _ FD) in VR. exists (fsub u (of_Z n)). split; [reflexivity|]. split; [exact FR|]. rewrite VR. split; [lra|reflexivity].
Qed.
Print Assumptions float_repeat.

Example float_repeat_case : let u := fnum 29 (-3) in fin u /\ 0 <= val u /\ val u < 2147483648 /\ (let! r := f_repeat u in f_bilinear (2 ^ 2) (fun x y => Ok (16 * x + y)%Z) r r) = Ok 34%Z.
Proof.
  cbv zeta. assert (V : val (fnum 29 (-3)) = 29 / 8) by (erewrite lit_val by (vm_compute; reflexivity); cbn; lra). rewrite V.
  split; [reflexivity|]. split; [lra|]. split; [lra|]. vm_compute. reflexivity.
Qed.
