(* Interpolation in single precision, and the number with which a face of a mesh is sampled. *)
From Coq Require Import ZArith Reals List Lra Lia Bool.
From Flocq Require Import Core.Core IEEE754.BinarySingleNaN.
From Flocq Require Import Plus_error.
From Verif Require Import Common FltModel FltFacts FltProps FltSumProps FRayModel FExtFacts FBoxMarginProps FFilmProps FFresProps FFresNearProps FMatBoundProps FGgxProps FLerpModel.
Local Open Scope R_scope.

(* two different floats have a difference that is not 0 *)
Lemma diff_pos : forall x y, val x < val y -> 0 < rnd (val y - val x).
Proof.
  intros x y L. assert (N : rnd (val y + - val x) <> 0) by (apply (round_plus_neq_0 radix2 (FLT_exp (-149) 24) ZnearestE); [apply fits_val|apply fits_opp, fits_val|lra]). change (val y + - val x) with (val y - val x) in N.
  pose proof (rnd_nonneg (val y - val x) ltac:(lra)) as P. lra.
Qed.

Lemma quot_unit : forall x y, 0 <= x <= y -> 0 < y -> 0 <= x / y <= 1.
Proof. intros x y X Y. split; [apply Rmult_le_pos; [lra|left; apply Rinv_0_lt_compat; exact Y]|]. apply (Rmult_le_reg_r y); [exact Y|]. unfold Rdiv. rewrite Rmult_assoc, Rinv_l by lra. lra. Qed.

Lemma div_unit : forall x y, fin x -> fin y -> 0 <= val x <= val y -> 0 < val y -> fin (fdiv x y) /\ val (fdiv x y) = rnd (val x / val y) /\ 0 <= val (fdiv x y) <= 1.
Proof.
  intros x y FX FY X Y. pose proof (quot_unit _ _ X Y) as Q. destruct (fdiv_val x y FX) as (F & V); [lra|apply one_127; rewrite Rabs_pos_eq; lra|]. split; [exact F|]. split; [exact V|]. rewrite V. apply rnd_between; [apply fits_0|apply (fits_Z 1); lia|exact Q].
Qed.

(* inverse_lerp as a formula *)
Lemma inverse_val : forall v lo hi, fin v -> fin lo -> fin hi -> - bpow radix2 126 <= val lo -> val lo <= val v <= val hi -> val hi <= bpow radix2 126 -> val lo < val hi ->
  fin (f_inverse_lerp v lo hi) /\ val (f_inverse_lerp v lo hi) = rnd (rnd (val v - val lo) / rnd (val hi - val lo)) /\ 0 <= val (f_inverse_lerp v lo hi) <= 1.
Proof.
  intros v lo hi FV FL FH L V H D. pose proof (bpow_plus radix2 126 1) as P. change (126 + 1)%Z with 127%Z in P. replace (bpow radix2 1) with 2 in P by (cbn; lra).
  destruct (fsub_val v lo FV FL) as (F1 & V1); [apply Rabs_le; lra|]. destruct (fsub_val hi lo FH FL) as (F2 & V2); [apply Rabs_le; lra|]. unfold f_inverse_lerp. rewrite <- V1, <- V2. apply div_unit; [exact F1|exact F2| |rewrite V2; apply diff_pos; exact D].
  rewrite V1, V2. split; [apply rnd_nonneg; lra|apply rnd_le; lra].
Qed.

(* For a value between different bounds inverse_lerp is a number between 0 and 1; it is 0 and 1 at
   the bounds and never decreases in between. *)
Theorem float_inverse_lerp : forall v w lo hi, fin v -> fin w -> fin lo -> fin hi -> - bpow radix2 126 <= val lo -> val lo <= val v <= val w -> val w <= val hi -> val hi <= bpow radix2 126 -> val lo < val hi ->
  fin (f_inverse_lerp v lo hi) /\ 0 <= val (f_inverse_lerp v lo hi) <= 1 /\ val (f_inverse_lerp lo lo hi) = 0 /\ val (f_inverse_lerp hi lo hi) = 1 /\ val (f_inverse_lerp v lo hi) <= val (f_inverse_lerp w lo hi).
Proof.
  intros v w lo hi FV FW FL FH L V W H D. destruct (inverse_val v lo hi FV FL FH L ltac:(lra) H D) as (F & E & B). destruct (inverse_val w lo hi FW FL FH L ltac:(lra) H D) as (_ & E' & _).
  destruct (inverse_val lo lo hi FL FL FH L ltac:(lra) H D) as (_ & E0 & _). destruct (inverse_val hi lo hi FH FL FH L ltac:(lra) H D) as (_ & E1 & _). pose proof (diff_pos _ _ D) as P.
  split; [exact F|]. split; [exact B|]. split; [|split].
  - rewrite E0. replace (val lo - val lo) with 0 by ring. rewrite rnd_0. unfold Rdiv. rewrite Rmult_0_l. apply rnd_0.
  - rewrite E1. unfold Rdiv. rewrite Rinv_r by lra. apply rnd_fits, (fits_Z 1); lia.
  - rewrite E, E'. apply rnd_le. unfold Rdiv. apply Rmult_le_compat_r; [left; apply Rinv_0_lt_compat; exact P|]. apply rnd_le. lra.
Qed.
Print Assumptions float_inverse_lerp.

(* bounds one unit in the last place apart *)
Example inverse_lerp_case : let hi := fnum 8388609 (-23) in B2SF (f_inverse_lerp fone fone hi) = B2SF fzero /\ B2SF (f_inverse_lerp hi fone hi) = B2SF fone /\ B2SF (f_inverse_lerp (of_Z 3) (of_Z 2) (of_Z 4)) = B2SF (fnum 1 (-1)).
Proof. repeat split; vm_compute; reflexivity. Qed.

(* real part of the error of lerp *)
Lemma lerp_err : forall v o p q a b m, 0 <= v <= 1 -> Rabs a <= m -> Rabs b <= m -> bpow radix2 (-100) <= m ->
  Rabs (o - (1 - v)) <= u24 * Rabs (1 - v) + h150 -> Rabs (p - o * a) <= u24 * Rabs (o * a) + h150 -> Rabs (q - v * b) <= u24 * Rabs (v * b) + h150 ->
  Rabs (p + q - ((1 - v) * a + v * b)) <= 21 / 10 * u24 * m /\ Rabs (p + q) <= 11 / 10 * m.
Proof.
  intros v o p q a b m V A B M O P Q. assert (H : 0 < h150 <= / 1000 * (u24 * m)).
  { split; [apply h150_u24|]. unfold h150. replace (/ 1000 * (u24 * m)) with (/ 1000 * u24 * m) by ring. apply Rle_trans with (bpow radix2 (-40) * bpow radix2 (-100)); [rewrite <- bpow_plus; apply bpow_le; lia|]. apply Rmult_le_compat; [apply bpow_ge_0|apply bpow_ge_0| |exact M]. unfold u24. cbn. lra. }
  pose proof (bpow_gt_0 radix2 (-100)) as G. assert (M0 : 0 < m) by lra. clear M G. assert (HU : h150 <= / 1000 * u24 * m) by lra. pose proof h150_u24 as H6.
  rewrite (Rabs_pos_eq (1 - v)) in O by lra. apply abs_both in O. assert (U : u24 = / 16777216) by reflexivity. set (d := o - (1 - v)) in *. assert (OD : o = 1 - v + d) by (unfold d; ring). clearbody d. subst o.
  assert (DA : Rabs (d * a) <= u24 * (1 - v) * m + h150 * m). { rewrite Rabs_mult. replace (u24 * (1 - v) * m + h150 * m) with ((u24 * (1 - v) + h150) * m) by ring. apply Rmult_le_compat; [apply Rabs_pos|apply Rabs_pos|apply Rabs_le; lra|exact A]. }
  assert (HM : h150 * m <= / 1000 * u24 * m) by (apply Rmult_le_compat_r; [lra|rewrite U in *; lra]).
  assert (OA : Rabs ((1 - v + d) * a) <= (1 - v) * m + u24 * (1 - v) * m + h150 * m). { replace ((1 - v + d) * a) with ((1 - v) * a + d * a) by ring. eapply Rle_trans; [apply Rabs_triang|]. rewrite Rabs_mult, (Rabs_pos_eq (1 - v)) by lra. assert ((1 - v) * Rabs a <= (1 - v) * m) by (apply Rmult_le_compat_l; lra). lra. }
  assert (VB : Rabs (v * b) <= v * m) by (rewrite Rabs_mult, (Rabs_pos_eq v) by lra; apply Rmult_le_compat_l; lra). assert (VA : Rabs ((1 - v) * a) <= (1 - v) * m) by (rewrite Rabs_mult, (Rabs_pos_eq (1 - v)) by lra; apply Rmult_le_compat_l; lra).
  apply abs_both in P. apply abs_both in Q. assert (P' : u24 * Rabs ((1 - v + d) * a) <= u24 * ((1 - v) * m + u24 * (1 - v) * m + h150 * m)) by (apply Rmult_le_compat_l; [rewrite U; lra|exact OA]). assert (Q' : u24 * Rabs (v * b) <= u24 * (v * m)) by (apply Rmult_le_compat_l; [rewrite U; lra|exact VB]).
  apply abs_both in DA. apply abs_both in VB. apply abs_both in VA. assert (VM : 0 <= v * m <= m) by (split; [apply Rmult_le_pos; lra|rewrite <- (Rmult_1_l m) at 2; apply Rmult_le_compat_r; lra]).
  replace (u24 * ((1 - v) * m + u24 * (1 - v) * m + h150 * m)) with (u24 * (m - v * m) + u24 * u24 * (m - v * m) + u24 * (h150 * m)) in P' by ring. replace (u24 * (1 - v) * m) with (u24 * (m - v * m)) in DA by ring. replace ((1 - v + d) * a) with ((1 - v) * a + d * a) in * by ring. replace ((1 - v) * m) with (m - v * m) in VA by ring.
  set (vm := v * m) in *. set (x := (1 - v) * a) in *. set (y := v * b) in *. set (z := d * a) in *. set (hm := h150 * m) in *. clearbody vm x y z hm. clear A B O OA. rewrite U in *. split; apply Rabs_le; lra.
Qed.

(* lerp returns the bounds for 0 and 1 and differs from the exact value by at most four units of
   2^-24 of the larger bound. *)
Theorem float_lerp : forall v a b m, fin v -> fin a -> fin b -> 0 <= val v <= 1 -> bpow radix2 (-100) <= m <= bpow radix2 120 -> Rabs (val a) <= m -> Rabs (val b) <= m ->
  fin (f_lerp v a b) /\ Rabs (val (f_lerp v a b) - ((1 - val v) * val a + val v * val b)) <= 4 * u24 * m /\ val (f_lerp fzero a b) = val a /\ val (f_lerp fone a b) = val b.
Proof.
  intros v a b m FV FA FB V M A B.
  assert (G : forall v, fin v -> 0 <= val v <= 1 -> fin (fsub fone v) /\ fin (fmul (fsub fone v) a) /\ fin (fmul v b) /\ val (fsub fone v) = rnd (1 - val v) /\ val (fmul (fsub fone v) a) = rnd (rnd (1 - val v) * val a) /\ val (fmul v b) = rnd (val v * val b)).
  { clear v FV V. intros v FV V. destruct fone_val as (F1 & V1). destruct (fsub_val fone v F1 FV) as (FO & VO); [rewrite V1; apply one_127; rewrite Rabs_pos_eq; lra|]. rewrite V1 in VO.
    assert (O : 0 <= rnd (1 - val v) <= 1) by (apply rnd_between; [apply fits_0|apply (fits_Z 1); lia|lra]). assert (S : forall k y, 0 <= k <= 1 -> Rabs y <= m -> Rabs (k * y) <= bpow radix2 127). { intros k y K Y. apply (small_127 _ 120); [lia|]. rewrite Rabs_mult, (Rabs_pos_eq k) by lra. pose proof (Rabs_pos y). apply Rle_trans with (1 * Rabs y); [apply Rmult_le_compat_r; lra|lra]. }
    destruct (fmul_val (fsub fone v) a FO FA) as (FP & VP); [rewrite VO; apply S; assumption|]. rewrite VO in VP. destruct (fmul_val v b FV FB) as (FQ & VQ); [apply S; assumption|]. tauto. }
  assert (T : forall v, fin v -> 0 <= val v <= 1 -> fin (f_lerp v a b) /\ val (f_lerp v a b) = rnd (rnd (rnd (1 - val v) * val a) + rnd (val v * val b)) /\ Rabs (rnd (rnd (1 - val v) * val a) + rnd (val v * val b) - ((1 - val v) * val a + val v * val b)) <= 21 / 10 * u24 * m /\ Rabs (rnd (rnd (1 - val v) * val a) + rnd (val v * val b)) <= 11 / 10 * m).
  { clear v FV V. intros v FV V. destruct (G v FV V) as (FO & FP & FQ & VO & VP & VQ). pose proof (lerp_err (val v) (rnd (1 - val v)) (rnd (rnd (1 - val v) * val a)) (rnd (val v * val b)) (val a) (val b) m V A B ltac:(lra) (rerr _) (rerr _) (rerr _)) as (E1 & E2).
    destruct (fadd_val _ _ FP FQ) as (F & W). { rewrite VP, VQ. apply (small_127 _ 121); [lia|]. eapply Rle_trans; [exact E2|]. replace (bpow radix2 121) with (2 * bpow radix2 120) by (change 121%Z with (1 + 120)%Z; rewrite bpow_plus; reflexivity). pose proof (bpow_gt_0 radix2 120). lra. }
    rewrite VP, VQ in W. unfold f_lerp. tauto. }
  destruct (T v FV V) as (F & W & E1 & E2). split; [exact F|]. split; [|split].
  - rewrite W. set (s := rnd (rnd (1 - val v) * val a) + rnd (val v * val b)) in *. pose proof (rerr s) as R. replace (rnd s - ((1 - val v) * val a + val v * val b)) with ((rnd s - s) + (s - ((1 - val v) * val a + val v * val b))) by ring. eapply Rle_trans; [apply Rabs_triang|].
    assert (R' : u24 * Rabs s <= u24 * (11 / 10 * m)) by (apply Rmult_le_compat_l; [unfold u24; lra|exact E2]). assert (H : h150 <= / 1000 * (u24 * m)).
    { unfold h150. replace (/ 1000 * (u24 * m)) with (/ 1000 * u24 * m) by ring. apply Rle_trans with (bpow radix2 (-40) * bpow radix2 (-100)); [rewrite <- bpow_plus; apply bpow_le; lia|]. apply Rmult_le_compat; [apply bpow_ge_0|apply bpow_ge_0| |apply M]. unfold u24. cbn. lra. }
    assert (0 < m) by (pose proof (bpow_gt_0 radix2 (-100)); lra). unfold u24 in *. lra.
  - destruct fzero_val as (FZ & VZ). destruct (T fzero FZ) as (_ & W0 & _); [rewrite VZ; lra|]. rewrite W0, VZ, Rminus_0_r, Rmult_0_l, rnd_0, Rplus_0_r, (rnd_fits 1), Rmult_1_l by (apply (fits_Z 1); lia). rewrite (rnd_fits (val a)) by apply fits_val. apply rnd_fits, fits_val.
  - destruct fone_val as (F1 & V1). destruct (T fone F1) as (_ & W1 & _); [rewrite V1; lra|]. rewrite W1, V1. replace (1 - 1) with 0 by ring. rewrite rnd_0, Rmult_0_l, rnd_0, Rplus_0_l, Rmult_1_l, (rnd_fits (val b)) by apply fits_val. apply rnd_fits, fits_val.
Qed.
Print Assumptions float_lerp.

Example lerp_case : B2SF (f_lerp (fnum 1 (-2)) (of_Z 2) (of_Z 6)) = B2SF (of_Z 3) /\ B2SF (f_lerp (fnum 13421773 (-27)) fone (of_Z 2)) = SpecFloat.S754_finite false 9227469 (-23).
Proof. split; vm_compute; reflexivity. Qed.

(* lerp between equal bounds can be above them, and a larger value can give less. *)
Theorem float_lerp_refuted :
  (exists v a, fin v /\ fin a /\ 0 <= val v <= 1 /\ val a < val (f_lerp v a a)) /\
  (exists v w a b, fin v /\ fin w /\ fin a /\ fin b /\ 0 <= val v < val w /\ val w <= 1 /\ val a < val b /\ val (f_lerp w a b) < val (f_lerp v a b)).
Proof.
  assert (L : forall x y, fin x -> fin y -> flt x y = true -> val x < val y) by (intros x y FX FY H; apply (flt_val x y FX FY); exact H). assert (LE : forall x y, fin x -> fin y -> fle x y = true -> val x <= val y) by (intros x y FX FY H; apply (fle_val x y FX FY); exact H).
  destruct fzero_val as (FZ & VZ). destruct fone_val as (F1 & V1). split.
  - exists (fnum 2433011 (-23)), (fnum 13561861 (-23)). split; [vm_compute; reflexivity|]. split; [vm_compute; reflexivity|]. split; [split; [rewrite <- VZ|rewrite <- V1]; apply LE; vm_compute; reflexivity|]. apply L; vm_compute; reflexivity.
  - exists (fnum 3132359 (-23)), (fnum 6264719 (-24)), (fnum 13672649 (-23)), (fnum 13672659 (-23)). split; [vm_compute; reflexivity|]. split; [vm_compute; reflexivity|]. split; [vm_compute; reflexivity|]. split; [vm_compute; reflexivity|].
    split; [split; [rewrite <- VZ; apply LE|apply L]; vm_compute; reflexivity|]. split; [rewrite <- V1; apply LE; vm_compute; reflexivity|]. split; apply L; vm_compute; reflexivity.
Qed.
Print Assumptions float_lerp_refuted.

Lemma sub_zero_val : forall x, fin x -> Rabs (val x) <= bpow radix2 127 -> fin (fsub x fzero) /\ val (fsub x fzero) = val x.
Proof. intros x F B. destruct fzero_val as (FZ & VZ). destruct (fsub_val x fzero F FZ) as (G & V); [rewrite VZ, Rminus_0_r; exact B|]. split; [exact G|]. rewrite V, VZ, Rminus_0_r. apply rnd_fits, fits_val. Qed.

(* the two ways to the number: from 0, and from the density before *)
Lemma part_unit : forall x lo hi, fin x -> fin lo -> fin hi -> 0 <= val lo -> val lo <= val x <= val hi -> val lo < val hi -> val hi <= bpow radix2 127 ->
  fin (f_inverse_lerp (fsub x lo) fzero (fsub hi lo)) /\ 0 <= val (f_inverse_lerp (fsub x lo) fzero (fsub hi lo)) <= 1.
Proof.
  intros x lo hi FX FL FH L X D H. destruct (fsub_val x lo FX FL) as (F1 & V1); [apply Rabs_le; lra|]. destruct (fsub_val hi lo FH FL) as (F2 & V2); [apply Rabs_le; lra|]. pose proof (diff_pos _ _ D) as P.
  assert (B1 : 0 <= rnd (val x - val lo) <= rnd (val hi - val lo)) by (split; [apply rnd_nonneg; lra|apply rnd_le; lra]). assert (B2 : rnd (val hi - val lo) <= bpow radix2 127) by (rewrite <- (rnd_fits (bpow radix2 127)) by (apply fits_bpow; lia); apply rnd_le; lra).
  destruct (sub_zero_val (fsub x lo) F1) as (F3 & V3); [rewrite V1, Rabs_pos_eq; lra|]. destruct (sub_zero_val (fsub hi lo) F2) as (F4 & V4); [rewrite V2, Rabs_pos_eq; lra|]. unfold f_inverse_lerp.
  destruct (div_unit _ _ F3 F4) as (F & _ & B); [rewrite V3, V4, V1, V2; exact B1|rewrite V4, V2; exact P|]. split; assumption.
Qed.

Lemma first_unit : forall x hi, fin x -> fin hi -> 0 <= val x < val hi -> val hi <= bpow radix2 127 -> fin (f_inverse_lerp x fzero hi) /\ 0 <= val (f_inverse_lerp x fzero hi) <= 1.
Proof.
  intros x hi FX FH X H. destruct (sub_zero_val x FX) as (F3 & V3); [rewrite Rabs_pos_eq; lra|]. destruct (sub_zero_val hi FH) as (F4 & V4); [rewrite Rabs_pos_eq; lra|]. unfold f_inverse_lerp.
  destruct (div_unit _ _ F3 F4) as (F & _ & B); [rewrite V3, V4; lra|rewrite V4; lra|]. split; assumption.
Qed.

(* Whatever the random number in [0,1], the face of a mesh that is chosen is sampled with a number
   between 0 and 1, if the last face adds to the sum of the areas. *)
Theorem float_mesh_sample01 : forall areas r0 a n fuel,
  Forall (fun a => fin a /\ 0 <= val a) (areas ++ a :: nil) -> areas <> nil ->
  let d := f_densities fzero (areas ++ a :: nil) in
  Forall (fun x => fin x /\ val x <= bpow radix2 127) d ->
  length areas = n -> (exists u v, nth_error d (n - 1) = Some u /\ nth_error d n = Some v /\ val u < val v) ->
  fin r0 -> 0 <= val r0 <= 1 -> (n <= fuel)%nat ->
  exists k s, f_sample01 fuel d r0 = Ok (k, s) /\ f_sample_face fuel d r0 = Ok k /\ (0 <= k <= Z.of_nat n)%Z /\ fin s /\ 0 <= val s <= 1.
Proof.
  intros areas r0 a n fuel A NE d D LN (u & v & NU & NV & UV) FR BR FU. assert (FD : Forall fin d) by (apply Forall_impl with (2 := D); intros x H; apply H).
  destruct (float_densities_sorted (areas ++ a :: nil) A FD) as [_ POS]; fold d in POS. assert (LD : length d = S n) by (unfold d; rewrite densities_length, app_length; cbn; lia). assert (N1 : (1 <= n)%nat) by (subst n; destruct areas; [congruence | cbn; lia]).
  assert (BND : forall i y, nth_error d i = Some y -> fin y /\ 0 <= val y <= bpow radix2 127). { intros i y Y. apply nth_error_In in Y. rewrite Forall_forall in D, POS. destruct (D y Y). split; [assumption|]. split; [apply POS; exact Y|assumption]. } clearbody d. clear A NE LN areas a.
  unfold f_sample01, f_sample_face; rewrite LD; replace (Z.of_nat (S n) - 1)%Z with (Z.of_nat n) by lia.
  assert (GV : f_get d (Z.of_nat n) = Ok v) by (unfold f_get; destruct (Z.ltb_spec (Z.of_nat n) 0); [lia |]; rewrite Nat2Z.id, NV; reflexivity).
  assert (GU : f_get d (Z.of_nat n - 1) = Ok u). { unfold f_get; destruct (Z.ltb_spec (Z.of_nat n - 1) 0); [lia |]; replace (Z.to_nat (Z.of_nat n - 1)) with (n - 1)%nat by lia; rewrite NU; reflexivity. }
  rewrite GV; cbn [bind]. destruct (BND _ _ NV) as (FV & VB). destruct (BND _ _ NU) as (FUu & UB). change (f_lerp r0 fzero v) with (f_pick r0 v). destruct (pick_val r0 v FR BR FV VB) as (FX & VX & BX); set (x := f_pick r0 v) in *. rewrite <- VX in BX.
  destruct (get_nth d 0) as (d0 & G0 & N0); [lia |]. destruct (BND _ _ N0) as (F0 & B0).
  rewrite G0; cbn [bind]; destruct (flt x d0) eqn:E0.
  { exists 0%Z, (f_inverse_lerp x fzero d0). apply (flt_val _ _ FX F0) in E0. split; [reflexivity|]. split; [reflexivity|]. split; [lia|]. apply first_unit; try assumption; lra. }
  rewrite GU; cbn [bind]; unfold fgt; fold (flt u x); destruct (flt u x) eqn:E1.
  { exists (Z.of_nat n), (f_inverse_lerp (fsub x u) fzero (fsub v u)). apply (flt_val _ _ FUu FX) in E1. split; [reflexivity|]. split; [reflexivity|]. split; [lia|]. apply part_unit; try assumption; lra. }
  destruct (search_ends d x FD FX fuel 0 (Z.of_nat n) d0 v) as (k & dk & dn & R1 & R2 & R3 & R4 & R5); try assumption; try lia.
  { split.
    - apply Rnot_lt_le; intro K; assert (flt x d0 = true) by (apply flt_val; assumption); congruence.
    - apply Rle_lt_trans with (val u); [| exact UV]; apply Rnot_lt_le; intro K; assert (flt u x = true) by (apply flt_val; assumption); congruence. }
  assert (GB : forall i y, f_get d i = Ok y -> fin y /\ 0 <= val y <= bpow radix2 127). { intros i y Y. unfold f_get in Y. destruct (i <? 0)%Z; [discriminate|]. destruct (nth_error d (Z.to_nat i)) as [y'|] eqn:Q; [|discriminate]. injection Y as <-. exact (BND _ _ Q). }
  destruct (GB _ _ R3) as (FK & BK). destruct (GB _ _ R4) as (FN & BN). rewrite R1. cbn [bind]. rewrite R3. cbn [bind]. rewrite R4. cbn [bind]. exists k, (f_inverse_lerp (fsub x dk) fzero (fsub dn dk)). split; [reflexivity|]. split; [reflexivity|]. split; [lia|]. apply part_unit; try assumption; lra.
Qed.
Print Assumptions float_mesh_sample01.

(* areas 3, 1/2 and 4, random number 7/16: the sample 3.28125 is 9/16 of the second area *)
Example mesh_sample01_case : match f_sample01 4 (f_densities fzero (of_Z 3 :: fnum 1 (-1) :: of_Z 4 :: nil)) (fnum 7 (-4)) with Ok (k, s) => k = 0%Z /\ B2SF s = B2SF (fnum 9 (-4)) | _ => False end.
Proof. vm_compute. split; reflexivity. Qed.
