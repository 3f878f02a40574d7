(* Distances and cross products in single precision. *)
From Coq Require Import ZArith Reals List Lra Lia Bool.
From Flocq Require Import Core.Core Plus_error Relative IEEE754.BinarySingleNaN.
From Verif Require Import Common FltModel FltFacts FltProps FRayModel FExtFacts FBoxMarginProps FFilmProps FFresProps FFresNearProps FMatBoundProps FSpecProps FVecEqProps FDistModel FltVecProps.
Local Open Scope R_scope.

(* the coordinates are within 2^40 of 0 *)
Definition vnear (v : fvec) : Prop := vfin v /\ Rabs (val (fx v)) <= bpow radix2 40 /\ Rabs (val (fy v)) <= bpow radix2 40 /\ Rabs (val (fz v)) <= bpow radix2 40.
(* the exact distance *)
Definition dist2 (a b : fvec) : R := (val (fx b) - val (fx a)) ^ 2 + (val (fy b) - val (fy a)) ^ 2 + (val (fz b) - val (fz a)) ^ 2.

(* differences of floats have a relative error, however small they are *)
Lemma diff_rel : forall x y, exists e, Rabs e <= u24 /\ rnd (val x - val y) = (val x - val y) * (1 + e).
Proof.
  intros x y. destruct (FLT_plus_error_N_ex radix2 (-149) 24 (fun z => negb (Z.even z)) (val x) (- val y) (fits_val x) (fits_opp _ (fits_val y))) as (e & E & R). exists e. split; [|exact R].
  eapply Rle_trans; [exact E|]. assert (U : u_ro radix2 24 = u24) by (unfold u_ro; replace (/ 2) with (bpow radix2 (-1)) by (cbn; lra); rewrite <- bpow_plus; apply u24_bpow). rewrite U. apply (Rmult_le_reg_r (1 + u24)); [unfold u24; lra|]. unfold Rdiv. rewrite Rmult_assoc, Rinv_l by (unfold u24; lra). unfold u24. lra.
Qed.

Lemma sub_near : forall x y, fin x -> fin y -> Rabs (val x) <= bpow radix2 40 -> Rabs (val y) <= bpow radix2 40 -> fin (fsub x y) /\ val (fsub x y) = rnd (val x - val y) /\ Rabs (val (fsub x y)) <= bpow radix2 41.
Proof.
  intros x y FX FY X Y. pose proof (bpow_plus radix2 40 1) as P. change (40 + 1)%Z with 41%Z in P. replace (bpow radix2 1) with 2 in P by (cbn; lra). assert (D : Rabs (val x - val y) <= bpow radix2 41) by (apply abs_both in X; apply abs_both in Y; apply Rabs_le; lra).
  destruct (fsub_val x y FX FY) as (F & V); [apply (small_127 _ 41); [lia|exact D]|]. split; [exact F|]. split; [exact V|]. rewrite V. rewrite <- (rnd_fits (bpow radix2 41)) by (apply fits_bpow; lia). apply rnd_abs_le. exact D.
Qed.

Lemma square_val : forall x, fin x -> Rabs (val x) <= bpow radix2 41 -> fin (fmul x x) /\ val (fmul x x) = rnd (val x * val x) /\ 0 <= val (fmul x x) <= bpow radix2 82.
Proof.
  intros x F B. assert (S : 0 <= val x * val x <= bpow radix2 82). { split; [nra|]. rewrite <- (Rabs_pos_eq (val x * val x)) by nra. rewrite Rabs_mult. change 82%Z with (41 + 41)%Z. rewrite bpow_plus. apply Rmult_le_compat; try apply Rabs_pos; exact B. }
  destruct (fmul_val x x F F) as (G & V); [apply (small_127 _ 82); [lia|rewrite Rabs_pos_eq; lra]|]. split; [exact G|]. split; [exact V|]. rewrite V. apply rnd_between; [apply fits_0|apply fits_bpow; lia|exact S].
Qed.

Lemma sum_val : forall x y e, fin x -> fin y -> 0 <= val x <= bpow radix2 e -> 0 <= val y <= bpow radix2 e -> (-149 <= e + 1 <= 127)%Z -> fin (fadd x y) /\ val (fadd x y) = rnd (val x + val y) /\ 0 <= val (fadd x y) <= bpow radix2 (e + 1).
Proof.
  intros x y e FX FY X Y E. assert (S : 0 <= val x + val y <= bpow radix2 (e + 1)) by (rewrite bpow_plus; replace (bpow radix2 1) with 2 by (cbn; lra); lra).
  destruct (fadd_val x y FX FY) as (G & V); [apply (small_127 _ (e + 1)); [lia|rewrite Rabs_pos_eq; lra]|]. split; [exact G|]. split; [exact V|]. rewrite V. apply rnd_between; [apply fits_0|apply fits_bpow; lia|exact S].
Qed.

Definition sq (x : R) : R := rnd (rnd x * rnd x).

Lemma distance_form : forall a b, vnear a -> vnear b -> fin (f_distance a b) /\
  val (f_distance a b) = rnd (sqrt (rnd (rnd (sq (val (fx b) - val (fx a)) + sq (val (fy b) - val (fy a))) + sq (val (fz b) - val (fz a))))).
Proof.
  intros a b ((AX & AY & AZ) & BAX & BAY & BAZ) ((FX & FY & FZ) & BX & BY & BZ). unfold f_distance, fv_sub. cbv zeta. cbn [fx fy fz].
  destruct (sub_near _ _ FX AX BX BAX) as (F1 & V1 & B1). destruct (sub_near _ _ FY AY BY BAY) as (F2 & V2 & B2). destruct (sub_near _ _ FZ AZ BZ BAZ) as (F3 & V3 & B3).
  destruct (square_val _ F1 B1) as (G1 & W1 & C1). destruct (square_val _ F2 B2) as (G2 & W2 & C2). destruct (square_val _ F3 B3) as (G3 & W3 & C3). destruct (sum_val _ _ 82 G1 G2 C1 C2) as (G4 & W4 & C4); [lia|].
  assert (C3' : 0 <= val (fmul (fsub (fz b) (fz a)) (fsub (fz b) (fz a))) <= bpow radix2 (82 + 1)) by (split; [apply C3|eapply Rle_trans; [apply C3|apply bpow_le; lia]]). destruct (sum_val _ _ (82 + 1) G4 G3 C4 C3') as (G5 & W5 & C5); [lia|]. destruct (fsqrt_val _ G5) as (G & W); [apply C5|]. split; [exact G|].
  rewrite W, W5, W4, W3, W2, W1, V1, V2, V3. reflexivity.
Qed.

Lemma sq_opp : forall x, sq (- x) = sq x.
Proof. intro x. unfold sq. rewrite rnd_opp. f_equal. ring. Qed.

(* Distances are finite, not negative, the same both ways and 0 from a point to itself. *)
Theorem float_distance_symmetric : forall a b, vnear a -> vnear b ->
  fin (f_distance a b) /\ 0 <= val (f_distance a b) /\ val (f_distance b a) = val (f_distance a b) /\ val (f_distance a a) = 0.
Proof.
  intros a b A B. destruct (distance_form a b A B) as (F & V). destruct (distance_form b a B A) as (_ & V'). destruct (distance_form a a A A) as (_ & V0). split; [exact F|]. split; [rewrite V; apply rnd_nonneg, sqrt_pos|]. split.
  - rewrite V, V'. rewrite <- (sq_opp (val (fx a) - val (fx b))), <- (sq_opp (val (fy a) - val (fy b))), <- (sq_opp (val (fz a) - val (fz b))), !Ropp_minus_distr. reflexivity.
  - rewrite V0. assert (Z : forall x, sq (x - x) = 0) by (intro x; unfold sq; replace (x - x) with 0 by ring; rewrite rnd_0, Rmult_0_l; apply rnd_0). rewrite !Z, Rplus_0_l, rnd_0, Rplus_0_l, rnd_0, sqrt_0. apply rnd_0.
Qed.
Print Assumptions float_distance_symmetric.

Lemma sqrt_near : forall s t, 0 < s -> s * (1 - 71 / 10 * u24) <= t <= s * (1 + 71 / 10 * u24) -> sqrt s * (1 - 36 / 10 * u24) <= sqrt t <= sqrt s * (1 + 36 / 10 * u24).
Proof.
  intros s t S (L & U). pose proof (sqrt_lt_R0 s S) as P. pose proof (sqrt_sqrt s ltac:(lra)) as Q. assert (L0 : 0 <= 1 - 36 / 10 * u24) by (unfold u24; lra). split.
  - rewrite <- (sqrt_square (sqrt s * (1 - 36 / 10 * u24))) by (apply Rmult_le_pos; lra). apply sqrt_le_1_alt. replace (sqrt s * (1 - 36 / 10 * u24) * (sqrt s * (1 - 36 / 10 * u24))) with (sqrt s * sqrt s * ((1 - 36 / 10 * u24) * (1 - 36 / 10 * u24))) by ring. rewrite Q. eapply Rle_trans; [|exact L]. apply Rmult_le_compat_l; [lra|]. unfold u24. lra.
  - rewrite <- (sqrt_square (sqrt s * (1 + 36 / 10 * u24))) by (apply Rmult_le_pos; unfold u24; lra). apply sqrt_le_1_alt. replace (sqrt s * (1 + 36 / 10 * u24) * (sqrt s * (1 + 36 / 10 * u24))) with (sqrt s * sqrt s * ((1 + 36 / 10 * u24) * (1 + 36 / 10 * u24))) by ring. rewrite Q. eapply Rle_trans; [exact U|]. apply Rmult_le_compat_l; [lra|]. unfold u24. lra.
Qed.

Lemma rel_square : forall x e, Rabs e <= u24 -> x * x * (1 - 201 / 100 * u24) <= x * (1 + e) * (x * (1 + e)) <= x * x * (1 + 201 / 100 * u24).
Proof.
  intros x e E. apply abs_both in E. replace (x * (1 + e) * (x * (1 + e))) with (x * x * ((1 + e) * (1 + e))) by ring. assert (0 <= x * x) by nra. assert (- (201 / 100 * u24) <= 2 * e + e * e <= 201 / 100 * u24) by (unfold u24 in *; split; nra). split; apply Rmult_le_compat_l; lra.
Qed.

(* The distance of two points at least 2^-45 apart has a relative error of at most 5 2^-24. *)
Theorem float_distance_near : forall a b, vnear a -> vnear b -> bpow radix2 (-90) <= dist2 a b ->
  Rabs (val (f_distance a b) - sqrt (dist2 a b)) <= 5 * u24 * sqrt (dist2 a b).
Proof.
  intros a b A B D. pose proof A as ((AX & AY & AZ) & BAX & BAY & BAZ). pose proof B as ((FX & FY & FZ) & BX & BY & BZ).
  destruct (sub_near _ _ FX AX BX BAX) as (F1 & V1 & B1). destruct (sub_near _ _ FY AY BY BAY) as (F2 & V2 & B2). destruct (sub_near _ _ FZ AZ BZ BAZ) as (F3 & V3 & B3).
  destruct (diff_rel (fx b) (fx a)) as (e1 & E1 & R1). destruct (diff_rel (fy b) (fy a)) as (e2 & E2 & R2). destruct (diff_rel (fz b) (fz a)) as (e3 & E3 & R3).
  pose proof (rel_square (val (fx b) - val (fx a)) e1 E1) as Q1. pose proof (rel_square (val (fy b) - val (fy a)) e2 E2) as Q2. pose proof (rel_square (val (fz b) - val (fz a)) e3 E3) as Q3. rewrite <- R1, <- V1 in Q1. rewrite <- R2, <- V2 in Q2. rewrite <- R3, <- V3 in Q3.
  assert (L : dist2 a b * (1 - 201 / 100 * u24) <= length2 (fv_sub b a) <= dist2 a b * (1 + 201 / 100 * u24)). { unfold length2, fv_sub, dist2. cbn [fx fy fz]. clear - Q1 Q2 Q3. split; lra. }
  pose proof (bpow_gt_0 radix2 (-90)) as G. assert (S0 : 0 < dist2 a b) by lra. set (s := dist2 a b) in *.
  assert (LB : bpow radix2 (-100) <= length2 (fv_sub b a) <= bpow radix2 100).
  { split; [apply Rle_trans with (s * (1 - 201 / 100 * u24)); [|apply L]; apply Rle_trans with (bpow radix2 (-90) * / 2); [replace (/ 2) with (bpow radix2 (-1)) by (cbn; lra); rewrite <- bpow_plus; apply bpow_le; lia|]; apply Rmult_le_compat; unfold u24; lra|].
    unfold length2, fv_sub. cbn [fx fy fz]. assert (T : forall x, Rabs x <= bpow radix2 41 -> x * x <= bpow radix2 82). { intros x X. change 82%Z with (41 + 41)%Z. rewrite bpow_plus. rewrite <- (Rabs_pos_eq (x * x)) by nra. rewrite Rabs_mult. apply Rmult_le_compat; try apply Rabs_pos; exact X. } pose proof (T _ B1). pose proof (T _ B2). pose proof (T _ B3).
    apply Rle_trans with (4 * bpow radix2 82); [pose proof (bpow_gt_0 radix2 82); lra|]. replace 4 with (bpow radix2 2) by (cbn; lra). rewrite <- bpow_plus. apply bpow_le; lia. }
  destruct (len2_val (fv_sub b a)) as (FL & VL); [repeat split; assumption|exact LB|]. change (f_distance a b) with (fsqrt (f_len2 (fv_sub b a))). set (t := val (f_len2 (fv_sub b a))) in *. set (l := length2 (fv_sub b a)) in *.
  assert (T : s * (1 - 71 / 10 * u24) <= t <= s * (1 + 71 / 10 * u24)).
  { clearbody t l s. clear - L VL S0. split; [apply Rle_trans with (l * (1 - 5 * u24)); [|apply VL]; apply Rle_trans with (s * (1 - 201 / 100 * u24) * (1 - 5 * u24)); [|apply Rmult_le_compat_r; [unfold u24; lra|apply L]]|apply Rle_trans with (l * (1 + 5 * u24)); [apply VL|]; apply Rle_trans with (s * (1 + 201 / 100 * u24) * (1 + 5 * u24)); [apply Rmult_le_compat_r; [unfold u24; lra|apply L]|]]; rewrite Rmult_assoc; apply Rmult_le_compat_l; unfold u24; lra. }
  assert (T0 : 0 <= t) by (apply Rle_trans with (s * (1 - 71 / 10 * u24)); [apply Rmult_le_pos; unfold u24; lra|apply T]). destruct (fsqrt_val _ FL T0) as (_ & W). fold t in W. rewrite W. pose proof (sqrt_near s t S0 T) as K.
  assert (M : bpow radix2 (-45) <= sqrt s). { rewrite <- (sqrt_square (bpow radix2 (-45))) by apply bpow_ge_0. apply sqrt_le_1_alt. rewrite <- bpow_plus. exact D. } set (d := sqrt s) in *. set (r := sqrt t) in *. clearbody d r. clear - K M.
  pose proof (bpow_gt_0 radix2 (-45)) as G. destruct (rel_error r) as (e & E & R).
  { rewrite Rabs_pos_eq by (unfold u24 in *; lra). apply Rle_trans with (bpow radix2 (-45) * / 2); [replace (/ 2) with (bpow radix2 (-1)) by (cbn; lra); rewrite <- bpow_plus; apply bpow_le; lia|]. unfold u24 in *; lra. }
  rewrite R. apply abs_both in E. assert (RE : - (1002 / 1000 * u24 * d) <= r * e <= 1002 / 1000 * u24 * d) by (unfold u24 in *; clear - K E G M; split; nra). apply Rabs_le. unfold u24 in *. lra.
Qed.
Print Assumptions float_distance_near.

(* (1,2,3) and (4,6,3) *)
Example distance_case : let z n := of_Z n in B2SF (f_distance (mk_fvec (z 1) (z 2) (z 3)) (mk_fvec (z 4) (z 6) (z 3)))%Z = B2SF (z 5%Z).
Proof. vm_compute. reflexivity. Qed.

Lemma tiny_sq : forall x, Rabs x <= bpow radix2 (-76) -> sq x = 0.
Proof.
  intros x X. unfold sq. assert (R : Rabs (rnd x) <= bpow radix2 (-76)) by (rewrite <- (rnd_fits (bpow radix2 (-76))) by (apply fits_bpow; lia); apply rnd_abs_le; exact X).
  apply tiny_zero. split; [nra|]. apply Rle_lt_trans with (bpow radix2 (-152)); [|apply bpow_lt; lia]. rewrite <- (Rabs_pos_eq (rnd x * rnd x)) by nra. rewrite Rabs_mult. change (-152)%Z with (-76 + -76)%Z. rewrite bpow_plus. apply Rmult_le_compat; try apply Rabs_pos; exact R.
Qed.

(* Points whose coordinates differ by at most 2^-76 are at distance 0. *)
Theorem float_distance_zero_refuted : forall a b, vnear a -> vnear b ->
  Rabs (val (fx b) - val (fx a)) <= bpow radix2 (-76) -> Rabs (val (fy b) - val (fy a)) <= bpow radix2 (-76) -> Rabs (val (fz b) - val (fz a)) <= bpow radix2 (-76) -> val (f_distance a b) = 0.
Proof. intros a b A B X Y Z. destruct (distance_form a b A B) as (_ & V). rewrite V, (tiny_sq _ X), (tiny_sq _ Y), (tiny_sq _ Z), Rplus_0_l, rnd_0, Rplus_0_l, rnd_0, sqrt_0. apply rnd_0. Qed.
Print Assumptions float_distance_zero_refuted.

(* the origin and (2^-76,0,0) are different points *)
Example distance_zero_case : let o := mk_fvec fzero fzero fzero in let p := mk_fvec (fnum 1 (-76)) fzero fzero in B2SF (f_distance o p) = B2SF fzero /\ Beqb (fx o) (fx p) = false.
Proof. split; vm_compute; reflexivity. Qed.

Lemma mul_near : forall x y, fin x -> fin y -> Rabs (val x) <= bpow radix2 40 -> Rabs (val y) <= bpow radix2 40 -> fin (fmul x y) /\ val (fmul x y) = rnd (val x * val y) /\ Rabs (val (fmul x y)) <= bpow radix2 80.
Proof.
  intros x y FX FY X Y. assert (D : Rabs (val x * val y) <= bpow radix2 80) by (rewrite Rabs_mult; change 80%Z with (40 + 40)%Z; rewrite bpow_plus; apply Rmult_le_compat; try apply Rabs_pos; assumption).
  destruct (fmul_val x y FX FY) as (F & V); [apply (small_127 _ 80); [lia|exact D]|]. split; [exact F|]. split; [exact V|]. rewrite V. rewrite <- (rnd_fits (bpow radix2 80)) by (apply fits_bpow; lia). apply rnd_abs_le. exact D.
Qed.

Lemma minor_val : forall a b c d, fin a -> fin b -> fin c -> fin d -> Rabs (val a) <= bpow radix2 40 -> Rabs (val b) <= bpow radix2 40 -> Rabs (val c) <= bpow radix2 40 -> Rabs (val d) <= bpow radix2 40 ->
  fin (fsub (fmul a b) (fmul c d)) /\ val (fsub (fmul a b) (fmul c d)) = rnd (rnd (val a * val b) - rnd (val c * val d)).
Proof.
  intros a b c d FA FB FC FD A B C D. destruct (mul_near a b FA FB A B) as (F1 & V1 & B1). destruct (mul_near c d FC FD C D) as (F2 & V2 & B2). rewrite <- V1, <- V2. apply fsub_val; [exact F1|exact F2|]. apply (small_127 _ 81); [lia|]. eapply Rle_trans; [apply Rabs_triang|]. rewrite Rabs_Ropp. replace (bpow radix2 81) with (bpow radix2 80 + bpow radix2 80) by (change 81%Z with (80 + 1)%Z; rewrite bpow_plus; replace (bpow radix2 1) with 2 by (cbn; lra); ring). lra.
Qed.

Lemma minor_opp : forall a b c d, rnd (rnd (a * b) - rnd (c * d)) = - rnd (rnd (d * c) - rnd (b * a)).
Proof. intros a b c d. rewrite <- rnd_opp, Ropp_minus_distr, (Rmult_comm a b), (Rmult_comm c d). reflexivity. Qed.

(* The cross product changes sign when the vectors are exchanged, with no tolerance, and that of a
   vector with itself is 0. *)
Theorem float_cross_antisymmetric : forall a b, vnear a -> vnear b ->
  vfin (fv_cross a b) /\ (forall k, val (fcoord k (fv_cross b a)) = - val (fcoord k (fv_cross a b))) /\ (forall k, val (fcoord k (fv_cross a a)) = 0).
Proof.
  intros a b A B.
  assert (G : forall a b, vnear a -> vnear b -> vfin (fv_cross a b) /\ val (fx (fv_cross a b)) = rnd (rnd (val (fy a) * val (fz b)) - rnd (val (fz a) * val (fy b))) /\ val (fy (fv_cross a b)) = rnd (rnd (val (fz a) * val (fx b)) - rnd (val (fx a) * val (fz b))) /\ val (fz (fv_cross a b)) = rnd (rnd (val (fx a) * val (fy b)) - rnd (val (fy a) * val (fx b)))).
  { clear a b A B. intros a b ((AX & AY & AZ) & BAX & BAY & BAZ) ((FX & FY & FZ) & BX & BY & BZ). unfold fv_cross, vfin. cbn [fx fy fz].
    destruct (minor_val _ _ _ _ AY FZ AZ FY BAY BZ BAZ BY) as (F1 & V1). destruct (minor_val _ _ _ _ AZ FX AX FZ BAZ BX BAX BZ) as (F2 & V2). destruct (minor_val _ _ _ _ AX FY AY FX BAX BY BAY BX) as (F3 & V3). tauto. }
  destruct (G a b A B) as (F & X & Y & Z). destruct (G b a B A) as (_ & X' & Y' & Z'). destruct (G a a A A) as (_ & X0 & Y0 & Z0). split; [exact F|]. split.
  - intros [|[|k]]; cbn [fcoord]; [rewrite X, X'|rewrite Y, Y'|rewrite Z, Z']; apply minor_opp.
  - assert (S : forall x y, rnd (rnd (x * y) - rnd (y * x)) = 0) by (intros x y; rewrite (Rmult_comm y x); replace (rnd (x * y) - rnd (x * y)) with 0 by ring; apply rnd_0). intros [|[|k]]; cbn [fcoord]; [rewrite X0|rewrite Y0|rewrite Z0]; apply S.
Qed.
Print Assumptions float_cross_antisymmetric.

(* the x and the y axis *)
Example cross_case : let x := mk_fvec fone fzero fzero in let y := mk_fvec fzero fone fzero in B2SF (fz (fv_cross x y)) = B2SF fone /\ B2SF (fz (fv_cross y x)) = B2SF (of_Z (-1)) /\ B2SF (fx (fv_cross x y)) = B2SF fzero.
Proof. repeat split; vm_compute; reflexivity. Qed.
