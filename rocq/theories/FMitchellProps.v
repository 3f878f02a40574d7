(* Weights of the Mitchell filter in single precision. *)
From Coq Require Import ZArith Reals List Lra Lia Bool.
From Flocq Require Import Core.Core IEEE754.BinarySingleNaN.
From Verif Require Import Common FltModel FltFacts FltProps FRayModel FSphereProps FBoxMarginProps FMatBoundProps FFilmProps FFresProps FFresNearProps FTexModel FTexProps FSpecNearProps FFilterModel FFilterProps FNearFacts.
Local Open Scope R_scope.

Ltac nmul H1 H2 Z e := (eapply (near_weaken _ _ Z _ Z e); [eapply (near_mul _ _ _ _ _ _ _ _ Z); [exact H1|exact H2|eapply Rle_trans; [apply mult_abs; [apply H1|apply H2]|lra]|lra..]|lra|lra]).
Ltac nadd H1 H2 Z e := (eapply (near_weaken _ _ Z _ Z e); [eapply (near_add _ _ _ _ _ _ _ _ Z); [exact H1|exact H2| |lra..]|lra|lra]).
Ltac nsub H1 H2 Z e := (eapply (near_weaken _ _ Z _ Z e); [eapply (near_sub _ _ _ _ _ _ _ _ Z); [exact H1|exact H2| |lra..]|lra|lra]).

(* the exact piecewise cubic, written without the model *)
Definition cubic (b c x : R) : R :=
  if Rlt_dec 1 x then (b * ((2 - x) * (2 - x) * (2 - x)) - 6 * c * ((x - 1) * ((2 - x) * (2 - x)))) / 6
  else 1 - 3 * (x * x) + 2 * (x * x * x) + b / 6 * (12 * (x * x) - 9 * (x * x * x) - 2) + c * (x * x * (1 - x)).

Lemma cubic_size : forall b c x, 0 <= b <= 1 -> 0 <= c <= 1 -> 0 <= x <= 2 -> Rabs (cubic b c x) <= 3 / 2.
Proof.
  intros b c x B C X. unfold cubic. destruct (Rlt_dec 1 x) as [L|L].
  - set (y := 2 - x). assert (Y : 0 <= y <= 1) by (unfold y; lra). replace (x - 1) with (1 - y) by (unfold y; lra). clearbody y.
    assert (Y2 : 0 <= y * y <= 1) by (split; [apply Rmult_le_pos; lra|replace 1 with (1 * 1) by ring; apply Rmult_le_compat; lra]).
    assert (Y3 : 0 <= y * y * y <= 1) by (split; [apply Rmult_le_pos; lra|replace 1 with (1 * 1) by ring; apply Rmult_le_compat; lra]).
    assert (Z3 : 0 <= (1 - y) * (y * y) <= 1) by (split; [apply Rmult_le_pos; lra|replace 1 with (1 * 1) by ring; apply Rmult_le_compat; lra]).
    set (p := y * y * y) in *. set (q := (1 - y) * (y * y)) in *. clearbody p q.
    assert (0 <= b * p <= 1) by (split; [apply Rmult_le_pos; lra|replace 1 with (1 * 1) by ring; apply Rmult_le_compat; lra]).
    assert (0 <= c * q <= 1) by (split; [apply Rmult_le_pos; lra|replace 1 with (1 * 1) by ring; apply Rmult_le_compat; lra]).
    apply Rabs_le. lra.
  - assert (X1 : 0 <= x <= 1) by lra. assert (X2 : 0 <= x * x <= 1) by (split; [apply Rmult_le_pos; lra|replace 1 with (1 * 1) by ring; apply Rmult_le_compat; lra]).
    assert (X3 : 0 <= x * x * x <= x * x) by (split; [apply Rmult_le_pos; lra|rewrite <- (Rmult_1_r (x * x)) at 2; apply Rmult_le_compat_l; lra]).
    assert (E0 : 0 <= (1 - x) * (1 - x) * (1 + 2 * x)) by (apply Rmult_le_pos; [apply Rle_0_sqr|lra]).
    assert (E1 : 0 <= (1 - x) * (1 - x) * (1 + 3 * x)) by (apply Rmult_le_pos; [apply Rle_0_sqr|lra]).
    replace (x * x * (1 - x)) with (x * x - x * x * x) by ring.
    replace ((1 - x) * (1 - x) * (1 + 2 * x)) with (1 - 3 * (x * x) + 2 * (x * x * x)) in E0 by ring.
    replace ((1 - x) * (1 - x) * (1 + 3 * x)) with (1 + x - 5 * (x * x) + 3 * (x * x * x)) in E1 by ring.
    set (s := x * x) in *. set (t := s * x) in *.
    assert (T : Rabs (12 * s - 9 * t - 2) <= 2).
    { assert (H1 : 0 <= x * ((x - 8 / 9) * (x - 8 / 9))) by (apply Rmult_le_pos; [lra|apply Rle_0_sqr]). assert (H2 : 0 <= (x - 8 / 9) * (x - 8 / 9)) by apply Rle_0_sqr.
      replace (x * ((x - 8 / 9) * (x - 8 / 9))) with (t - 16 / 9 * s + 64 / 81 * x) in H1 by (unfold t, s; field). replace ((x - 8 / 9) * (x - 8 / 9)) with (s - 16 / 9 * x + 64 / 81) in H2 by (unfold s; field).
      clearbody t s. apply Rabs_le. lra. }
    assert (TB : Rabs (b / 6 * (12 * s - 9 * t - 2)) <= 1 / 6 * 2) by (apply mult_abs; [rewrite Rabs_pos_eq; lra|exact T]).
    assert (C1 : 0 <= c * (s - t) <= s - t) by (split; [apply Rmult_le_pos; lra|rewrite <- (Rmult_1_l (s - t)) at 2; apply Rmult_le_compat_r; lra]).
    clearbody t s. apply abs_both in TB. apply Rabs_le. lra.
Qed.

(* the argument of the cubic *)
Lemma mitchell_arg : forall o, fin o -> Rabs (val o) <= 2 ->
  let x := fabs (fmul (fmul o (fdiv fone (of_Z 2))) (of_Z 2)) in near x (Rabs (val o)) 2 (21 / 10) /\ (1 < val x <-> 1 < Rabs (val o)).
Proof.
  intros o F O. cbv zeta. destruct two_val as (F2 & V2). destruct fone_val as (FO & VO).
  assert (H : fin (fdiv fone (of_Z 2)) /\ val (fdiv fone (of_Z 2)) = / 2).
  { destruct (fdiv_val fone (of_Z 2) FO) as (G & V); [rewrite V2; lra|rewrite V2, VO; apply one_127; rewrite Rabs_pos_eq; lra|]. split; [exact G|]. rewrite V, V2, VO.
    replace (1 / 2) with (bpow radix2 (-1)) by (cbn; lra). rewrite rnd_fits by (apply fits_bpow; lia). cbn; lra. }
  destruct H as (FH & VH). set (hf := fdiv fone (of_Z 2)) in *. clearbody hf.
  assert (O2 : Rabs (val o * / 2) <= 1) by (rewrite Rabs_mult, (Rabs_pos_eq (/ 2)) by lra; lra).
  destruct (fmul_val o hf F FH) as (FM & VM); [rewrite VH; apply one_127; exact O2|]. rewrite VH in VM.
  assert (M : Rabs (val (fmul o hf)) <= 1) by (rewrite VM; apply Rle_trans with (rnd 1); [apply rnd_abs_le; exact O2|rewrite rnd_one; lra]).
  set (m := fmul o hf) in *. clearbody m.
  assert (M2 : Rabs (val m * 2) <= 2) by (rewrite Rabs_mult, (Rabs_pos_eq 2) by lra; lra).
  destruct (fmul_val m (of_Z 2) FM F2) as (FD & VD); [rewrite V2; apply (small_127 _ 1); [lia|exact M2]|]. rewrite V2 in VD.
  set (d := fmul m (of_Z 2)) in *. clearbody d. destruct (abs_val d FD) as (FA & VA).
  (* above one everything is exact *)
  assert (EX : 1 < Rabs (val o) -> Rabs (val d) = Rabs (val o)).
  { intro L. destruct (abs_val o F) as (_ & VAO). destruct (fits_grid (Rabs (val o)) 0) as (n & N); [rewrite <- VAO; apply fits_val|change (bpow radix2 0) with 1; lra|lia|].
    assert (FH2 : fits (Rabs (val o) * / 2)).
    { destruct (Req_dec (Rabs (val o)) 2) as [E2|E2]; [rewrite E2; replace (2 * / 2) with (bpow radix2 0) by (cbn; lra); apply fits_bpow; lia|].
      rewrite N. replace (IZR n * bpow radix2 (0 - 23) * / 2) with (IZR n * bpow radix2 (-24)) by (change (-24)%Z with (0 - 23 + -1)%Z; rewrite bpow_plus; change (bpow radix2 (-1)) with (/ 2); ring).
      apply fits_scaled; [|lia]. assert (N2 : 0 < IZR n < IZR (2 ^ 24)).
      { change (IZR (2 ^ 24)) with 16777216. assert (B : bpow radix2 (0 - 23) = / 8388608) by (cbn; lra). rewrite B in N. lra. }
      destruct N2 as (N3 & N4). apply lt_IZR in N4. apply (lt_IZR 0) in N3. lia. }
    assert (VM' : Rabs (val m) = Rabs (val o) * / 2).
    { rewrite VM. destruct (Rle_or_lt 0 (val o)) as [P|P].
      - rewrite (Rabs_pos_eq (val o) P) in *. rewrite (rnd_fits _ FH2). apply Rabs_pos_eq. lra.
      - rewrite (Rabs_left (val o) P) in *. replace (val o * / 2) with (- (- val o * / 2)) by ring. rewrite rnd_neg, (rnd_fits _ FH2), Rabs_Ropp. apply Rabs_pos_eq. lra. }
    rewrite VD. assert (FT : fits (Rabs (val o))) by (rewrite <- VAO; apply fits_val).
    assert (E2 : Rabs (val m * 2) = Rabs (val o)) by (rewrite Rabs_mult, (Rabs_pos_eq 2), VM' by lra; lra).
    destruct (Rle_or_lt 0 (val m * 2)) as [P|P].
    - rewrite (Rabs_pos_eq (val m * 2) P) in E2. rewrite E2, (rnd_fits _ FT). apply Rabs_pos_eq. lra.
    - rewrite (Rabs_left (val m * 2) P) in E2. replace (val m * 2) with (- Rabs (val o)) by lra. rewrite rnd_neg, (rnd_fits _ FT), Rabs_Ropp. apply Rabs_pos_eq. lra. }
  assert (LE : Rabs (val o) <= 1 -> Rabs (val d) <= 1).
  { intro L. assert (M1 : Rabs (val m) <= / 2).
    { rewrite VM. assert (FX : fits (/ 2)) by (change (/ 2) with (bpow radix2 (-1)); apply fits_bpow; lia). apply Rle_trans with (rnd (/ 2)); [|rewrite (rnd_fits _ FX); lra].
      apply rnd_abs_le. rewrite Rabs_mult, (Rabs_pos_eq (/ 2)) by lra. lra. }
    rewrite VD. apply Rle_trans with (rnd 1); [|rewrite rnd_one; lra]. apply rnd_abs_le. rewrite Rabs_mult, (Rabs_pos_eq 2) by lra. lra. }
  split.
  - split; [exact FA|]. split; [|rewrite Rabs_Rabsolu; exact O]. rewrite VA.
    destruct (Rlt_or_le 1 (Rabs (val o))) as [L|L]; [rewrite (EX L), Rminus_diag_eq, Rabs_R0 by reflexivity; unfold u24; lra|].
    eapply Rle_trans; [apply Rabs_triang_inv2|].
    pose proof (rerr (val o * / 2)) as E1. rewrite <- VM in E1. pose proof (rerr (val m * 2)) as E2. rewrite <- VD in E2. destruct h150_u24 as (H0 & H1).
    assert (A1 : Rabs (val o * / 2) <= / 2) by (rewrite Rabs_mult, (Rabs_pos_eq (/ 2)) by lra; lra).
    assert (A2 : Rabs (val m * 2) <= 1 + / 1000).
    { apply abs_both in E1. apply abs_both in A1. assert (u24 * Rabs (val o * / 2) <= u24 * 1) by (apply Rmult_le_compat_l; [unfold u24; lra|lra]). apply Rabs_le. unfold u24 in *. lra. }
    assert (U1 : u24 * Rabs (val o * / 2) <= u24 * / 2) by (apply Rmult_le_compat_l; [unfold u24; lra|exact A1]).
    assert (U2 : u24 * Rabs (val m * 2) <= u24 * (1 + / 1000)) by (apply Rmult_le_compat_l; [unfold u24; lra|exact A2]).
    replace (val d - val o) with ((val d - val m * 2) + 2 * (val m - val o * / 2)) by field. eapply Rle_trans; [apply Rabs_triang|].
    rewrite (Rabs_mult 2), (Rabs_pos_eq 2) by lra. unfold u24 in *. lra.
  - rewrite VA. split; intro L.
    + apply Rnot_le_lt. intro G. apply LE in G. lra.
    + rewrite (EX L). exact L.
Qed.

Lemma mitchell_axis_near : forall b c o, fin b -> fin c -> fin o -> 0 <= val b <= 1 -> 0 <= val c <= 1 -> Rabs (val o) <= 2 ->
  near (f_mitchell_axis b c o) (cubic (val b) (val c) (Rabs (val o))) (3 / 2) 430.
Proof.
  intros b c o FB FC FO B C O. destruct (mitchell_arg o FO O) as (NX & XI). cbv zeta in *. unfold f_mitchell_axis. cbv zeta. set (x := fabs (fmul (fmul o (fdiv fone (of_Z 2))) (of_Z 2))) in *. clearbody x.
  pose proof (Rabs_pos (val o)) as X0. set (t := Rabs (val o)) in *. clearbody t.
  assert (NB : near b (val b) 1 0) by (apply near_exact; [exact FB|rewrite Rabs_pos_eq; lra]).
  assert (NC : near c (val c) 1 0) by (apply near_exact; [exact FC|rewrite Rabs_pos_eq; lra]).
  assert (NI : forall n, (Z.abs n <= 100)%Z -> near (of_Z n) (IZR n) (Rabs (IZR n)) 0) by (intros n N; apply near_int; [lia|lra]).
  assert (N6 := NI 6%Z ltac:(lia)). rewrite (Rabs_pos_eq 6) in N6 by lra.
  assert (ND : near (fdiv fone (of_Z 6)) (/ 6) (/ 6) 1).
  { destruct fone_val as (F1 & V1). destruct (of_Z_exact 6) as (F6 & V6); [cbn; lia|]. destruct (fdiv_val fone (of_Z 6) F1) as (F & V); [rewrite V6; lra|rewrite V6, V1; apply one_127; rewrite Rabs_pos_eq; lra|].
    split; [exact F|]. split; [|rewrite Rabs_pos_eq; lra]. rewrite V, V1, V6. pose proof (rerr (1 / 6)) as E. rewrite (Rabs_pos_eq (1 / 6)) in E by lra. destruct h150_u24 as (H0 & H1). replace (/ 6) with (1 / 6) by field. unfold u24 in *; lra. }
  pose proof (cubic_size (val b) (val c) t B C ltac:(lra)) as CS. destruct fone_val as (F1 & V1).
  unfold fgt. fold (flt fone x).
  destruct (flt fone x) eqn:E.
  - apply (flt_val _ _ F1 (proj1 NX)) in E. rewrite V1 in E. apply XI in E. clear XI. unfold cubic in *. destruct (Rlt_dec 1 t) as [_|N]; [|lra].
    set (g := (val b * ((2 - t) * (2 - t) * (2 - t)) - 6 * val c * ((t - 1) * ((2 - t) * (2 - t))))) in *.
    assert (N30 := NI 30%Z ltac:(lia)). rewrite (Rabs_pos_eq 30) in N30 by lra. assert (N48 := NI 48%Z ltac:(lia)). rewrite (Rabs_pos_eq 48) in N48 by lra.
    assert (N8 := NI 8%Z ltac:(lia)). rewrite (Rabs_pos_eq 8) in N8 by lra. assert (N24 := NI 24%Z ltac:(lia)). rewrite (Rabs_pos_eq 24) in N24 by lra.
    assert (N12 := NI (-12)%Z ltac:(lia)). replace (Rabs (-12)) with 12 in N12 by (rewrite (Rabs_left (-12)) by lra; lra).
    assert (P1 : near (fmul (of_Z 6) c) (6 * val c) 6 7) by nmul N6 NC 6 7.
    assert (P2 : near (fsub (fneg b) (fmul (of_Z 6) c)) (- val b - 6 * val c) 7 15). { pose proof (near_neg _ _ _ _ NB) as NN. nsub NN P1 7 15. apply Rabs_le; lra. }
    assert (P3 : near (fmul (fsub (fneg b) (fmul (of_Z 6) c)) x) ((- val b - 6 * val c) * t) 14 60) by nmul P2 NX 14 60.
    assert (P4 := near_mul _ _ _ _ _ _ _ _ 28 P3 NX ltac:(eapply Rle_trans; [apply mult_abs; [apply P3|apply NX]|lra]) ltac:(lra) ltac:(lra) ltac:(lra) ltac:(lra) ltac:(lra) ltac:(lra)).
    apply (near_weaken _ _ _ _ 28 180) in P4; [|lra|lra].
    assert (P5 := near_mul _ _ _ _ _ _ _ _ 56 P4 NX ltac:(eapply Rle_trans; [apply mult_abs; [apply P4|apply NX]|lra]) ltac:(lra) ltac:(lra) ltac:(lra) ltac:(lra) ltac:(lra) ltac:(lra)).
    apply (near_weaken _ _ _ _ 56 480) in P5; [|lra|lra].
    assert (Q1 : near (fmul (of_Z 6) b) (6 * val b) 6 7) by nmul N6 NB 6 7.
    assert (Q2 : near (fmul (of_Z 30) c) (30 * val c) 30 31) by nmul N30 NC 30 31.
    assert (Q3 : near (fadd (fmul (of_Z 6) b) (fmul (of_Z 30) c)) (6 * val b + 30 * val c) 36 75). { nadd Q1 Q2 36 75. apply Rabs_le; lra. }
    assert (Q4 : near (fmul (fadd (fmul (of_Z 6) b) (fmul (of_Z 30) c)) x) ((6 * val b + 30 * val c) * t) 72 300) by nmul Q3 NX 72 300.
    assert (Q5 := near_mul _ _ _ _ _ _ _ _ 144 Q4 NX ltac:(eapply Rle_trans; [apply mult_abs; [apply Q4|apply NX]|lra]) ltac:(lra) ltac:(lra) ltac:(lra) ltac:(lra) ltac:(lra) ltac:(lra)).
    apply (near_weaken _ _ _ _ 144 900) in Q5; [|lra|lra].
    assert (R1 : near (fmul (of_Z (-12)) b) (-12 * val b) 12 13) by nmul N12 NB 12 13.
    assert (R2 : near (fmul (of_Z 48) c) (48 * val c) 48 49) by nmul N48 NC 48 49.
    assert (R3 : near (fsub (fmul (of_Z (-12)) b) (fmul (of_Z 48) c)) (-12 * val b - 48 * val c) 60 123). { nsub R1 R2 60 123. apply Rabs_le; lra. }
    assert (R4 : near (fmul (fsub (fmul (of_Z (-12)) b) (fmul (of_Z 48) c)) x) ((-12 * val b - 48 * val c) * t) 120 494) by nmul R3 NX 120 494.
    assert (S1 : near (fmul (of_Z 8) b) (8 * val b) 8 9) by nmul N8 NB 8 9.
    assert (S2 : near (fmul (of_Z 24) c) (24 * val c) 24 25) by nmul N24 NC 24 25.
    assert (S3 : near (fadd (fmul (of_Z 8) b) (fmul (of_Z 24) c)) (8 * val b + 24 * val c) 32 67). { nadd S1 S2 32 67. apply Rabs_le; lra. }
    assert (T1 := near_add _ _ _ _ _ _ _ _ 200 P5 Q5 ltac:(eapply Rle_trans; [apply Rabs_triang|]; pose proof (proj2 (proj2 P5)); pose proof (proj2 (proj2 Q5)); lra) ltac:(lra) ltac:(lra) ltac:(lra) ltac:(lra)).
    assert (T2 := near_add _ _ _ _ _ _ _ _ 320 T1 R4 ltac:(eapply Rle_trans; [apply Rabs_triang|]; pose proof (proj2 (proj2 T1)); pose proof (proj2 (proj2 R4)); lra) ltac:(lra) ltac:(lra) ltac:(lra) ltac:(lra)).
    assert (SG : Rabs ((- val b - 6 * val c) * t * t * t + (6 * val b + 30 * val c) * t * t + (-12 * val b - 48 * val c) * t + (8 * val b + 24 * val c)) <= 9).
    { replace ((- val b - 6 * val c) * t * t * t + (6 * val b + 30 * val c) * t * t + (-12 * val b - 48 * val c) * t + (8 * val b + 24 * val c)) with (g / 6 * 6) by (unfold g; field).
      rewrite Rabs_mult, (Rabs_pos_eq 6) by lra. lra. }
    assert (T3 := near_add _ _ _ _ _ _ _ _ 9 T2 S3 SG ltac:(lra) ltac:(lra) ltac:(lra) ltac:(lra)).
    apply (near_weaken _ _ _ _ 9 2480) in T3; [|lra|lra].
    replace (g / 6) with (((- val b - 6 * val c) * t * t * t + (6 * val b + 30 * val c) * t * t + (-12 * val b - 48 * val c) * t + (8 * val b + 24 * val c)) * / 6) in * by (unfold g; field).
    assert (W := near_mul _ _ _ _ _ _ _ _ (3 / 2) T3 ND CS ltac:(lra) ltac:(lra) ltac:(lra) ltac:(lra) ltac:(lra) ltac:(lra)).
    apply (near_weaken _ _ _ _ _ _ W); lra.
  - assert (L : t <= 1). { apply Rnot_lt_le. intro G. apply XI in G. rewrite <- V1 in G. apply (flt_val _ _ F1 (proj1 NX)) in G. congruence. }
    clear XI E. unfold cubic in *. destruct (Rlt_dec 1 t) as [N|_]; [lra|].
    set (g := 1 - 3 * (t * t) + 2 * (t * t * t) + val b / 6 * (12 * (t * t) - 9 * (t * t * t) - 2) + val c * (t * t * (1 - t))) in *.
    assert (NX1 : near x t 1 (21 / 10)). { destruct NX as (F & D & _). split; [exact F|]. split; [exact D|]. rewrite Rabs_pos_eq; lra. } clear NX.
    assert (N12 := NI 12%Z ltac:(lia)). rewrite (Rabs_pos_eq 12) in N12 by lra. assert (N9 := NI 9%Z ltac:(lia)). rewrite (Rabs_pos_eq 9) in N9 by lra.
    assert (N2 := NI 2%Z ltac:(lia)). rewrite (Rabs_pos_eq 2) in N2 by lra.
    assert (N18 := NI (-18)%Z ltac:(lia)). replace (Rabs (-18)) with 18 in N18 by (rewrite (Rabs_left (-18)) by lra; lra).
    assert (P0 : near (fmul (of_Z 9) b) (9 * val b) 9 10) by nmul N9 NB 9 10.
    assert (P1 : near (fmul (of_Z 6) c) (6 * val c) 6 7) by nmul N6 NC 6 7.
    assert (P2 : near (fsub (of_Z 12) (fmul (of_Z 9) b)) (12 - 9 * val b) 12 23). { nsub N12 P0 12 23. apply Rabs_le; lra. }
    assert (P3 : near (fsub (fsub (of_Z 12) (fmul (of_Z 9) b)) (fmul (of_Z 6) c)) (12 - 9 * val b - 6 * val c) 12 43). { nsub P2 P1 12 43. apply Rabs_le; lra. }
    assert (P4 := near_mul _ _ _ _ _ _ _ _ 12 P3 NX1 ltac:(eapply Rle_trans; [apply mult_abs; [apply P3|apply NX1]|lra]) ltac:(lra) ltac:(lra) ltac:(lra) ltac:(lra) ltac:(lra) ltac:(lra)).
    assert (P5 := near_mul _ _ _ _ _ _ _ _ 12 P4 NX1 ltac:(eapply Rle_trans; [apply mult_abs; [apply P4|apply NX1]|lra]) ltac:(lra) ltac:(lra) ltac:(lra) ltac:(lra) ltac:(lra) ltac:(lra)).
    assert (P6 := near_mul _ _ _ _ _ _ _ _ 12 P5 NX1 ltac:(eapply Rle_trans; [apply mult_abs; [apply P5|apply NX1]|lra]) ltac:(lra) ltac:(lra) ltac:(lra) ltac:(lra) ltac:(lra) ltac:(lra)).
    apply (near_weaken _ _ _ _ 12 160) in P6; [|lra|lra].
    assert (Q1 : near (fmul (of_Z 12) b) (12 * val b) 12 13) by nmul N12 NB 12 13.
    assert (Q2 : near (fadd (of_Z (-18)) (fmul (of_Z 12) b)) (-18 + 12 * val b) 18 32). { nadd N18 Q1 18 32. apply Rabs_le; lra. }
    assert (Q3 : near (fadd (fadd (of_Z (-18)) (fmul (of_Z 12) b)) (fmul (of_Z 6) c)) (-18 + 12 * val b + 6 * val c) 18 58). { nadd Q2 P1 18 58. apply Rabs_le; lra. }
    assert (Q4 := near_mul _ _ _ _ _ _ _ _ 18 Q3 NX1 ltac:(eapply Rle_trans; [apply mult_abs; [apply Q3|apply NX1]|lra]) ltac:(lra) ltac:(lra) ltac:(lra) ltac:(lra) ltac:(lra) ltac:(lra)).
    assert (Q5 := near_mul _ _ _ _ _ _ _ _ 18 Q4 NX1 ltac:(eapply Rle_trans; [apply mult_abs; [apply Q4|apply NX1]|lra]) ltac:(lra) ltac:(lra) ltac:(lra) ltac:(lra) ltac:(lra) ltac:(lra)).
    apply (near_weaken _ _ _ _ 18 180) in Q5; [|lra|lra].
    assert (S1 : near (fmul (of_Z 2) b) (2 * val b) 2 3) by nmul N2 NB 2 3.
    assert (S2 : near (fsub (of_Z 6) (fmul (of_Z 2) b)) (6 - 2 * val b) 6 10). { nsub N6 S1 6 10. apply Rabs_le; lra. }
    assert (T1 := near_add _ _ _ _ _ _ _ _ 30 P6 Q5 ltac:(eapply Rle_trans; [apply Rabs_triang|]; pose proof (proj2 (proj2 P6)); pose proof (proj2 (proj2 Q5)); lra) ltac:(lra) ltac:(lra) ltac:(lra) ltac:(lra)).
    assert (SG : Rabs ((12 - 9 * val b - 6 * val c) * t * t * t + (-18 + 12 * val b + 6 * val c) * t * t + (6 - 2 * val b)) <= 9).
    { replace ((12 - 9 * val b - 6 * val c) * t * t * t + (-18 + 12 * val b + 6 * val c) * t * t + (6 - 2 * val b)) with (g * 6) by (unfold g; field).
      rewrite Rabs_mult, (Rabs_pos_eq 6) by lra. lra. }
    assert (T3 := near_add _ _ _ _ _ _ _ _ 9 T1 S2 SG ltac:(lra) ltac:(lra) ltac:(lra) ltac:(lra)).
    apply (near_weaken _ _ _ _ 9 400) in T3; [|lra|lra].
    replace g with (((12 - 9 * val b - 6 * val c) * t * t * t + (-18 + 12 * val b + 6 * val c) * t * t + (6 - 2 * val b)) * / 6) in * by (unfold g; field).
    assert (W := near_mul _ _ _ _ _ _ _ _ (3 / 2) T3 ND CS ltac:(lra) ltac:(lra) ltac:(lra) ltac:(lra) ltac:(lra) ltac:(lra)).
    apply (near_weaken _ _ _ _ _ _ W); lra.
Qed.

(* For all parameters b and c between 0 and 1 and all offsets within the range of two pixels the
   weight is a number that differs from the exact product of piecewise cubics by at most 2^-13. *)
Theorem float_mitchell : forall b c x y, fin b -> fin c -> fin x -> fin y -> 0 <= val b <= 1 -> 0 <= val c <= 1 -> Rabs (val x) <= 2 -> Rabs (val y) <= 2 ->
  fin (f_mitchell b c x y) /\
  Rabs (val (f_mitchell b c x y) - cubic (val b) (val c) (Rabs (val x)) * cubic (val b) (val c) (Rabs (val y))) <= bpow radix2 (-13).
Proof.
  intros b c x y FB FC FX FY B C X Y. pose proof (mitchell_axis_near b c x FB FC FX B C X) as NX. pose proof (mitchell_axis_near b c y FB FC FY B C Y) as NY.
  assert (W := near_mul _ _ _ _ _ _ _ _ (9 / 4) NX NY ltac:(eapply Rle_trans; [apply mult_abs; [apply NX|apply NY]|lra]) ltac:(lra) ltac:(lra) ltac:(lra) ltac:(lra) ltac:(lra) ltac:(lra)).
  apply (near_weaken _ _ _ _ (9 / 4) 2048) in W; [|lra|lra]. destruct W as (F & E & _). split; [exact F|]. eapply Rle_trans; [exact E|]. unfold u24. cbn; lra.
Qed.
Print Assumptions float_mitchell.

(* the middle of the recommended parameters, b = c = 1/4, half a pixel away *)
Example mitchell_case : fin (fnum 1 (-2)) /\ val (fnum 1 (-2)) = / 4 /\ B2SF (f_mitchell (fnum 1 (-2)) (fnum 1 (-2)) (fnum 1 (-1)) fzero) = SpecFloat.S754_finite false 16180111 (-25).
Proof.
  split; [reflexivity|]. split; [|vm_compute; reflexivity]. erewrite lit_val by (vm_compute; reflexivity). cbn; lra.
Qed.
