(* Quadratic equations in single precision: the solutions. *)
From Coq Require Import ZArith Reals List Lra Lia Psatz Bool.
From Flocq Require Import Core.Core IEEE754.BinarySingleNaN.
From Flocq Require Mult_error.
From Verif Require Import Common FltModel FltFacts FltProps FExtFacts FRayModel FRayFacts FSphereProps FBoxMarginProps FMatModel FMatProps FMatBoundProps FFilmProps FQuadProps.
Import ListNotations.
Local Open Scope R_scope.

(* the exact discriminant and the sum of the absolute values of its terms *)
Definition discriminant (a b c : f32) : R := val b * val b - 4 * (val a * val c).
Definition terms (a b c : f32) : R := val b * val b + 4 * (val a * Rabs (val c)).

Lemma terms_pos : forall a b c, solvable a b c -> 0 <= terms a b c.
Proof.
  intros a b c S. unfold terms. pose proof (solvable_a _ _ _ S). assert (0 <= val b * val b) by apply Rle_0_sqr.
  assert (0 <= val a * Rabs (val c)) by (apply Rmult_le_pos; [lra|apply Rabs_pos]). lra.
Qed.

Lemma delta_close : forall a b c, solvable a b c ->
  fin (f_delta a b c) /\ Rabs (val (f_delta a b c) - discriminant a b c) <= / 4194304 * terms a b c + bpow radix2 (-140).
Proof.
  intros a b c S. destruct (delta_val a b c S) as (F & _ & E). split; [exact F|]. pose proof (terms_pos _ _ _ S) as T.
  eapply Rle_trans; [exact E|]. fold (terms a b c). destruct h150_small as (H & H16). destruct h150_tiny as (_ & H3).
  assert (4 * h150 <= bpow radix2 (-140)).
  { eapply Rle_trans with (16 * h150); [lra|]. rewrite H16. apply bpow_le; lia. }
  unfold u24. lra.
Qed.

Lemma eq2_unfold : forall a b c, f_equation2 a b c =
  let delta := f_delta a b c in
  if fle delta fzero && fle fzero (fadd delta f_tangent) then
    Some (fdiv (fneg b) (fmul a (of_Z 2)), fdiv (fneg b) (fmul a (of_Z 2)))
  else if fle fzero delta then Some (fdiv (f_q b delta) a, fdiv c (f_q b delta)) else None.
Proof. reflexivity. Qed.

Lemma tangent_sum : forall d, fin d -> Rabs (val d) <= bpow radix2 90 ->
  fin (fadd d f_tangent) /\ val (fadd d f_tangent) = rnd (val d + val f_tangent).
Proof.
  intros d F B. destruct tangent_val as (FT & T). apply fadd_val; [exact F|exact FT|].
  apply (small_127 _ 91); [lia|]. apply (sum_bound _ _ 90); [exact B|]. rewrite Rabs_pos_eq by lra.
  eapply Rle_trans with 1; [lra|]. change 1 with (bpow radix2 0). apply bpow_le; lia.
Qed.

(* solutions are found when the discriminant is positive beyond rounding, and are not when it is
   negative beyond rounding and a ten thousandth *)
Theorem float_equation2_finds : forall a b c, solvable a b c ->
  (/ 4194304 * terms a b c + bpow radix2 (-140) <= discriminant a b c -> f_equation2 a b c <> None) /\
  (discriminant a b c <= - 11 / 100000 - / 4194304 * terms a b c -> f_equation2 a b c = None).
Proof.
  intros a b c S. destruct (delta_close a b c S) as (F & E). destruct (delta_val a b c S) as (_ & U & _).
  destruct fzero_val as (F0 & V0). rewrite eq2_unfold. cbv zeta. set (d := f_delta a b c) in *. clearbody d. apply abs_both in E. split; intro H.
  - assert (P : fle fzero d = true) by (apply (fle_val _ _ F0 F); rewrite V0; lra).
    rewrite P. destruct (_ && _); discriminate.
  - destruct (tangent_sum d F U) as (FT & VT). destruct tangent_val as (_ & T).
    assert (B : bpow radix2 (-140) <= / 1000000000).
    { eapply Rle_trans with (bpow radix2 (-40)); [apply bpow_le; lia|]. change (bpow radix2 (-40)) with (/ 1099511627776). lra. }
    assert (N : val d + val f_tangent <= - bpow radix2 (-20)) by (change (bpow radix2 (-20)) with (/ 1048576); lra).
    assert (V : val (fadd d f_tangent) <= - bpow radix2 (-20)).
    { rewrite VT. rewrite <- (rnd_fits (- bpow radix2 (-20))) by (apply fits_opp, fits_bpow; lia). apply rnd_le. exact N. }
    pose proof (bpow_gt_0 radix2 (-20)) as P20.
    destruct (fle fzero (fadd d f_tangent)) eqn:E1.
    { apply (fle_val _ _ F0 FT) in E1. rewrite V0 in E1. lra. }
    rewrite andb_false_r. destruct (fle fzero d) eqn:E2; [|reflexivity].
    apply (fle_val _ _ F0 F) in E2. rewrite V0 in E2. lra.
Qed.
Print Assumptions float_equation2_finds.

Lemma two_a : forall a, fin a -> bpow radix2 (-30) <= val a <= bpow radix2 30 ->
  fin (fmul a (of_Z 2)) /\ val (fmul a (of_Z 2)) = val a * 2.
Proof.
  intros a F (L & U). destruct (of_Z_exact 2 ltac:(lia)) as (F2 & V2). pose proof (bpow_gt_0 radix2 (-30)).
  destruct (fmul_val a (of_Z 2) F F2) as (G & V).
  { rewrite V2. apply (small_127 _ (30 + 1)); [lia|]. apply abs_prod; rewrite Rabs_pos_eq; try lra. apply Rle_refl. }
  split; [exact G|]. rewrite V, V2. change 2 with (bpow radix2 1). apply rnd_fits.
  apply (Mult_error.mult_bpow_pos_exact_FLT radix2 (-149) 24 (val a) 1); [apply fits_val|lia].
Qed.

Lemma tangent_root : forall a b c, solvable a b c ->
  fle (f_delta a b c) fzero && fle fzero (fadd (f_delta a b c) f_tangent) = true ->
  let t := fdiv (fneg b) (fmul a (of_Z 2)) in fin t /\ residual a b c t <= tolerance a b c + 26 / 1000000.
Proof.
  intros a b c S H t. pose proof (solvable_a _ _ _ S) as PA. destruct (delta_close a b c S) as (FD & ED).
  destruct (delta_val a b c S) as (_ & UD & _). destruct fzero_val as (F0 & V0).
  pose proof S as (FA & FB & FC & A & B & C & _).
  apply andb_true_iff in H. destruct H as (H1 & H2).
  apply (fle_val _ _ FD F0) in H1. rewrite V0 in H1.
  destruct (tangent_sum _ FD UD) as (FT & VT). destruct tangent_val as (_ & T).
  apply (fle_val _ _ F0 FT) in H2. rewrite V0, VT in H2.
  assert (DL : - 101 / 1000000 <= val (f_delta a b c)).
  { destruct (Rle_dec (- 101 / 1000000) (val (f_delta a b c))) as [?|N]; [assumption|exfalso].
    assert (X : val (f_delta a b c) + val f_tangent <= - bpow radix2 (-21)) by (change (bpow radix2 (-21)) with (/ 2097152); lra).
    apply rnd_le in X. rewrite (rnd_fits (- bpow radix2 (-21))) in X by (apply fits_opp, fits_bpow; lia).
    pose proof (bpow_gt_0 radix2 (-21)). lra. }
  apply abs_both in ED.
  (* the division *)
  destruct (neg_val b FB) as (FN & VN). destruct (two_a a FA A) as (F2 & V2).
  assert (IA : 0 < / val a <= bpow radix2 30).
  { split; [apply Rinv_0_lt_compat; exact PA|]. change 30%Z with (- - 30)%Z. rewrite bpow_opp. apply Rinv_le; [apply bpow_gt_0|lra]. }
  assert (TB : Rabs (- val b / (val a * 2)) <= bpow radix2 70).
  { replace (- val b / (val a * 2)) with (val b * (- / val a * / 2)) by (field; lra). replace 70%Z with (40 + 30)%Z by reflexivity.
    apply abs_prod; [exact B|]. rewrite Rabs_mult, Rabs_Ropp, (Rabs_pos_eq (/ val a)), (Rabs_pos_eq (/ 2)) by lra. lra. }
  destruct (fdiv_val (fneg b) (fmul a (of_Z 2)) FN) as (FX & VX); [rewrite V2; lra|rewrite VN, V2; apply (small_127 _ 70); [lia|exact TB]|].
  rewrite VN, V2 in VX. split; [exact FX|]. unfold residual. fold t in VX, FX. rewrite VX.
  set (t0 := - val b / (val a * 2)) in *.
  assert (E : Rabs (rnd t0 - t0) <= u24 * Rabs t0 + h150) by apply rerr.
  set (y := rnd t0 - t0) in *. replace (rnd t0) with (t0 + y) by (unfold y; ring). clearbody y.
  rewrite <- (Rabs_pos_eq (val a)) at 1 by lra. rewrite <- Rabs_mult.
  replace (val a * (val a * (t0 + y) * (t0 + y) + val b * (t0 + y) + val c)) with ((val a * y) * (val a * y) - discriminant a b c / 4)
    by (unfold t0, discriminant; field; lra).
  assert (AY : Rabs (val a * y) <= / 16777216 * Rabs (val b) + bpow radix2 (-120)).
  { rewrite Rabs_mult, (Rabs_pos_eq (val a)) by lra.
    eapply Rle_trans; [apply Rmult_le_compat_l; [lra|exact E]|].
    assert (AT : val a * Rabs t0 = Rabs (val b) / 2).
    { unfold t0, Rdiv. rewrite Rabs_mult, Rabs_Ropp, Rabs_inv, Rabs_mult, (Rabs_pos_eq (val a)), (Rabs_pos_eq 2) by lra. field. lra. }
    assert (AH : val a * h150 <= bpow radix2 (-120)).
    { unfold h150. replace (bpow radix2 (-120)) with (bpow radix2 30 * bpow radix2 (-150)) by (rewrite <- bpow_plus; reflexivity).
      apply Rmult_le_compat_r; [apply bpow_ge_0|lra]. }
    rewrite Rmult_plus_distr_l, <- Rmult_assoc, (Rmult_comm (val a) u24), Rmult_assoc, AT. unfold u24. pose proof (Rabs_pos (val b)). lra. }
  assert (SQ : (val a * y) * (val a * y) <= / 8388608 * (val b * val b) + bpow radix2 (-141)).
  { assert (P : 0 < bpow radix2 (-120)) by apply bpow_gt_0.
    assert (PP : 2 * (bpow radix2 (-120) * bpow radix2 (-120)) <= bpow radix2 (-141)).
    { rewrite <- bpow_plus. change 2 with (bpow radix2 1). rewrite <- bpow_plus. apply bpow_le; lia. }
    assert (BB : Rabs (val b) * Rabs (val b) = val b * val b) by (rewrite <- Rabs_mult; apply Rabs_pos_eq, Rle_0_sqr).
    assert (YY : Rabs (val a * y) * Rabs (val a * y) = (val a * y) * (val a * y)) by (rewrite <- Rabs_mult; apply Rabs_pos_eq, Rle_0_sqr).
    rewrite <- YY, <- BB. pose proof (Rabs_pos (val a * y)) as P1. pose proof (Rabs_pos (val b)) as P2.
    set (p := Rabs (val a * y)) in *. set (q := Rabs (val b)) in *. set (h := bpow radix2 (-120)) in *. clearbody p q h.
    clear - P PP P1 P2 AY.
    assert (Q1 : p * p <= (/ 16777216 * q + h) * (/ 16777216 * q + h)) by (apply Rmult_le_compat; lra).
    assert (Q2 : (/ 16777216 * q + h) * (/ 16777216 * q + h) <= 2 * (/ 16777216 * q * (/ 16777216 * q)) + 2 * (h * h)).
    { pose proof (Rle_0_sqr (/ 16777216 * q - h)) as Z. unfold Rsqr in Z. lra. }
    assert (Q3 : 0 <= q * q) by (apply Rmult_le_pos; lra).
    replace (/ 16777216 * q * (/ 16777216 * q)) with (/ 281474976710656 * (q * q)) in Q2 by field. lra. }
  assert (SQ0 : 0 <= (val a * y) * (val a * y)) by apply Rle_0_sqr.
  assert (H1' : bpow radix2 (-141) + bpow radix2 (-141) = bpow radix2 (-140)) by (rewrite <- double_bpow; reflexivity).
  assert (P141 : 0 < bpow radix2 (-141)) by apply bpow_gt_0.
  unfold tolerance, terms, u24 in *.
  assert (B0 : 0 <= val b * val b) by apply Rle_0_sqr. assert (C0 : 0 <= val a * Rabs (val c)) by (apply Rmult_le_pos; [lra|apply Rabs_pos]).
  set (z := val a * y * (val a * y)) in *. set (bb := val b * val b) in *. set (k := val a * Rabs (val c)) in *. set (dd := val (f_delta a b c)) in *.
  set (ex := discriminant a b c) in *. set (h := bpow radix2 (-140)) in *. set (h' := bpow radix2 (-141)) in *.
  clearbody z bb k dd ex h h'. apply Rabs_le. clear - SQ SQ0 H1' P141 B0 C0 H1 DL ED. lra.
Qed.

(* the two solutions as relative perturbations of q/a and c/q *)
Lemma root_values : forall a b c, solvable a b c -> 0 < val (f_delta a b c) ->
  exists q0 th1 th2, q0 <> 0 /\ val b * q0 <= 0 /\ Rabs (val b) / 2 <= Rabs q0 /\ Rabs th1 <= 5 * u24 /\ Rabs th2 <= 5 * u24 /\
  val (fdiv (f_q b (f_delta a b c)) a) = q0 / val a * (1 + th1) /\ val (fdiv c (f_q b (f_delta a b c))) = val c / q0 * (1 + th2).
Proof.
  intros a b c SV D. destruct (delta_val a b c SV) as (FD & UD & ED). pose proof (solvable_a _ _ _ SV) as PA.
  pose proof SV as (FA & FB & FC & A & B & C & C1).
  destruct (q_val b (f_delta a b c) FB FD B) as (s & n & SS & BS & N & QB & FQ & VQ).
  { split; [exact D|]. rewrite Rabs_pos_eq in UD by lra. exact UD. }
  set (q0 := - (val b + s) / 2) in *. assert (HQ0 : q0 = - (val b + s) / 2) by reflexivity. clearbody q0.
  assert (UU : 0 < u24 <= / 1000000) by (unfold u24; lra).
  assert (N1 : / 2 <= 1 + n <= 2) by (apply abs_both in N; lra).
  assert (P76 : 0 < bpow radix2 (-76)) by apply bpow_gt_0.
  assert (QN : q0 <> 0) by (intros ->; rewrite Rabs_R0 in QB; lra).
  assert (VN : val (f_q b (f_delta a b c)) <> 0) by (rewrite VQ; apply Rmult_integral_contrapositive_currified; lra).
  assert (IA : bpow radix2 (-30) <= / val a <= bpow radix2 30).
  { split; [change (-30)%Z with (- (30))%Z|change 30%Z with (- - 30)%Z]; rewrite bpow_opp; (apply Rinv_le; [|lra]); [exact PA|apply bpow_gt_0]. }
  assert (TZ : Rabs (val (f_q b (f_delta a b c)) / val a) <= bpow radix2 77 /\ bpow radix2 (-107) <= Rabs (val (f_q b (f_delta a b c)) / val a)).
  { pose proof (bpow_gt_0 radix2 (-30)). pose proof (Rabs_pos q0).
    rewrite VQ. unfold Rdiv. rewrite !Rabs_mult, (Rabs_pos_eq (1 + n)), (Rabs_pos_eq (/ val a)) by lra.
    replace (bpow radix2 77) with (bpow radix2 46 * 2 * bpow radix2 30) by (change 2 with (bpow radix2 1); rewrite <- !bpow_plus; reflexivity).
    replace (bpow radix2 (-107)) with (bpow radix2 (-76) * / 2 * bpow radix2 (-30)) by (change (/ 2) with (bpow radix2 (-1)); rewrite <- !bpow_plus; reflexivity).
    split; (apply Rmult_le_compat; [apply Rmult_le_pos; lra|lra|apply Rmult_le_compat; lra|lra]). }
  destruct (fdiv_val (f_q b (f_delta a b c)) a FQ) as (FT & VT); [lra|apply (small_127 _ 77); [lia|apply TZ]|].
  destruct (rel_rnd (val (f_q b (f_delta a b c)) / val a)) as (e & E & Q); [eapply Rle_trans; [|apply TZ]; apply bpow_le; lia|].
  rewrite Q, VQ in VT.
  assert (QZ : bpow radix2 (-77) <= Rabs (val (f_q b (f_delta a b c))) <= bpow radix2 47).
  { rewrite VQ, Rabs_mult, (Rabs_pos_eq (1 + n)) by lra.
    replace (bpow radix2 47) with (bpow radix2 46 * 2) by (change 2 with (bpow radix2 1); rewrite <- !bpow_plus; reflexivity).
    replace (bpow radix2 (-77)) with (bpow radix2 (-76) * / 2) by (change (/ 2) with (bpow radix2 (-1)); rewrite <- !bpow_plus; reflexivity).
    pose proof (Rabs_pos q0). split; apply Rmult_le_compat; lra. }
  assert (IQ : bpow radix2 (-47) <= / Rabs (val (f_q b (f_delta a b c))) <= bpow radix2 77).
  { pose proof (bpow_gt_0 radix2 (-77)).
    split; [change (-47)%Z with (- (47))%Z|change 77%Z with (- - 77)%Z]; rewrite bpow_opp; (apply Rinv_le; lra). }
  assert (TU : Rabs (val c / val (f_q b (f_delta a b c))) <= bpow radix2 117).
  { unfold Rdiv. rewrite Rabs_mult, Rabs_inv. replace (bpow radix2 117) with (bpow radix2 40 * bpow radix2 77) by (rewrite <- bpow_plus; reflexivity).
    apply Rmult_le_compat; [apply Rabs_pos|apply Rlt_le, Rinv_0_lt_compat, Rabs_pos_lt; exact VN|exact C|apply IQ]. }
  destruct (fdiv_val c (f_q b (f_delta a b c)) FC VN) as (FT2 & VT2); [apply (small_127 _ 117); [lia|exact TU]|].
  assert (W : exists th2, Rabs th2 <= 5 * u24 /\ val (fdiv c (f_q b (f_delta a b c))) = val c / q0 * (1 + th2)).
  { destruct C1 as [CZ|CL].
    - exists 0. split; [rewrite Rabs_R0; lra|]. rewrite VT2, CZ. unfold Rdiv. rewrite !Rmult_0_l. apply rnd_0.
    - assert (TL : bpow radix2 (-87) <= Rabs (val c / val (f_q b (f_delta a b c)))).
      { unfold Rdiv. rewrite Rabs_mult, Rabs_inv. replace (bpow radix2 (-87)) with (bpow radix2 (-40) * bpow radix2 (-47)) by (rewrite <- bpow_plus; reflexivity).
        apply Rmult_le_compat; [apply bpow_ge_0..|exact CL|apply IQ]. }
      destruct (rel_rnd (val c / val (f_q b (f_delta a b c)))) as (e2 & E2 & Q2); [eapply Rle_trans; [|exact TL]; apply bpow_le; lia|].
      exists ((1 + e2) / (1 + n) - 1). split; [apply rel_over; assumption|]. rewrite VT2, Q2, VQ. field. split; [lra|exact QN]. }
  destruct W as (th2 & T2 & V2).
  exists q0, ((1 + n) * (1 + e) - 1), th2. split; [exact QN|].
  assert (BQ : val b * q0 <= 0) by (rewrite HQ0; pose proof (Rle_0_sqr (val b)) as Z; unfold Rsqr in Z; lra).
  split; [exact BQ|]. split.
  { assert (QQ : (val b / 2) * (val b / 2) <= q0 * q0) by (rewrite HQ0; pose proof (Rle_0_sqr s) as Z; unfold Rsqr in Z; lra).
    apply Rsqr_le_abs_0 in QQ. unfold Rdiv in *. rewrite Rabs_mult, (Rabs_pos_eq (/ 2)) in QQ by lra. exact QQ. }
  split; [apply rel_times; assumption|]. split; [exact T2|]. split; [rewrite VT; field; lra|exact V2].
Qed.

(* every solution that is returned solves the equation up to rounding, or is the one of a tangent *)
Theorem float_equation2_roots : forall a b c s1 s2, solvable a b c -> f_equation2 a b c = Some (s1, s2) ->
  fin s1 /\ fin s2 /\
  ((s1 = s2 /\ Rabs (discriminant a b c) <= / 4194304 * terms a b c + 11 / 100000 /\ residual a b c s1 <= tolerance a b c + 26 / 1000000) \/
   (residual a b c s1 <= tolerance a b c /\ residual a b c s2 <= tolerance a b c)).
Proof.
  intros a b c s1 s2 S. rewrite eq2_unfold. cbv zeta.
  destruct (fle (f_delta a b c) fzero && fle fzero (fadd (f_delta a b c) f_tangent)) eqn:E1.
  - intro H. injection H as <- <-. destruct (tangent_root a b c S E1) as (F & T). split; [exact F|]. split; [exact F|]. left.
    split; [reflexivity|]. split; [|exact T]. clear F T.
    destruct (delta_close a b c S) as (FD & ED). destruct (delta_val a b c S) as (_ & UD & _). destruct fzero_val as (F0 & V0).
    apply andb_true_iff in E1. destruct E1 as (H1 & H2). apply (fle_val _ _ FD F0) in H1. rewrite V0 in H1.
    destruct (tangent_sum _ FD UD) as (FT & VT). destruct tangent_val as (_ & T).
    apply (fle_val _ _ F0 FT) in H2. rewrite V0, VT in H2.
    assert (DL : - 101 / 1000000 <= val (f_delta a b c)).
    { destruct (Rle_dec (- 101 / 1000000) (val (f_delta a b c))) as [?|N]; [assumption|exfalso].
      assert (X : val (f_delta a b c) + val f_tangent <= - bpow radix2 (-21)) by (change (bpow radix2 (-21)) with (/ 2097152); lra).
      apply rnd_le in X. rewrite (rnd_fits (- bpow radix2 (-21))) in X by (apply fits_opp, fits_bpow; lia).
      pose proof (bpow_gt_0 radix2 (-21)). lra. }
    assert (B : bpow radix2 (-140) <= / 1000000000).
    { eapply Rle_trans with (bpow radix2 (-40)); [apply bpow_le; lia|]. change (bpow radix2 (-40)) with (/ 1099511627776). lra. }
    apply abs_both in ED. apply Rabs_le. lra.
  - destruct (fle fzero (f_delta a b c)) eqn:E2; [|discriminate].
    intro H. injection H as <- <-.
    destruct (delta_val a b c S) as (FD & UD & _). destruct fzero_val as (F0 & V0). pose proof E2 as P. apply (fle_val _ _ F0 FD) in P. rewrite V0 in P.
    assert (D : 0 < val (f_delta a b c)).
    { destruct P as [P|P]; [exact P|exfalso].
      assert (Z : fle (f_delta a b c) fzero = true) by (apply (fle_val _ _ FD F0); rewrite V0; lra).
      destruct (tangent_sum _ FD UD) as (FT & VT). destruct tangent_val as (_ & T).
      assert (W : fle fzero (fadd (f_delta a b c) f_tangent) = true).
      { apply (fle_val _ _ F0 FT). rewrite V0, VT. apply rnd_sign. lra. }
      rewrite Z, W in E1. discriminate. }
    destruct (far_root a b c S D) as (F1 & R1). destruct (near_root a b c S D) as (F2 & R2).
    split; [exact F1|]. split; [exact F2|]. right. split; assumption.
Qed.
Print Assumptions float_equation2_roots.

(* x^2 - 3 x + 2 *)
Lemma Z_solvable : forall a b c, (1 <= a <= 1000)%Z -> (Z.abs b <= 1000)%Z -> (Z.abs c <= 1000)%Z -> solvable (of_Z a) (of_Z b) (of_Z c).
Proof.
  intros a b c A B C. destruct (of_Z_exact a ltac:(lia)) as (FA & VA). destruct (of_Z_exact b ltac:(lia)) as (FB & VB). destruct (of_Z_exact c ltac:(lia)) as (FC & VC).
  unfold solvable. rewrite VA, VB, VC, <- !abs_IZR.
  assert (K : forall e, (10 <= e)%Z -> 1000 <= bpow radix2 e).
  { intros e E. eapply Rle_trans with (bpow radix2 10); [change (bpow radix2 10) with 1024; lra|apply bpow_le; exact E]. }
  assert (A1 : 1 <= IZR a <= 1000) by (split; apply IZR_le; lia).
  assert (B1 : IZR (Z.abs b) <= 1000) by (apply IZR_le; lia). assert (C1 : IZR (Z.abs c) <= 1000) by (apply IZR_le; lia).
  pose proof (K 40%Z ltac:(lia)). pose proof (K 30%Z ltac:(lia)).
  assert (O : forall e, (e <= 0)%Z -> bpow radix2 e <= 1) by (intros e E; change 1 with (bpow radix2 0); apply bpow_le; exact E).
  pose proof (O (-30)%Z ltac:(lia)). pose proof (O (-40)%Z ltac:(lia)).
  split; [exact FA|]. split; [exact FB|]. split; [exact FC|]. split; [lra|]. split; [lra|]. split; [lra|].
  destruct (Z.eq_dec c 0) as [->|N]; [left; reflexivity|right]. assert (1 <= IZR (Z.abs c)) by (apply IZR_le; lia). lra.
Qed.

Example float_equation2_case : solvable (of_Z 1) (of_Z (-3)) (of_Z 2) /\
  exists s1 s2, f_equation2 (of_Z 1) (of_Z (-3)) (of_Z 2) = Some (s1, s2) /\ Beqb s1 (of_Z 2) = true /\ Beqb s2 (of_Z 1) = true.
Proof.
  split; [apply Z_solvable; lia|].
  assert (X : match f_equation2 (of_Z 1) (of_Z (-3)) (of_Z 2) with Some (s1, s2) => Beqb s1 (of_Z 2) && Beqb s2 (of_Z 1) | None => false end = true)
    by (vm_compute; reflexivity).
  destruct (f_equation2 (of_Z 1) (of_Z (-3)) (of_Z 2)) as [[s1 s2]|]; [|discriminate X].
  exists s1, s2. split; [reflexivity|]. apply andb_true_iff in X. exact X.
Qed.
