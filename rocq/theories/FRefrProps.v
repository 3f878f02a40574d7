(* The direction of rough refractions in single precision. *)
From Coq Require Import ZArith Reals List Lra Psatz Lia Bool.
From Flocq Require Import Core.Core IEEE754.BinarySingleNaN.
From Verif Require Import Common FltModel FltFacts FltProps FExtFacts FRayModel FSphereProps FBoxMarginProps FMatBoundProps FFilmProps FFresProps FFresNearProps FTexModel FTexProps FSpecNearProps FNearFacts FMatModel FLightModel FGrowProps FltVecProps FShadeModel FShadeProps FLookModel FLookProps FReflModel.
Local Open Scope R_scope.

Lemma near_max0 : forall x x0 X a, near x x0 X a -> near (fmax fzero x) (Rmax 0 x0) X a.
Proof.
  intros x x0 X a (F & E & L). destruct fzero_val as (FZ & VZ). destruct (max_val fzero x FZ F) as (C & FM & L0 & L1). rewrite VZ in L0. split; [exact FM|].
  assert (V : val (fmax fzero x) = Rmax 0 (val x)).
  { destruct C as [C|C]; rewrite C in *; [rewrite VZ in *; rewrite Rmax_left; lra|rewrite Rmax_right; lra]. }
  rewrite V. apply abs_both in E. apply abs_both in L. split; apply Rabs_le; unfold Rmax; repeat destruct (Rle_dec _ _); lra.
Qed.

(* the root of a number away from 0 *)
Lemma near_root : forall x x0 a, near x x0 1 a -> / 100 <= x0 -> a <= 100000 -> near (fsqrt x) (sqrt x0) 1 (10 * a + 2).
Proof.
  intros x x0 a (F & E & L) P A. assert (A0 : 0 <= a * u24) by (eapply Rle_trans; [apply Rabs_pos|exact E]). apply abs_both in E. apply abs_both in L. assert (U : a * u24 <= 100000 * u24) by (apply Rmult_le_compat_r; [unfold u24; lra|exact A]).
  assert (X : 0 <= val x) by (unfold u24 in *; lra). destruct (fsqrt_val x F X) as (FS & VS).
  assert (S : Rabs (sqrt (val x) - sqrt x0) <= 10 * a * u24).
  { assert (P0 : / 10 <= sqrt x0) by (replace (/ 10) with (sqrt (/ 100)) by (replace (/ 100) with (/ 10 * / 10) by field; apply sqrt_square; lra); apply sqrt_le_1_alt; lra). pose proof (sqrt_pos (val x)) as PX.
    assert (Q : (sqrt (val x) - sqrt x0) * (sqrt (val x) + sqrt x0) = val x - x0) by (replace ((sqrt (val x) - sqrt x0) * (sqrt (val x) + sqrt x0)) with (sqrt (val x) * sqrt (val x) - sqrt x0 * sqrt x0) by ring; rewrite !sqrt_sqrt; lra).
    set (p := sqrt (val x)) in *. set (q := sqrt x0) in *. clearbody p q.
    assert (M : Rabs (p - q) * / 10 <= a * u24).
    { apply Rle_trans with (Rabs (p - q) * Rabs (p + q)); [apply Rmult_le_compat_l; [apply Rabs_pos|rewrite Rabs_pos_eq; lra]|]. rewrite <- Rabs_mult, Q. apply Rabs_le. lra. }
    lra. }
  assert (R1 : Rabs (sqrt x0) <= 1) by (rewrite Rabs_pos_eq by apply sqrt_pos; rewrite <- sqrt_1; apply sqrt_le_1_alt; lra).
  eapply near_weaken; [apply (near_round _ (sqrt (val x)) (sqrt x0) 1 (10 * a) FS VS S R1); lra|lra|lra].
Qed.

(* the last line of the function *)
Lemma refr_part : forall s i cosi cost eta c C a, fin s -> fin i -> fin eta -> Rabs (val s) <= 1001 / 1000 -> Rabs (val i) <= 1001 / 1000 -> Rabs (val eta) <= 4 ->
  near cosi c (1002 / 1000) 16 -> near cost C 1 a -> a <= 10000 ->
  let p := fadd (fmul (fneg s) eta) (fmul i (fsub (fmul cosi eta) cost)) in fin p /\ Rabs (val p - (- (val eta) * val s + (c * val eta - C) * val i)) <= (11 / 10 * a + 105) * u24.
Proof.
  intros s i cosi cost eta c C a FS FI FE S I ETA NC NK A. cbv zeta. pose proof (near_pos _ _ _ _ NK) as (A0 & _). pose proof (near_exact eta 4 FE ETA) as NE. pose proof (near_exact i _ FI I) as NI. pose proof (near_neg _ _ _ _ (near_exact s _ FS S)) as NS.
  assert (LC := proj2 (proj2 NC)). assert (LK := proj2 (proj2 NK)).
  assert (MUL : forall x y X Y, Rabs x <= X -> Rabs y <= Y -> Rabs (x * y) <= X * Y) by (intros; rewrite Rabs_mult; apply Rmult_le_compat; try apply Rabs_pos; assumption).
  assert (B1 : near (fmul cosi eta) (c * val eta) (401 / 100) 69).
  { eapply near_weaken; [apply (near_mul _ _ _ _ (1002 / 1000) 4 16 0 (401 / 100) NC NE)| |]; try lra. eapply Rle_trans; [apply (MUL _ _ _ _ LC ETA)|lra]. }
  assert (L1 := proj2 (proj2 B1)).
  assert (B2 : near (fsub (fmul cosi eta) cost) (c * val eta - C) (502 / 100) (a + 75)).
  { eapply near_weaken; [apply (near_sub _ _ _ _ (401 / 100) 1 69 a (502 / 100) B1 NK)| |]; try lra. unfold Rminus. eapply Rle_trans; [apply Rabs_triang|]. rewrite Rabs_Ropp. lra. }
  assert (L2 := proj2 (proj2 B2)).
  assert (B3 : near (fmul i (fsub (fmul cosi eta) cost)) (val i * (c * val eta - C)) (503 / 100) (11 / 10 * a + 89)).
  { eapply near_weaken; [apply (near_mul _ _ _ _ (1001 / 1000) (502 / 100) 0 (a + 75) (503 / 100) NI B2)| |]; try lra. eapply Rle_trans; [apply (MUL _ _ _ _ I L2)|lra]. }
  assert (L3 := proj2 (proj2 B3)). assert (L4 := proj2 (proj2 NS)).
  assert (B4 : near (fmul (fneg s) eta) (- val s * val eta) (401 / 100) 5).
  { eapply near_weaken; [apply (near_mul _ _ _ _ (1001 / 1000) 4 0 0 (401 / 100) NS NE)| |]; try lra. eapply Rle_trans; [apply (MUL _ _ _ _ L4 ETA)|lra]. }
  assert (L5 := proj2 (proj2 B4)).
  assert (B5 : near (fadd (fmul (fneg s) eta) (fmul i (fsub (fmul cosi eta) cost))) (- val s * val eta + val i * (c * val eta - C)) (91 / 10) (11 / 10 * a + 105)).
  { eapply near_weaken; [apply (near_add _ _ _ _ (401 / 100) (503 / 100) 5 (11 / 10 * a + 89) (91 / 10) B4 B3)| |]; try lra. eapply Rle_trans; [apply Rabs_triang|]. lra. }
  destruct B5 as (F & E & _). split; [exact F|]. replace (- val eta * val s + (c * val eta - C) * val i) with (- val s * val eta + val i * (c * val eta - C)) by ring. exact E.
Qed.

(* the sine of the refracted direction, squared *)
Lemma sin2t_near : forall cosi c eta, near cosi c (1002 / 1000) 16 -> fin eta -> Rabs (val eta) <= 4 ->
  near (fmul (fmul (fmax fzero (fsub fone (fmul cosi cosi))) eta) eta) (Rmax 0 (1 - c * c) * val eta * val eta) 17 613.
Proof.
  intros cosi c eta NC FE ETA. pose proof (near_exact eta 4 FE ETA) as NE. assert (LC := proj2 (proj2 NC)).
  assert (MUL : forall x y X Y, Rabs x <= X -> Rabs y <= Y -> Rabs (x * y) <= X * Y) by (intros; rewrite Rabs_mult; apply Rmult_le_compat; try apply Rabs_pos; assumption).
  assert (CC : 0 <= c * c <= 1005 / 1000) by (split; [apply Rle_0_sqr|]; replace (c * c) with (Rabs c * Rabs c) by (rewrite <- Rabs_mult; apply Rabs_pos_eq, Rle_0_sqr); apply Rle_trans with (1002 / 1000 * (1002 / 1000)); [apply Rmult_le_compat; try apply Rabs_pos; assumption|lra]).
  assert (B1 : near (fmul cosi cosi) (c * c) (1005 / 1000) 34).
  { eapply near_weaken; [apply (near_mul _ _ _ _ (1002 / 1000) (1002 / 1000) 16 16 (1005 / 1000) NC NC)| |]; try lra. rewrite Rabs_pos_eq; lra. }
  destruct fone_val as (FO & VO). pose proof (near_exact fone 1 FO ltac:(rewrite VO, Rabs_R1; lra)) as NO. rewrite VO in NO.
  assert (B2 : near (fsub fone (fmul cosi cosi)) (1 - c * c) 1 36).
  { eapply near_weaken; [apply (near_sub _ _ _ _ 1 (1005 / 1000) 0 34 1 NO B1)| |]; try lra. apply Rabs_le. lra. }
  pose proof (near_max0 _ _ _ _ B2) as B3. assert (L3 := proj2 (proj2 B3)).
  assert (B4 : near (fmul (fmax fzero (fsub fone (fmul cosi cosi))) eta) (Rmax 0 (1 - c * c) * val eta) 4 149).
  { eapply near_weaken; [apply (near_mul _ _ _ _ 1 4 36 0 4 B3 NE)| |]; try lra. eapply Rle_trans; [apply (MUL _ _ _ _ L3 ETA)|lra]. }
  assert (L4 := proj2 (proj2 B4)). eapply near_weaken; [apply (near_mul _ _ _ _ 4 4 149 0 16 B4 NE)| |]; try lra. eapply Rle_trans; [apply (MUL _ _ _ _ L4 ETA)|lra].
Qed.

(* Snell's law for the outgoing direction v, the interface h and the ratio eta of the indices: t is the squared
   sine on the far side, and the refracted direction is - eta (v - c h) - sqrt (1 - t) h with c = v.h *)
Definition far_sine2 (v h : fvec) (eta : R) : R := Rmax 0 (1 - dotr v h * dotr v h) * eta * eta.
Definition snell (v h : fvec) (eta : R) (x : fvec -> f32) : R :=
  - eta * (val (x v) - dotr v h * val (x h)) - sqrt (1 - far_sine2 v h eta) * val (x h).

(* For directions of length 1 up to 2e-5 in the square and a ratio of indices up to 4: the result is always
   finite, also where the root is taken of a rounded difference; it is the zero vector when the squared
   sine exceeds 1 by 4e-5, and the direction of Snell's law up to 4.1e-4 in each coordinate when the squared
   sine is at most 0.99. *)
Theorem float_rough_refraction : forall v h eta, unit_v v -> unit_v h -> fin eta -> Rabs (val eta) <= 4 ->
  let w := f_refracted v h eta in
  vfin w /\
  (1 + 4 / 100000 < far_sine2 v h (val eta) -> w = mk_fvec fzero fzero fzero) /\
  (far_sine2 v h (val eta) <= 99 / 100 ->
    Rabs (val (fx w) - snell v h (val eta) fx) <= 41 / 100000 /\ Rabs (val (fy w) - snell v h (val eta) fy) <= 41 / 100000 /\ Rabs (val (fz w) - snell v h (val eta) fz) <= 41 / 100000).
Proof.
  intros v h eta UV UH FE ETA. cbv zeta. destruct (unit_le v UV) as ((FVX & FVY & FVZ) & LV & VX & VY & VZ). destruct (unit_le h UH) as ((FHX & FHY & FHZ) & LH & HX & HY & HZ). clear UV UH.
  assert (D : near (fv_dot v h) (dotr v h) (1002 / 1000) 16).
  { assert (N : near (fv_dot v h) (dotr v h) 4 16) by (unfold fv_dot, dotr; apply dot3_near; assumption). destruct N as (F & E & _). split; [exact F|]. split; [exact E|]. unfold length2 in LV, LH. unfold dotr.
    set (a := val (fx v)) in *. set (b := val (fy v)) in *. set (c := val (fz v)) in *. set (x := val (fx h)) in *. set (y := val (fy h)) in *. set (z := val (fz h)) in *. clearbody a b c x y z.
    pose proof (Rle_0_sqr (a - x)). pose proof (Rle_0_sqr (b - y)). pose proof (Rle_0_sqr (c - z)). pose proof (Rle_0_sqr (a + x)). pose proof (Rle_0_sqr (b + y)). pose proof (Rle_0_sqr (c + z)). unfold Rsqr in *. apply Rabs_le. lra. }
  clear LV LH. unfold f_refracted, snell. pose proof (sin2t_near _ _ eta D FE ETA) as T. fold (far_sine2 v h (val eta)) in T. generalize dependent (fv_dot v h). intros cosi D T. cbv zeta.
  assert (TP : 0 <= far_sine2 v h (val eta)) by (unfold far_sine2; rewrite Rmult_assoc; apply Rmult_le_pos; [apply Rmax_l|apply Rle_0_sqr]).
  generalize dependent (far_sine2 v h (val eta)). intros t T TP. generalize dependent (fmul (fmul (fmax fzero (fsub fone (fmul cosi cosi))) eta) eta). intros sin2t T.
  assert (TF := proj1 T). assert (TE := proj1 (proj2 T)). assert (TL := proj2 (proj2 T)). apply abs_both in TE. destruct fone_val as (FO & VO). destruct fzero_val as (FZ & VZ0).
  assert (U : 613 * u24 <= 37 / 1000000) by (unfold u24; lra).
  unfold fgt. fold (flt fone sin2t). destruct (flt fone sin2t) eqn:G.
  { apply (flt_val _ _ FO TF) in G. rewrite VO in G. split; [split; [exact FZ|split; [exact FZ|exact FZ]]|]. split; [reflexivity|]. intro L. exfalso. lra. }
  assert (GE : val sin2t <= 1) by (apply Rnot_lt_le; intro N; rewrite <- VO in N; apply (flt_val _ _ FO TF) in N; rewrite N in G; discriminate G). clear G.
  pose proof (near_exact fone 1 FO ltac:(rewrite VO, Rabs_R1; lra)) as NO. rewrite VO in NO.
  set (c := dotr v h) in *. clearbody c.
  assert (FIN : exists C a, near (fsqrt (fsub fone sin2t)) C 1 a /\ a <= 10000 /\ (t <= 99 / 100 -> C = sqrt (1 - t) /\ a <= 6154)).
  { destruct (Rle_lt_dec t (99 / 100)) as [L|L].
    - exists (sqrt (1 - t)), (10 * 6152 / 10 + 2).
      assert (N : near (fsub fone sin2t) (1 - t) 1 (6152 / 10)).
      { eapply near_weaken; [apply (near_sub _ _ _ _ 1 17 0 613 1 NO T)| |]; try lra. apply Rabs_le. lra. }
      assert (R := near_root _ _ _ N ltac:(lra) ltac:(lra)). split; [eapply near_weaken; [exact R|lra|lra]|]. split; [lra|]. intros _. split; [reflexivity|lra].
    - destruct (fsub_val fone sin2t FO TF) as (F & V).
      { apply big_127. rewrite VO. apply Rabs_le. lra. }
      assert (B : 0 <= val (fsub fone sin2t) <= 1).
      { rewrite V, VO. split; [apply rnd_nonneg; lra|]. apply Rle_trans with (rnd 1); [apply rnd_le; lra|]. rewrite rnd_fits; [lra|]. rewrite <- VO. apply fits_val. }
      destruct (fsqrt_val _ F (proj1 B)) as (FS & VS).
      assert (B1 : 0 <= val (fsqrt (fsub fone sin2t)) <= 1).
      { rewrite VS. split; [apply rnd_nonneg, sqrt_pos|]. apply Rle_trans with (rnd 1); [apply rnd_le; rewrite <- sqrt_1; apply sqrt_le_1_alt; lra|]. rewrite rnd_fits; [lra|]. rewrite <- VO. apply fits_val. }
      exists (val (fsqrt (fsub fone sin2t))), 0. split; [apply near_exact; [exact FS|rewrite Rabs_pos_eq; lra]|]. split; [lra|]. intro L'. exfalso. lra. }
  destruct FIN as (C & a & NC & A & ACC). generalize dependent (fsqrt (fsub fone sin2t)). intros cost NC. cbn [fx fy fz].
  destruct (refr_part _ _ _ _ _ _ _ _ FVX FHX FE VX HX ETA D NC A) as (F1 & E1). destruct (refr_part _ _ _ _ _ _ _ _ FVY FHY FE VY HY ETA D NC A) as (F2 & E2). destruct (refr_part _ _ _ _ _ _ _ _ FVZ FHZ FE VZ HZ ETA D NC A) as (F3 & E3).
  split; [split; [exact F1|split; [exact F2|exact F3]]|]. split; [intro L; exfalso; lra|]. intro L. destruct (ACC L) as (-> & A2).
  assert (K : (11 / 10 * a + 105) * u24 <= 41 / 100000) by (apply Rle_trans with (6875 * u24); [apply Rmult_le_compat_r; [unfold u24; lra|lra]|unfold u24; lra]).
  repeat apply conj.
  - replace (- val eta * (val (fx v) - c * val (fx h)) - sqrt (1 - t) * val (fx h)) with (- val eta * val (fx v) + (c * val eta - sqrt (1 - t)) * val (fx h)) by ring. lra.
  - replace (- val eta * (val (fy v) - c * val (fy h)) - sqrt (1 - t) * val (fy h)) with (- val eta * val (fy v) + (c * val eta - sqrt (1 - t)) * val (fy h)) by ring. lra.
  - replace (- val eta * (val (fz v) - c * val (fz h)) - sqrt (1 - t) * val (fz h)) with (- val eta * val (fz v) + (c * val eta - sqrt (1 - t)) * val (fz h)) by ring. lra.
Qed.

(* grazing at an interface across: refracted for the ratio 1/2, nothing transmitted for the ratio 2 *)
Lemma axis_unit : forall a b c, (Z.abs a <= 1)%Z -> (Z.abs b <= 1)%Z -> (Z.abs c <= 1)%Z -> (a * a + b * b + c * c = 1)%Z -> unit_v (at_ a b c).
Proof.
  intros a b c A B C L. destruct (at_val a b c) as (F & X & Y & Z_); [lia..|]. split; [exact F|]. unfold length2. rewrite X, Y, Z_, <- !mult_IZR, <- !plus_IZR, L. replace (1 - 1) with 0 by ring. rewrite Rabs_R0. lra.
Qed.
Example refracted_case : let v := at_ 1 0 0 in let h := at_ 0 0 1 in unit_v v /\ unit_v h /\
  fin (fnum 1 (-1)) /\ far_sine2 v h (val (fnum 1 (-1))) = / 4 /\ fin (of_Z 2) /\ far_sine2 v h (val (of_Z 2)) = 4.
Proof.
  cbv zeta. split; [apply axis_unit; lia|]. split; [apply axis_unit; lia|]. destruct FTexProps.half_val as (FH & VH). destruct (of_Z_exact 2) as (F2 & V2); [lia|].
  assert (D : dotr (at_ 1 0 0) (at_ 0 0 1) = 0) by (unfold dotr; destruct (at_val 1 0 0) as (_ & A & B & C); [lia..|]; destruct (at_val 0 0 1) as (_ & A' & B' & C'); [lia..|]; rewrite A, B, C, A', B', C'; ring).
  split; [exact FH|]. unfold far_sine2. rewrite D, VH, V2. split; [rewrite Rmax_right; lra|]. split; [exact F2|rewrite Rmax_right; lra].
Qed.
Print Assumptions float_rough_refraction.
