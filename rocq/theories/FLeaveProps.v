(* Rays that leave a surface in single precision: when they hit the surface again that they leave. *)
From Coq Require Import ZArith Reals List Lra Lia Bool.
From Flocq Require Import Core.Core IEEE754.BinarySingleNaN.
From Verif Require Import Common FltModel FltFacts FltProps FExtFacts FRayModel FRayFacts FSphereProps FBoxMarginProps FMatModel FMatProps FMatBoundProps FFilmProps FQuadProps FQuadRootProps FSphereHitProps FSphereFindProps RVecModel FTriProps FTriHitProps.
Import ListNotations.
Local Open Scope R_scope.

(* ----- spheres ----- *)

Lemma tangent_behind : forall a b c, solvable a b c -> 0 <= val b -> val (fdiv (fneg b) (fmul a (of_Z 2))) <= 0.
Proof.
  intros a b c S PB. pose proof (solvable_a _ _ _ S) as PA. pose proof S as (FA & FB & FC & A & B & C & _).
  destruct (neg_val b FB) as (FN & VN). destruct (two_a a FA A) as (F2 & V2).
  assert (IA : 0 < / val a <= bpow radix2 30).
  { split; [apply Rinv_0_lt_compat; exact PA|]. change 30%Z with (- - 30)%Z. rewrite bpow_opp. apply Rinv_le; [apply bpow_gt_0|lra]. }
  assert (TB : Rabs (- val b / (val a * 2)) <= bpow radix2 70).
  { replace (- val b / (val a * 2)) with (val b * (- / val a * / 2)) by (field; lra). replace 70%Z with (40 + 30)%Z by reflexivity.
    apply abs_prod; [exact B|]. rewrite Rabs_mult, Rabs_Ropp, (Rabs_pos_eq (/ val a)), (Rabs_pos_eq (/ 2)) by lra. lra. }
  destruct (fdiv_val (fneg b) (fmul a (of_Z 2)) FN) as (FX & VX); [rewrite V2; lra|rewrite VN, V2; apply (small_127 _ 70); [lia|exact TB]|].
  rewrite VX, VN, V2, <- rnd_0. apply rnd_le. replace (- val b / (val a * 2)) with (- (val b * (/ val a * / 2))) by (field; lra).
  assert (0 <= val b * (/ val a * / 2)) by (apply Rmult_le_pos; lra). lra.
Qed.

(* nothing of the parabola is near zero beyond the offset *)
Lemma no_root : forall a b c t D L, bpow radix2 (-20) <= D -> 0 <= L -> 9999 / 10000 * D <= a <= 10001 / 10000 * D -> b * b <= 402 / 100 * (D * (L + 1)) ->
  a * Rabs c <= 101 / 100 * (D * (L + 1)) -> 0 <= b -> - c <= 91 / 1000000 * D -> L - 1 - 6 * / 16777216 * (L + 1) <= c -> 9999 / 1000000 <= t ->
  a * Rabs (a * t * t + b * t + c) <= u24 * (24 * (b * b) + 44 * (a * Rabs c)) + bpow radix2 (-140) -> False.
Proof.
  intros a b c t D L D20 PL A B AC PB CC LC T H. assert (D0 : / 1048576 <= D) by exact D20. clear D20.
  assert (PA : 0 < a) by lra.
  assert (SM : bpow radix2 (-140) <= / 1000000000000000000000000000000).
  { apply Rle_trans with (bpow radix2 (-100)); [apply bpow_le; lia|]. change (bpow radix2 (-100)) with (/ IZR (2 ^ 100)). apply Rinv_le; [lra|]. apply IZR_le. vm_compute; discriminate. }
  assert (H' : a * (a * t * t + b * t + c) <= u24 * (24 * (b * b) + 44 * (a * Rabs c)) + bpow radix2 (-140)).
  { eapply Rle_trans; [|exact H]. apply Rmult_le_compat_l; [lra|apply Rle_abs]. }
  clear H. set (h := bpow radix2 (-140)) in *. clearbody h.
  assert (BT : 0 <= b * t) by (apply Rmult_le_pos; lra).
  assert (TT : 9998 / 100000000 <= t * t).
  { apply Rle_trans with (9999 / 1000000 * (9999 / 1000000)); [lra|apply Rmult_le_compat; lra]. }
  assert (ATT : a * (9998 / 100000000) <= a * t * t) by (rewrite Rmult_assoc; apply Rmult_le_compat_l; lra).
  destruct (Rle_dec L 4) as [L4|L4].
  - (* near the sphere *)
    assert (B2 : b * b <= 201 / 10 * D).
    { eapply Rle_trans; [exact B|]. assert (D * (L + 1) <= D * 5) by (apply Rmult_le_compat_l; lra). lra. }
    assert (UB : 24 * u24 * b <= a * (9999 / 1000000)).
    { apply Rsqr_incr_0_var; [|lra]. unfold Rsqr.
      assert (AA : 9998 / 10000 * D * D <= a * a). { replace (9998 / 10000 * D * D) with (9998 / 10000 * (D * D)) by ring. assert (9999 / 10000 * D * (9999 / 10000 * D) <= a * a) by (apply Rmult_le_compat; lra).
        replace (9999 / 10000 * D * (9999 / 10000 * D)) with (9999 / 10000 * (9999 / 10000) * (D * D)) in H by ring. assert (0 <= D * D) by (apply Rmult_le_pos; lra). lra. }
      assert (DD : / 1048576 * D <= D * D) by (apply Rmult_le_compat_r; lra).
      replace (24 * u24 * b * (24 * u24 * b)) with (576 * (u24 * u24) * (b * b)) by ring.
      replace (a * (9999 / 1000000) * (a * (9999 / 1000000))) with (9999 / 1000000 * (9999 / 1000000) * (a * a)) by ring.
      unfold u24. replace (9998 / 10000 * D * D) with (9998 / 10000 * (D * D)) in AA by ring. lra. }
    assert (X : u24 * (24 * (b * b)) <= a * (b * t)).
    { replace (u24 * (24 * (b * b))) with (24 * u24 * b * b) by ring. replace (a * (b * t)) with (a * t * b) by ring. apply Rmult_le_compat_r; [exact PB|].
      eapply Rle_trans; [exact UB|]. apply Rmult_le_compat_l; lra. }
    assert (Y : a * (a * (9998 / 100000000)) <= a * (a * t * t)) by (apply Rmult_le_compat_l; lra).
    assert (AA : a * (9999 / 10000 * D) <= a * a) by (apply Rmult_le_compat_l; lra).
    assert (AD : 9999 / 10000 * / 1048576 * D <= a * D) by (apply Rmult_le_compat_r; lra).
    replace (a * (a * t * t + b * t + c)) with (a * (a * t * t) + a * (b * t) + a * c) in H' by ring.
    replace (a * (a * (9998 / 100000000))) with (9998 / 100000000 * (a * a)) in Y by ring.
    replace (a * (9999 / 10000 * D)) with (9999 / 10000 * (a * D)) in AA by ring.
    destruct (Rle_dec 0 c) as [C0|C0].
    + assert (0 <= a * c) by (apply Rmult_le_pos; lra). rewrite (Rabs_pos_eq c) in H' by exact C0. unfold u24 in *. lra.
    + apply Rnot_le_lt in C0. rewrite (Rabs_left c) in H' by exact C0.
      assert (ACD : a * (- c) <= a * (91 / 1000000 * D)) by (apply Rmult_le_compat_l; lra).
      replace (a * (91 / 1000000 * D)) with (91 / 1000000 * (a * D)) in ACD by ring. replace (a * - c) with (- (a * c)) in * by ring. unfold u24 in *. lra.
  - (* far from it *)
    apply Rnot_le_lt in L4. assert (C1 : 7 / 10 * (L + 1) <= c + 1). { lra. }
    assert (C2 : / 2 * (L + 1) <= c) by lra.
    assert (PDL : 0 < D * (L + 1)) by (apply Rmult_lt_0_compat; lra).
    assert (Y : a * (/ 2 * (L + 1)) <= a * c) by (apply Rmult_le_compat_l; lra).
    assert (Z : 9999 / 10000 * D * (/ 2 * (L + 1)) <= a * (/ 2 * (L + 1))) by (apply Rmult_le_compat_r; lra).
    replace (9999 / 10000 * D * (/ 2 * (L + 1))) with (9999 / 20000 * (D * (L + 1))) in Z by field.
    assert (X1 : 0 <= a * (a * t * t)) by (apply Rmult_le_pos; [lra|]; rewrite Rmult_assoc; apply Rmult_le_pos; lra).
    assert (X2 : 0 <= a * (b * t)) by (apply Rmult_le_pos; lra).
    replace (a * (a * t * t + b * t + c)) with (a * (a * t * t) + a * (b * t) + a * c) in H' by ring.
    assert (DB : / 1048576 <= D * (L + 1)). { apply Rle_trans with (D * 1); [lra|]. apply Rmult_le_compat_l; lra. }
    unfold u24 in *. lra.
Qed.

Lemma root_branch : forall a b c s1 s2 t, solvable a b c -> 0 <= val b -> f_equation2 a b c = Some (s1, s2) -> t = s1 \/ t = s2 -> 0 < val t ->
  fin t /\ residual a b c t <= tolerance a b c.
Proof.
  intros a b c s1 s2 t S PB Q T PT. rewrite eq2_unfold in Q. cbv zeta in Q.
  destruct (fle (f_delta a b c) fzero && fle fzero (fadd (f_delta a b c) f_tangent)) eqn:E1.
  - exfalso. injection Q as Q1 Q2. pose proof (tangent_behind _ _ _ S PB) as TB. assert (TE : t = fdiv (fneg b) (fmul a (of_Z 2))) by (destruct T as [T|T]; rewrite T; auto). rewrite <- TE in TB. lra.
  - destruct (fle fzero (f_delta a b c)) eqn:E2; [|discriminate].
    destruct (delta_val a b c S) as (FD & UD & _). destruct fzero_val as (F0 & V0). pose proof E2 as P. apply (fle_val _ _ F0 FD) in P. rewrite V0 in P.
    assert (D : 0 < val (f_delta a b c)).
    { destruct P as [P|P]; [exact P|exfalso].
      assert (Z : fle (f_delta a b c) fzero = true) by (apply (fle_val _ _ FD F0); rewrite V0; lra).
      destruct (tangent_sum _ FD UD) as (FT & VT). destruct tangent_val as (_ & T').
      assert (W : fle fzero (fadd (f_delta a b c) f_tangent) = true).
      { apply (fle_val _ _ F0 FT). rewrite V0, VT. apply rnd_sign. lra. }
      rewrite Z, W in E1. discriminate. }
    destruct (far_root a b c S D) as (F1 & R1). destruct (near_root a b c S D) as (F2 & R2).
    injection Q as Q1 Q2. destruct T as [->| ->]; [rewrite <- Q1|rewrite <- Q2]; auto.
Qed.

(* C358: a ray that leaves the sphere outwards, from a point at most so far below the surface,
   does not hit it again *)
Theorem float_sphere_leaving : forall r distance, near_ray r ->
  / 4194304 * span (fr_d r) (fr_o r) + bpow radix2 (-140) <= inner (fr_d r) (fr_o r) ->
  1 - 9 / 100000 * sq (fr_d r) + / 1048576 <= sq (fr_o r) -> f_sphere r distance = None.
Proof.
  intros r distance N OUT ON. destruct (f_sphere r distance) as [(t, p)|] eqn:E; [|reflexivity]. exfalso.
  destruct (ray_hit _ _ _ _ E) as (s1 & s2 & Q & T & _ & TS & _). clear E.
  destruct (sphere_numbers r N) as (S & D0 & L0 & P0 & PL & IP & Ha & Hb & Hc & E0 & E1 & E2).
  destruct (coef_bounds _ _ _ _ _ _ _ _ D0 L0 P0 PL IP Ha Hb Hc E0 E1 E2) as (A & B & C).
  assert (PB : 0 <= val (f_b r)). { apply abs_both in Hb. set (P := span (fr_d r) (fr_o r)) in *. set (I := inner (fr_d r) (fr_o r)) in *. clearbody P I. clear - Hb OUT P0 E0. lra. }
  destruct (float_equation2_roots _ _ _ _ _ S Q) as (F1 & F2 & _).
  destruct self_bounds as (FS & SB).
  assert (FT : fin t) by (destruct T; subst t; assumption).
  assert (TL : val f_self <= val t) by (apply Rnot_lt_le; intro X; apply (flt_val _ _ FT FS) in X; congruence).
  destruct (root_branch _ _ _ _ _ t S PB Q T) as (_ & RT); [lra|]. unfold residual, tolerance in RT.
  destruct N as (_ & _ & _ & D1 & _). apply abs_both in Hc.
  apply (no_root (val (f_a r)) (val (f_b r)) (val (f_c r)) (val t) (sq (fr_d r)) (sq (fr_o r))); try assumption.
  - destruct (Rle_dec (sq (fr_o r)) 2) as [L2|L2]; [lra|]. lra.
  - lra.
  - lra.
Qed.
Print Assumptions float_sphere_leaving.

(* the space of a sphere of radius 64: directions are a 64th as long *)
Definition toward : fray := mk_fray (mk_fvec (of_Z 3) (fnum 12 (-4)) fzero) (mk_fvec (fnum (-1) (-6)) fzero fzero).
Definition away (p : fvec) : fray := mk_fray p (mk_fvec (fnum 1 (-30)) fzero (fnum 1 (-6))).

(* C359: a ray that starts where a sphere was hit and leaves it outwards never hits it again.  False
   for large spheres: the offset of a hundredth is not more than the rounding *)
Theorem float_sphere_leaving_refuted :
  ~ (forall r0 r1 distance distance1 t p, near_ray r0 -> near_ray r1 -> f_sphere r0 distance = Some (t, p) -> fr_o r1 = p -> 0 < inner (fr_d r1) p ->
      f_sphere r1 distance1 = None).
Proof.
  intro H.
  assert (V : val (fnum 12 (-4)) = 3 / 4 /\ fin (fnum 12 (-4)) /\ val (fnum (-1) (-6)) = - / 64 /\ fin (fnum (-1) (-6)) /\ val (fnum 1 (-30)) = / 1073741824 /\ fin (fnum 1 (-30)) /\
    val (fnum 1 (-6)) = / 64 /\ fin (fnum 1 (-6)) /\ val (of_Z 3) = 3 /\ fin (of_Z 3) /\ val fzero = 0 /\ fin fzero).
  { destruct fzero_val as (F0 & V0). destruct (of_Z_exact 3) as (F3 & V3); [cbn; lia|].
    repeat split; try assumption; try (vm_compute; reflexivity).
    - rewrite (lit_val _ 12582912 (-24)) by (vm_compute; reflexivity). change (bpow radix2 (-24)) with (/ 16777216). lra.
    - rewrite (lit_neg _ 8388608 (-29)) by (vm_compute; reflexivity). change (bpow radix2 (-29)) with (/ 536870912). lra.
    - rewrite (lit_val _ 8388608 (-53)) by (vm_compute; reflexivity). change (bpow radix2 (-53)) with (/ 9007199254740992). lra.
    - rewrite (lit_val _ 8388608 (-29)) by (vm_compute; reflexivity). change (bpow radix2 (-29)) with (/ 536870912). lra. }
  destruct V as (V1 & G1 & V2 & G2 & V3 & G3 & V4 & G4 & V5 & G5 & V6 & G6).
  assert (NT : near_ray toward).
  { unfold near_ray, toward, finite_vec, sq; cbn [fr_o fr_d fx fy fz]. rewrite V1, V2, V5, V6.
    change (bpow radix2 30) with 1073741824. change (bpow radix2 20) with 1048576. change (bpow radix2 (-20)) with (/ 1048576). repeat split; try assumption; lra. }
  destruct (f_sphere toward (of_Z 10000)) as [(t, p)|] eqn:E.
  2: { assert (X : match f_sphere toward (of_Z 10000) with Some _ => true | None => false end = true) by (vm_compute; reflexivity). rewrite E in X. discriminate. }
  assert (X : match f_sphere toward (of_Z 10000) with Some (_, p) => fle fone (fadd (fx p) fone) && fle (fx p) fone && fgt (fx p) fzero && is_finite (fx p) && fle (fy p) fone && fle fzero (fy p) && is_finite (fy p) && Beqb (fz p) fzero && is_finite (fz p) &&
    (match f_sphere (away p) (of_Z 1000) with Some _ => true | None => false end) | None => false end = true) by (vm_compute; reflexivity).
  rewrite E in X. repeat (apply andb_prop in X as (X & ?Y)).
  destruct fone_val as (F1 & W1).
  apply (flt_val fzero (fx p) G6 Y5) in Y6. apply (fle_val (fx p) fone Y5 F1) in Y7. apply (fle_val (fy p) fone Y2 F1) in Y4. apply (fle_val fzero (fy p) G6 Y2) in Y3.
  rewrite (Beqb_correct 24 128 (fz p) fzero Y0 G6) in Y1. destruct (Req_bool_spec (B2R (fz p)) (B2R fzero)) as [Z|Z]; [|discriminate]. fold (val (fz p)) (val fzero) in Z.
  rewrite V6 in *. rewrite W1 in *.
  assert (XX : 0 <= val (fx p) * val (fx p) <= 1) by (split; [apply Rmult_le_pos; lra|]; rewrite <- (Rmult_1_r 1); apply Rmult_le_compat; lra).
  assert (YY : 0 <= val (fy p) * val (fy p) <= 1) by (split; [apply Rmult_le_pos; lra|]; rewrite <- (Rmult_1_r 1); apply Rmult_le_compat; lra).
  assert (NA : near_ray (away p)).
  { unfold near_ray, away, finite_vec, sq; cbn [fr_o fr_d fx fy fz]. rewrite V3, V4, V6, Z.
    change (bpow radix2 30) with 1073741824. change (bpow radix2 20) with 1048576. change (bpow radix2 (-20)) with (/ 1048576). repeat split; try assumption; lra. }
  rewrite (H toward (away p) (of_Z 10000) (of_Z 1000) t p NT NA E eq_refl) in Y; [discriminate|].
  unfold inner, away; cbn [fr_d fx fy fz]. rewrite V3, V6, Z. lra.
Qed.
Print Assumptions float_sphere_leaving_refuted.

Example float_sphere_leaving_case : near_ray (mk_fray (ivec 1 0 0) (ivec 1 1 0)) /\
  / 4194304 * span (ivec 1 1 0) (ivec 1 0 0) + bpow radix2 (-140) <= inner (ivec 1 1 0) (ivec 1 0 0) /\ 1 - 9 / 100000 * sq (ivec 1 1 0) + / 1048576 <= sq (ivec 1 0 0).
Proof.
  destruct (of_Z_exact 1) as (F1 & V1); [cbn; lia|]. destruct (of_Z_exact 0) as (F0 & V0); [cbn; lia|].
  assert (H : bpow radix2 (-140) <= / 4) by (change (/ 4) with (bpow radix2 (-2)); apply bpow_le; lia).
  unfold near_ray, finite_vec, span, inner, sq, ivec; cbn [fr_o fr_d fx fy fz]. rewrite V1, V0. rewrite !Rmult_0_r, !Rmult_1_r, !Rabs_R1, !Rabs_R0.
  change (bpow radix2 30) with 1073741824. change (bpow radix2 20) with 1048576. change (bpow radix2 (-20)) with (/ 1048576). repeat split; try assumption; lra.
Qed.

(* ----- triangles ----- *)

Lemma apply_error : forall r t L, finite_vec (fr_o r) -> finite_vec (fr_d r) -> fin t -> 1 <= L -> L <= bpow radix2 40 -> n1 (exact (fr_o r)) <= L -> Rabs (val t) * n1 (exact (fr_d r)) <= L ->
  n1 (rsub (exact (f_apply r t)) (radd (exact (fr_o r)) (rscale (val t) (exact (fr_d r))))) <= 31 / 10 * u24 * L.
Proof.
  intros r t L (FX & FY & FZ) (GX & GY & GZ) FT L1 L40 NO ND.
  destruct (n1_coord (exact (fr_o r))) as (OX & OY & OZ). destruct (n1_coord (exact (fr_d r))) as (DX & DY & DZ).
  assert (P60 : L <= bpow radix2 60) by (eapply Rle_trans; [exact L40|apply bpow_le; lia]).
  assert (B : forall x, Rabs x <= n1 (exact (fr_d r)) -> Rabs (x * val t) <= bpow radix2 60).
  { intros x X. rewrite Rabs_mult, Rmult_comm. eapply Rle_trans; [apply Rmult_le_compat_l; [apply Rabs_pos|exact X]|]. lra. }
  destruct (apply_coord _ _ _ FX GX FT (Rle_trans _ _ _ (Rle_trans _ _ _ OX NO) P60) (B _ DX)) as (_ & EX).
  destruct (apply_coord _ _ _ FY GY FT (Rle_trans _ _ _ (Rle_trans _ _ _ OY NO) P60) (B _ DY)) as (_ & EY).
  destruct (apply_coord _ _ _ FZ GZ FT (Rle_trans _ _ _ (Rle_trans _ _ _ OZ NO) P60) (B _ DZ)) as (_ & EZ).
  unfold n1, rsub, radd, rscale, exact, f_apply in *; cbn [fx fy fz rx ry rz fcoord] in *. cbv zeta in EX, EY, EZ.
  rewrite !(Rmult_comm (val t)).
  assert (T : forall x y, Rabs (x + y * val t) <= Rabs x + Rabs y * Rabs (val t)) by (intros; rewrite <- Rabs_mult; apply Rabs_triang).
  pose proof (T (val (fx (fr_o r))) (val (fx (fr_d r)))) as TX. pose proof (T (val (fy (fr_o r))) (val (fy (fr_d r)))) as TY. pose proof (T (val (fz (fr_o r))) (val (fz (fr_d r)))) as TZ.
  rewrite Rabs_mult in EX, EY, EZ. 
  assert (H : 9 * h150 <= / 1000 * u24).
  { assert (h150 <= / 16384 * u24); [|unfold u24 in *; lra]. unfold h150. change (/ 16384) with (bpow radix2 (-14)). rewrite <- u24_bpow, pow_mult. apply bpow_le; lia. }
  rewrite !Rmult_plus_distr_l in ND.
  set (tx := Rabs (val (fx (fr_d r))) * Rabs (val t)) in *. set (ty := Rabs (val (fy (fr_d r))) * Rabs (val t)) in *. set (tz := Rabs (val (fz (fr_d r))) * Rabs (val t)) in *.
  replace (Rabs (val t) * Rabs (val (fx (fr_d r)))) with tx in ND by (unfold tx; ring). replace (Rabs (val t) * Rabs (val (fy (fr_d r)))) with ty in ND by (unfold ty; ring).
  replace (Rabs (val t) * Rabs (val (fz (fr_d r)))) with tz in ND by (unfold tz; ring).
  assert (0 <= tx) by (apply Rmult_le_pos; apply Rabs_pos). assert (0 <= ty) by (apply Rmult_le_pos; apply Rabs_pos). assert (0 <= tz) by (apply Rmult_le_pos; apply Rabs_pos).
  set (g1 := Rabs (val (fx (fr_o r)))) in *. set (g2 := Rabs (val (fy (fr_o r)))) in *. set (g3 := Rabs (val (fz (fr_o r)))) in *.
  set (k1 := Rabs (val (fx (fr_o r)) + val (fx (fr_d r)) * val t)) in *. set (k2 := Rabs (val (fy (fr_o r)) + val (fy (fr_d r)) * val t)) in *. set (k3 := Rabs (val (fz (fr_o r)) + val (fz (fr_d r)) * val t)) in *.
  match goal with |- ?x + ?y + ?z <= _ => set (m1 := x) in *; set (m2 := y) in *; set (m3 := z) in * end.
  clearbody tx ty tz g1 g2 g3 k1 k2 k3 m1 m2 m3. clear - EX EY EZ TX TY TZ H NO ND H0 H1 H2 L1. unfold u24 in *. lra.
Qed.

(* C360: a ray that starts where a triangle was hit does not hit the triangle again, if everything
   is of size L at most, the triangle is not seen more obliquely than K, and K^2 L is below 800 *)
Theorem float_triangle_leaving : forall a b c r r2 distance distance2 t u v K L,
  let A := exact a in let B := exact b in let C := exact c in let O := exact (fr_o r) in let D := exact (fr_d r) in let D2 := exact (fr_d r2) in
  regular a b c r -> regular a b c r2 -> f_triangle a b c r distance = Some (t, u, v) -> fr_o r2 = f_apply r t ->
  1 <= K -> box_volume A B C D <= K * Rabs (volume A B C D) -> box_volume A B C D2 <= K * Rabs (volume A B C D2) ->
  1 <= L -> n1 (rsub B A) <= L -> n1 (rsub C A) <= L -> n1 (rsub O A) <= L -> n1 O <= L -> (1 + val t) * n1 D <= L -> 1 <= n1 D2 ->
  K * K * L <= 800 -> f_triangle a b c r2 distance2 = None.
Proof.
  intros a b c r r2 distance distance2 t u v K L A B C O D D2 REG REG2 HIT ORIG K1 VK1 VK2 L1 LB LC LT LO LD N2 SIZE.
  pose proof (volume_nonzero _ _ _ _ REG) as PV. pose proof (volume_nonzero _ _ _ _ REG2) as PV2. fold A B C D in PV. fold A B C D2 in PV2.
  destruct (float_triangle_on _ _ _ _ _ _ _ _ REG HIT) as (FT & FU & FV & U0 & V0 & UV & T0 & _ & ON). fold A B C O D in ON.
  destruct self_bounds as (_ & SB).
  assert (TP : 0 <= val t) by lra.
  assert (KL : 1 <= K * L) by (rewrite <- (Rmult_1_l 1); apply Rmult_le_compat; lra).
  assert (KKL : K * L <= K * K * L). { rewrite Rmult_assoc. rewrite <- (Rmult_1_l (K * L)) at 1. apply Rmult_le_compat_r; lra. }
  assert (LKL : L <= K * L). { rewrite <- (Rmult_1_l L) at 1. apply Rmult_le_compat_r; lra. }
  (* the point of the triangle and where the second ray starts *)
  set (Q := radd A (radd (rscale (val u) (rsub B A)) (rscale (val v) (rsub C A)))) in *.
  set (R0 := radd O (rscale (val t) D)) in *.
  assert (E1 : n1 (rsub R0 Q) <= 128 * u24 * (K * L)).
  { apply (Rmult_le_reg_l (Rabs (volume A B C D))); [exact PV|]. eapply Rle_trans; [exact ON|].
    apply Rle_trans with (32 * u24 * (K * Rabs (volume A B C D)) * (4 * L)); [|right; ring].
    apply Rmult_le_compat; [apply Rmult_le_pos; [unfold u24; lra|]| |apply Rmult_le_compat_l; [unfold u24; lra|exact VK1]|lra].
    - unfold box_volume. apply Rmult_le_pos; [apply Rmult_le_pos|]; apply n1_pos.
    - pose proof (n1_pos (rsub O A)). pose proof (n1_pos (rsub B A)). pose proof (n1_pos (rsub C A)). pose proof (n1_pos D).
      assert (0 <= (1 + val t) * n1 D) by (apply Rmult_le_pos; lra). lra. }
  assert (E2 : n1 (rsub (exact (fr_o r2)) R0) <= 31 / 10 * u24 * L).
  { rewrite ORIG. destruct REG as (_ & _ & _ & FO & FD & _). apply apply_error; try assumption.
    - apply Rle_trans with 800; [lra|]. apply Rle_trans with (bpow radix2 10); [change (bpow radix2 10) with 1024; lra|apply bpow_le; lia].
    - rewrite Rabs_pos_eq by exact TP. fold D. pose proof (n1_pos D). lra. }
  set (P := exact (fr_o r2)) in *.
  assert (E3 : n1 (rsub P Q) <= 132 * u24 * (K * L)).
  { apply Rle_trans with (n1 (rsub P R0) + n1 (rsub R0 Q)).
    - replace (rsub P Q) with (radd (rsub P R0) (rsub R0 Q)) by (apply rv_ext; unfold radd, rsub; cbn [rx ry rz]; ring). apply n1_add.
    - unfold u24 in *. lra. }
  destruct (meets_exists A B C P D2) as (t2 & u2 & v2 & M2); [intro Z; rewrite Z, Rabs_R0 in PV2; lra|].
  destruct (meets_products _ _ _ _ _ _ _ _ M2) as (_ & _ & PT).
  replace (rdot (rcross (rsub P A) (rsub B A)) (rsub C A)) with (rdot (rcross (rsub P Q) (rsub B A)) (rsub C A)) in PT by (unfold Q, rdot, rcross, rsub, radd, rscale; cbn [rx ry rz]; ring).
  pose proof (triple_bound (rsub P Q) (rsub B A) (rsub C A)) as TB. rewrite PT, Rabs_mult in TB.
  assert (BC : n1 (rsub B A) * n1 (rsub C A) <= K * Rabs (volume A B C D2)).
  { eapply Rle_trans; [|exact VK2]. unfold box_volume. pose proof (n1_pos (rsub B A)) as PB. pose proof (n1_pos (rsub C A)) as PC.
    replace (n1 D2 * n1 (rsub C A) * n1 (rsub B A)) with (n1 D2 * (n1 (rsub B A) * n1 (rsub C A))) by ring. rewrite <- (Rmult_1_l (n1 (rsub B A) * n1 (rsub C A))) at 1.
    apply Rmult_le_compat_r; [apply Rmult_le_pos; assumption|exact N2]. }
  assert (T2 : Rabs t2 * Rabs (volume A B C D2) <= 132 * u24 * (K * K * L) * Rabs (volume A B C D2)).
  { eapply Rle_trans; [exact TB|]. rewrite Rmult_assoc. apply Rle_trans with (132 * u24 * (K * L) * (K * Rabs (volume A B C D2))); [|right; ring].
    apply Rmult_le_compat; [apply n1_pos|apply Rmult_le_pos; apply n1_pos|exact E3|exact BC]. }
  assert (T3 : Rabs t2 <= 132 * u24 * (K * K * L)) by (apply (Rmult_le_reg_r (Rabs (volume A B C D2))); [exact PV2|exact T2]).
  assert (T4 : Rabs t2 <= / 100) by (unfold u24 in T3; lra).
  assert (NP : n1 (rsub P A) <= 102 / 100 * L).
  { replace (rsub P A) with (radd (rsub P Q) (radd (rscale (val u) (rsub B A)) (rscale (val v) (rsub C A)))) by (apply rv_ext; unfold Q, radd, rscale, rsub; cbn [rx ry rz]; ring).
    eapply Rle_trans; [apply n1_add|]. eapply Rle_trans; [apply Rplus_le_compat_l, n1_add|]. rewrite !n1_scale, (Rabs_pos_eq (val u)), (Rabs_pos_eq (val v)) by assumption.
    assert (X1 : val u * n1 (rsub B A) <= val u * L) by (apply Rmult_le_compat_l; assumption). assert (X2 : val v * n1 (rsub C A) <= val v * L) by (apply Rmult_le_compat_l; assumption).
    assert (X3 : (val u + val v) * L <= (1 + 2 * u24) * L) by (apply Rmult_le_compat_r; lra). unfold u24 in *. lra. }
  apply (float_triangle_miss a b c r2 distance2 t2 u2 v2 REG2 M2). fold A B C D2 P. right. right. right. left.
  assert (DS : dist_slack A B C P D2 t2 <= 29 * u24 * (K * L) * Rabs (volume A B C D2)).
  { unfold dist_slack. set (V2 := Rabs (volume A B C D2)) in *.
    assert (X1 : (1 + Rabs t2) * box_volume A B C D2 <= (1 + / 100) * (K * V2)).
    { apply Rmult_le_compat; [pose proof (Rabs_pos t2); lra| |lra|exact VK2]. unfold box_volume. apply Rmult_le_pos; [apply Rmult_le_pos|]; apply n1_pos. }
    assert (X2 : n1 (rsub B A) * n1 (rsub C A) * n1 (rsub P A) <= K * V2 * (102 / 100 * L)).
    { apply Rmult_le_compat; [apply Rmult_le_pos; apply n1_pos|apply n1_pos|exact BC|exact NP]. }
    assert (X3 : 1 * (K * V2) <= L * (K * V2)) by (apply Rmult_le_compat_r; [apply Rmult_le_pos; lra|exact L1]).
    replace (K * V2 * (102 / 100 * L)) with (102 / 100 * (L * (K * V2))) in X2 by ring. replace (29 * u24 * (K * L) * V2) with (29 * u24 * (L * (K * V2))) by ring.
    assert (X4 : 0 <= K * V2) by (apply Rmult_le_pos; lra). unfold u24 in *. lra. }
  assert (TA : t2 * Rabs (volume A B C D2) <= 132 * u24 * (K * K * L) * Rabs (volume A B C D2)).
  { eapply Rle_trans; [|exact T2]. apply Rmult_le_compat_r; [lra|apply Rle_abs]. }
  assert (KX : K * L * Rabs (volume A B C D2) <= K * K * L * Rabs (volume A B C D2)) by (apply Rmult_le_compat_r; lra).
  assert (SX : K * K * L * Rabs (volume A B C D2) <= 800 * Rabs (volume A B C D2)) by (apply Rmult_le_compat_r; lra).
  assert (SS : 9999 / 1000000 * Rabs (volume A B C D2) <= val f_self * Rabs (volume A B C D2)) by (apply Rmult_le_compat_r; lra).
  unfold u24 in *. lra.
Qed.
Print Assumptions float_triangle_leaving.

(* a slanted triangle 2^18 away, and a ray that meets it there *)
Definition far : f32 := fnum 1 18.
Definition slanted_b : fvec := mk_fvec (of_Z 4) fzero (fnum 4194305 (-4)).
Definition upward : fray := mk_fray (ivec 1 1 0) (ivec 0 0 1).

(* C361: a ray that goes on where a triangle was hit never hits that triangle again.  False from
   2^18 on, where floats are too sparse *)
Theorem float_triangle_leaving_refuted :
  ~ (forall a b c r r2 distance distance2 t u v, finite_vec a -> finite_vec b -> finite_vec c -> finite_vec (fr_o r) -> finite_vec (fr_d r) ->
      f_triangle a b c r distance = Some (t, u, v) -> r2 = mk_fray (f_apply r t) (fr_d r) -> f_triangle a b c r2 distance2 = None).
Proof.
  intro H. set (a := mk_fvec fzero fzero far). set (c := mk_fvec fzero (of_Z 4) far).
  assert (X : match f_triangle a slanted_b c upward (fnum 1 30) with Some (t, _, _) =>
    match f_triangle a slanted_b c (mk_fray (f_apply upward t) (fr_d upward)) (fnum 1 30) with Some _ => true | None => false end | None => false end = true) by (vm_compute; reflexivity).
  destruct (f_triangle a slanted_b c upward (fnum 1 30)) as [((t, u), v)|] eqn:E; [|discriminate].
  rewrite (H a slanted_b c upward (mk_fray (f_apply upward t) (fr_d upward)) (fnum 1 30) (fnum 1 30) t u v) in X; try exact E; try reflexivity; try (vm_compute; repeat split; reflexivity).
  discriminate.
Qed.
Print Assumptions float_triangle_leaving_refuted.

Definition back_ray : fray := mk_fray (ivec 1 1 0) (ivec 0 0 (-1)).

Example float_triangle_leaving_case :
  regular (ivec 0 0 0) (ivec 4 0 0) (ivec 0 4 0) front_ray /\ regular (ivec 0 0 0) (ivec 4 0 0) (ivec 0 4 0) back_ray /\
  box_volume (exact (ivec 0 0 0)) (exact (ivec 4 0 0)) (exact (ivec 0 4 0)) (exact (fr_d back_ray)) <= 1 * Rabs (volume (exact (ivec 0 0 0)) (exact (ivec 4 0 0)) (exact (ivec 0 4 0)) (exact (fr_d back_ray))) /\
  n1 (exact (fr_o front_ray)) <= 7 /\ 1 <= n1 (exact (fr_d back_ray)) /\ 1 * 1 * 7 <= 800.
Proof.
  split; [apply float_triangle_case|].
  assert (VOL : volume (RV 0 0 0) (RV 4 0 0) (RV 0 4 0) (RV 0 0 (-1)) = 16) by (unfold volume, rdot, rcross, rsub; cbn; lra).
  assert (N0 : forall x y z, 0 <= x -> 0 <= y -> n1 (RV x y z) = x + y + Rabs z) by (intros; unfold n1; cbn; rewrite (Rabs_pos_eq x), (Rabs_pos_eq y) by assumption; reflexivity).
  assert (E1 : rsub (RV 4 0 0) (RV 0 0 0) = RV 4 0 0) by (apply rv_ext; cbn; lra).
  assert (E2 : rsub (RV 0 4 0) (RV 0 0 0) = RV 0 4 0) by (apply rv_ext; cbn; lra).
  assert (M1 : Rabs (-1) = 1) by (rewrite Rabs_left by lra; lra). assert (M5 : Rabs (-5) = 5) by (rewrite Rabs_left by lra; lra).
  assert (BOX : box_volume (RV 0 0 0) (RV 4 0 0) (RV 0 4 0) (RV 0 0 (-1)) = 16) by (unfold box_volume; rewrite E1, E2, !N0 by lra; rewrite M1, Rabs_R0; lra).
  assert (E3 : rsub (RV 1 1 0) (RV 0 0 0) = RV 1 1 0) by (apply rv_ext; cbn; lra).
  unfold regular, front_ray, back_ray; cbn [fr_o fr_d]. rewrite !exact_ivec by (cbn; lia). rewrite VOL, BOX, E1, E2, E3, !N0 by lra. rewrite M1, M5, Rabs_R0, (Rabs_pos_eq 16) by lra.
  change (bpow radix2 18) with 262144. assert (bpow radix2 (-60) <= 1) by (change 1 with (bpow radix2 0); apply bpow_le; lia).
  repeat split; try (apply finite_ivec; cbn; lia); try lra; try (apply of_Z_exact; cbn; lia).
Qed.
