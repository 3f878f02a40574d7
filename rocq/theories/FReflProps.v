(* The direction of rough reflections in single precision. *)
From Coq Require Import ZArith Reals List Lra Psatz Lia Bool.
From Flocq Require Import Core.Core IEEE754.BinarySingleNaN.
From Verif Require Import Common FltModel FltFacts FltProps FExtFacts FRayModel FSphereProps FBoxMarginProps FMatBoundProps FFilmProps FFresProps FFresNearProps FTexModel FTexProps FSpecNearProps FNearFacts FMatModel FLightModel FltVecProps FShadeModel FShadeProps FLookModel FLookProps FReflModel.
Local Open Scope R_scope.

(* ----- reals ----- *)

(* the mirror image of w about n, and about a vector h close to n *)
Lemma image_moves : forall wx wy wz hx hy hz nx ny nz, wx * wx + wy * wy + wz * wz <= 1002 / 1000 -> hx * hx + hy * hy + hz * hz <= 1002 / 1000 -> nx * nx + ny * ny + nz * nz <= 1002 / 1000 ->
  Rabs (hx - nx) <= 1e-5 -> Rabs (hy - ny) <= 1e-5 -> Rabs (hz - nz) <= 1e-5 ->
  Rabs ((2 * (wx * hx + wy * hy + wz * hz) * hx - wx) - (2 * (wx * nx + wy * ny + wz * nz) * nx - wx)) <= 553 / 10000000.
Proof.
  intros wx wy wz hx hy hz nx ny nz W H N X Y Z. pose proof (small_dot _ _ _ wx wy wz _ X Y Z W) as S. pose proof (comp_le hx hy hz H) as HX.
  replace ((2 * (wx * hx + wy * hy + wz * hz) * hx - wx) - (2 * (wx * nx + wy * ny + wz * nz) * nx - wx)) with (2 * (((hx - nx) * wx + (hy - ny) * wy + (hz - nz) * wz) * hx + (wx * nx + wy * ny + wz * nz) * (hx - nx))) by ring.
  set (a := (hx - nx) * wx + _ + _) in *. 
  assert (D : Rabs (wx * nx + wy * ny + wz * nz) <= 1002 / 1000).
  { pose proof (Rle_0_sqr (wx - nx)). pose proof (Rle_0_sqr (wy - ny)). pose proof (Rle_0_sqr (wz - nz)). pose proof (Rle_0_sqr (wx + nx)). pose proof (Rle_0_sqr (wy + ny)). pose proof (Rle_0_sqr (wz + nz)). unfold Rsqr in *. apply Rabs_le. lra. }
  set (b := wx * nx + wy * ny + wz * nz) in *. set (e := hx - nx) in *. clearbody a b e. rewrite Rabs_mult, (Rabs_pos_eq 2) by lra.
  assert (P : Rabs (a * hx) <= 174 / 100 * 1e-5 * (1001 / 1000)) by (rewrite Rabs_mult; apply Rmult_le_compat; try apply Rabs_pos; assumption).
  assert (Q : Rabs (b * e) <= 1002 / 1000 * 1e-5) by (rewrite Rabs_mult; apply Rmult_le_compat; try apply Rabs_pos; assumption).
  apply Rle_trans with (2 * (Rabs (a * hx) + Rabs (b * e))); [apply Rmult_le_compat_l; [lra|apply Rabs_triang]|]. lra.
Qed.

(* ----- floats ----- *)

Lemma part_near : forall s c dot d, fin s -> fin c -> Rabs (val s) <= 1001 / 1000 -> Rabs (val c) <= 1001 / 1000 -> near dot d 4 16 ->
  let p := fneg (fsub s (fmul (fmul (of_Z 2) dot) c)) in fin p /\ Rabs (val p - (2 * d * val c - val s)) <= 4 / 1000000.
Proof.
  intros s c dot d FS FC S C D. cbv zeta. assert (LD := proj2 (proj2 D)).
  assert (T : near (of_Z 2) 2 2 0) by (apply near_int; [lia|rewrite Rabs_pos_eq; lra]).
  assert (A : near (fmul (of_Z 2) dot) (2 * d) 8 41).
  { eapply near_weaken; [apply (near_mul _ _ _ _ 2 4 0 16 8 T D)| |]; try lra. rewrite Rabs_mult, (Rabs_pos_eq 2) by lra. lra. }
  assert (LA := proj2 (proj2 A)). pose proof (near_exact c (1001 / 1000) FC C) as NC.
  assert (B : near (fmul (fmul (of_Z 2) dot) c) (2 * d * val c) (81 / 10) 51).
  { eapply near_weaken; [apply (near_mul _ _ _ _ 8 (1001 / 1000) 41 0 (81 / 10) A NC)| |]; try lra. rewrite Rabs_mult. apply Rle_trans with (8 * (1001 / 1000)); [apply Rmult_le_compat; try apply Rabs_pos; assumption|lra]. }
  assert (LB := proj2 (proj2 B)). pose proof (near_exact s (1001 / 1000) FS S) as NS.
  assert (E : near (fsub s (fmul (fmul (of_Z 2) dot) c)) (val s - 2 * d * val c) (92 / 10) 61).
  { eapply near_weaken; [apply (near_sub _ _ _ _ (1001 / 1000) (81 / 10) 0 51 (92 / 10) NS B)| |]; try lra. unfold Rminus. eapply Rle_trans; [apply Rabs_triang|]. rewrite Rabs_Ropp. lra. }
  destruct (near_neg _ _ _ _ E) as (F & V & _). split; [exact F|]. replace (2 * d * val c - val s) with (- (val s - 2 * d * val c)) by ring. eapply Rle_trans; [exact V|]. unfold u24. lra.
Qed.

Lemma reflect_near : forall wo h, unit_v wo -> unit_11 h ->
  let v := fv_neg (f_reflect wo h) in vfin v /\
  Rabs (val (fx v) - (2 * dotr wo h * val (fx h) - val (fx wo))) <= 4 / 1000000 /\
  Rabs (val (fy v) - (2 * dotr wo h * val (fy h) - val (fy wo))) <= 4 / 1000000 /\
  Rabs (val (fz v) - (2 * dotr wo h * val (fz h) - val (fz wo))) <= 4 / 1000000.
Proof.
  intros wo h UW UH. destruct (unit_le wo UW) as ((FWX & FWY & FWZ) & _ & WX & WY & WZ). destruct (unit_le h (unit_11_v h UH)) as ((FHX & FHY & FHZ) & _ & HX & HY & HZ). clear UW UH.
  assert (D : near (fv_dot wo h) (dotr wo h) 4 16) by (unfold fv_dot, dotr; apply dot3_near; assumption).
  cbv zeta. unfold f_reflect, fv_neg. generalize dependent (fv_dot wo h). intros dot D. cbn [fx fy fz].
  destruct (part_near _ _ _ _ FWX FHX WX HX D) as (F1 & E1). destruct (part_near _ _ _ _ FWY FHY WY HY D) as (F2 & E2). destruct (part_near _ _ _ _ FWZ FHZ WZ HZ D) as (F3 & E3).
  split; [split; [exact F1|split; [exact F2|exact F3]]|]. split; [exact E1|split; [exact E2|exact E3]].
Qed.

(* For an outgoing direction of length 1 up to 2e-5 in the square and any half vector, normalised or not, the
   direction of a rough reflection has length 1 up to 1.1e-5 in the square and is the mirror image of the
   outgoing one about the half vector, up to 2e-4 in each coordinate. *)
Theorem float_rough_direction : forall wo wh, unit_v wo -> measurable wh ->
  let w := f_rough_wi wo wh in let s := sqrt (length2 wh) in let c := dotr wo wh / s in
  vfin w /\ Rabs (length2 w - 1) <= 11 / 1000000 /\
  Rabs (val (fx w) - (2 * c * (val (fx wh) / s) - val (fx wo))) <= 2 / 10000 /\
  Rabs (val (fy w) - (2 * c * (val (fy wh) / s) - val (fy wo))) <= 2 / 10000 /\
  Rabs (val (fz w) - (2 * c * (val (fz wh) / s) - val (fz wo))) <= 2 / 10000.
Proof.
  intros wo wh UW (HF & HB). cbv zeta. pose proof (normal_unit wh HF HB) as UH. destruct (float_normalize wh HF HB) as (_ & _ & NX & NY & NZ).
  unfold f_rough_wi. generalize dependent (f_normalize wh). intros h UH NX NY NZ. destruct (reflect_near wo h UW UH) as (VF & E1 & E2 & E3). generalize dependent (fv_neg (f_reflect wo h)). intros v VF E1 E2 E3.
  assert (SP : 0 < length2 wh) by (apply Rlt_le_trans with (2 := proj1 HB), bpow_gt_0). pose proof (sqrt_lt_R0 _ SP) as PS. pose proof (sqrt_sqrt _ (Rlt_le _ _ SP)) as QS.
  set (s := sqrt (length2 wh)) in *. clearbody s. destruct UW as (_ & LW). destruct UH as (_ & LH). unfold length2, dotr in *.
  assert (N1 : val (fx wh) / s * (val (fx wh) / s) + val (fy wh) / s * (val (fy wh) / s) + val (fz wh) / s * (val (fz wh) / s) = 1).
  { replace (val (fx wh) / s * (val (fx wh) / s) + val (fy wh) / s * (val (fy wh) / s) + val (fz wh) / s * (val (fz wh) / s)) with ((val (fx wh) * val (fx wh) + val (fy wh) * val (fy wh) + val (fz wh) * val (fz wh)) / (s * s)) by (field; lra). rewrite QS. field. lra. }
  replace ((val (fx wo) * val (fx wh) + val (fy wo) * val (fy wh) + val (fz wo) * val (fz wh)) / s) with (val (fx wo) * (val (fx wh) / s) + val (fy wo) * (val (fy wh) / s) + val (fz wo) * (val (fz wh) / s)) by (field; lra).
  set (nx := val (fx wh) / s) in *. set (ny := val (fy wh) / s) in *. set (nz := val (fz wh) / s) in *. clearbody nx ny nz. clear QS PS SP HB.
  set (wx := val (fx wo)) in *. set (wy := val (fy wo)) in *. set (wz := val (fz wo)) in *. set (hx := val (fx h)) in *. set (hy := val (fy h)) in *. set (hz := val (fz h)) in *. clearbody wx wy wz hx hy hz.
  apply abs_both in LH.
  assert (LWB : wx * wx + wy * wy + wz * wz <= 1002 / 1000) by (apply abs_both in LW; lra).
  pose proof (image_moves wx wy wz hx hy hz nx ny nz LWB ltac:(lra) ltac:(lra) NX NY NZ) as M1.
  pose proof (image_moves wy wz wx hy hz hx ny nz nx ltac:(lra) ltac:(lra) ltac:(lra) NY NZ NX) as M2.
  pose proof (image_moves wz wx wy hz hx hy nz nx ny ltac:(lra) ltac:(lra) ltac:(lra) NZ NX NY) as M3.
  replace (wy * hy + wz * hz + wx * hx) with (wx * hx + wy * hy + wz * hz) in M2 by ring. replace (wy * ny + wz * nz + wx * nx) with (wx * nx + wy * ny + wz * nz) in M2 by ring.
  replace (wz * hz + wx * hx + wy * hy) with (wx * hx + wy * hy + wz * hz) in M3 by ring. replace (wz * nz + wx * nx + wy * ny) with (wx * nx + wy * ny + wz * nz) in M3 by ring.
  assert (LEN : (2 * (wx * nx + wy * ny + wz * nz) * nx - wx) * (2 * (wx * nx + wy * ny + wz * nz) * nx - wx) + (2 * (wx * nx + wy * ny + wz * nz) * ny - wy) * (2 * (wx * nx + wy * ny + wz * nz) * ny - wy) + (2 * (wx * nx + wy * ny + wz * nz) * nz - wz) * (2 * (wx * nx + wy * ny + wz * nz) * nz - wz) = wx * wx + wy * wy + wz * wz).
  { set (c := wx * nx + wy * ny + wz * nz). replace ((2 * c * nx - wx) * (2 * c * nx - wx) + (2 * c * ny - wy) * (2 * c * ny - wy) + (2 * c * nz - wz) * (2 * c * nz - wz)) with (4 * c * c * (nx * nx + ny * ny + nz * nz) - 4 * c * (wx * nx + wy * ny + wz * nz) + (wx * wx + wy * wy + wz * wz)) by ring. rewrite N1. fold c. ring. }
  set (px := 2 * _ * nx - wx) in *. set (py := 2 * _ * ny - wy) in *. set (pz := 2 * _ * nz - wz) in *.
  assert (T : forall a b c e f, Rabs (a - b) <= e -> Rabs (b - c) <= f -> e + f <= 6 / 100000 -> Rabs (a - c) <= 6 / 100000) by (intros a b c e f A B K; replace (a - c) with ((a - b) + (b - c)) by ring; eapply Rle_trans; [apply Rabs_triang|lra]).
  destruct (normal_near v px py pz (6 / 100000) (2 / 100000) VF) as (WF & WL & W1 & W2 & W3); [eapply T; [exact E1|exact M1|lra]|eapply T; [exact E2|exact M2|lra]|eapply T; [exact E3|exact M3|lra]|lra|lra|rewrite LEN; exact LW|].
  split; [exact WF|]. split; [exact WL|]. split; [|split]; (eapply Rle_trans; [eassumption|lra]).
Qed.

Example rough_case : unit_v (at_ 0 0 1) /\ measurable (at_ 1 2 3).
Proof.
  split; [|apply at_measurable; cbn; lia]. destruct (at_val 0 0 1) as (F & X & Y & Z_); [cbn; lia..|]. split; [exact F|]. unfold length2. rewrite X, Y, Z_. replace (0 * 0 + 0 * 0 + 1 * 1 - 1) with 0 by ring. rewrite Rabs_R0. lra.
Qed.
Print Assumptions float_rough_direction.
