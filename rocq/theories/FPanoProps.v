(* Directions of the orthographic and of the panoramic camera in single precision. *)
From Coq Require Import ZArith Reals List Lra Psatz Lia Bool.
From Flocq Require Import Core.Core IEEE754.BinarySingleNaN.
From Verif Require Import Common FltModel FltFacts FltProps FExtFacts FRayModel FSphereProps FBoxMarginProps FMatBoundProps FFilmProps FFresProps FFresNearProps FTexModel FTexProps FSpecNearProps FNearFacts FMatModel FGgxProps FltVecProps FShadeModel FShadeProps FLookModel FLookProps.
Local Open Scope R_scope.

(* ----- orthographic ----- *)

Lemma row_forward : forall a b c, fin a -> fin b -> fin c -> Rabs (val c) <= bpow radix2 127 ->
  let w := fadd (fadd (fmul a fzero) (fmul b fzero)) (fmul c fone) in fin w /\ val w = val c.
Proof.
  intros a b c FA FB FC C. cbv zeta. destruct fzero_val as (FZ & VZ). destruct fone_val as (FO & VO).
  assert (Z : forall x, fin x -> fin (fmul x fzero) /\ val (fmul x fzero) = 0).
  { intros x F. destruct (fmul_val x fzero F FZ) as (A & E); [rewrite VZ, Rmult_0_r, Rabs_R0; apply bpow_ge_0|]. split; [exact A|]. rewrite E, VZ, Rmult_0_r. apply rnd_0. }
  destruct (Z a FA) as (A1 & A2). destruct (Z b FB) as (B1 & B2). destruct (add_zeros _ _ A1 B1 A2 B2) as (S1 & S2).
  destruct (fmul_val c fone FC FO) as (M1 & M2); [rewrite VO, Rmult_1_r; exact C|]. rewrite VO, Rmult_1_r in M2. rewrite (rnd_fits (val c)) in M2 by apply fits_val.
  destruct (fadd_val _ _ S1 M1) as (T1 & T2); [rewrite S2, M2, Rplus_0_l; exact C|]. split; [exact T1|]. rewrite T2, S2, M2, Rplus_0_l. apply rnd_fits, fits_val.
Qed.

(* All rays of an orthographic camera run exactly along its forward axis, which has length 1 up to 3e-5 in
   the square and is the direction towards the target up to 1e-5 in each coordinate. *)
Theorem float_ortho_direction : forall pos eye up, measurable (fv_sub eye pos) -> measurable up -> apart up (fv_sub eye pos) ->
  let m := f_look_at pos eye up in let w := f_ortho_dir m in let d := fv_sub eye pos in let s := sqrt (length2 d) in
  vfin w /\ (val (fx w) = val (fx (axis_forward m)) /\ val (fy w) = val (fy (axis_forward m)) /\ val (fz w) = val (fz (axis_forward m))) /\
  Rabs (length2 w - 1) <= 3 / 100000 /\
  Rabs (val (fx w) - val (fx d) / s) <= 1e-5 /\ Rabs (val (fy w) - val (fy d) / s) <= 1e-5 /\ Rabs (val (fz w) - val (fz d) / s) <= 1e-5.
Proof.
  intros pos eye up MD MU AP. cbv zeta. destruct (float_camera_frame pos eye up MD MU AP) as (LF & NF & FF & _ & _ & LFF & _ & _ & _ & X & Y & Z & _).
  set (m := f_look_at pos eye up) in *. clearbody m. set (s := sqrt _) in *. clearbody s. set (d := fv_sub eye pos) in *. clearbody d.
  assert (W : vfin (f_ortho_dir m) /\ val (fx (f_ortho_dir m)) = val (fx (axis_forward m)) /\ val (fy (f_ortho_dir m)) = val (fy (axis_forward m)) /\ val (fz (f_ortho_dir m)) = val (fz (axis_forward m))).
  { destruct (unit_comp (axis_forward m) FF) as (BX & BY & BZ); [apply abs_both in LFF; lra|]. clear LFF X Y Z.
    assert (UP : forall x, Rabs x <= 1001 / 1000 -> Rabs x <= bpow radix2 127) by (intros x B; apply Rle_trans with (1 := B); apply Rle_trans with (bpow radix2 1); [cbn; lra|apply bpow_le; lia]).
    destruct m as [[a b c p] [e f g q] [h i j r] o]. destruct LF as (LX & LY & LZ). destruct NF as (NX & NY & NZ). destruct FF as (FX & FY & FZ). unfold axis_left, axis_up, axis_forward in *. cbn [m_x m_y m_z q0 q1 q2 fx fy fz] in *.
    destruct (row_forward a b c LX NX FX (UP _ BX)) as (A1 & A2). destruct (row_forward e f g LY NY FY (UP _ BY)) as (B1 & B2). destruct (row_forward h i j LZ NZ FZ (UP _ BZ)) as (C1 & C2).
    split; [split; [exact A1|split; [exact B1|exact C1]]|]. split; [exact A2|split; [exact B2|exact C2]]. }
  destruct W as (WF & WX & WY & WZ). split; [exact WF|]. split; [split; [exact WX|split; [exact WY|exact WZ]]|]. unfold length2 in *. rewrite WX, WY, WZ.
  split; [exact LFF|]. split; [exact X|split; [exact Y|exact Z]].
Qed.

(* ----- panoramic ----- *)

(* the sine and the cosine of one angle, as computed *)
Definition on_circle (s c : f32) : Prop := fin s /\ fin c /\ Rabs (val s * val s + val c * val c - 1) <= / 1000000.

Lemma circle_le : forall s c, on_circle s c -> Rabs (val s) <= 1001 / 1000 /\ Rabs (val c) <= 1001 / 1000.
Proof.
  intros s c (_ & _ & L). apply abs_both in L. split; [apply (comp_le _ (val c) 0)|apply (comp_le _ (val s) 0)]; lra.
Qed.

(* the point of the sphere *)
Lemma sphere_near : forall st ct sp cp, on_circle st ct -> on_circle sp cp ->
  let v := mk_fvec (fmul st cp) ct (fmul st sp) in unit_11 v /\ Rabs (val (fx v) - val st * val cp) <= / 1000000 /\ Rabs (val (fz v) - val st * val sp) <= / 1000000.
Proof.
  intros st ct sp cp T P. cbv zeta. destruct (circle_le _ _ T) as (ST & CT). destruct (circle_le _ _ P) as (SP & CP). destruct T as (FST & FCT & T). destruct P as (FSP & FCP & P).
  destruct (prod_near st cp FST FCP ST CP) as (F1 & E1 & _). destruct (prod_near st sp FST FSP ST SP) as (F2 & E2 & _). cbn [fx fy fz].
  assert (U : 2 * u24 <= / 1000000) by (unfold u24; lra). apply (fun h => Rle_trans _ _ _ h U) in E1. apply (fun h => Rle_trans _ _ _ h U) in E2.
  split; [|split; assumption]. split; [split; [exact F1|split; [exact FCT|exact F2]]|]. unfold length2. cbn [fx fy fz].
  set (a := val (fmul st cp)) in *. set (b := val (fmul st sp)) in *. set (s := val st) in *. set (c := val ct) in *. set (p := val cp) in *. set (q := val sp) in *. clearbody a b s c p q.
  assert (G : Rabs (s * p * (s * p) + c * c + s * q * (s * q) - 1) <= 21 / 10000000).
  { replace (s * p * (s * p) + c * c + s * q * (s * q) - 1) with ((s * s) * (q * q + p * p - 1) + (s * s + c * c - 1)) by ring.
    apply abs_both in T. assert (S2 : 0 <= s * s <= 1001 / 1000) by (pose proof (Rle_0_sqr s); pose proof (Rle_0_sqr c); unfold Rsqr in *; lra).
    assert (M : Rabs (s * s * (q * q + p * p - 1)) <= 1001 / 1000 * / 1000000) by (rewrite Rabs_mult, (Rabs_pos_eq (s * s)) by lra; apply Rmult_le_compat; try apply Rabs_pos; lra).
    apply abs_both in M. apply Rabs_le. lra. }
  apply abs_both in G. assert (Z : Rabs (c - c) <= / 1000000) by (replace (c - c) with 0 by ring; rewrite Rabs_R0; lra).
  pose proof (near_length _ _ _ _ _ _ E1 Z E2 ltac:(lra)) as N. apply abs_both in N. apply Rabs_le. lra.
Qed.

(* normalising a vector of about length 1 moves it little *)
Lemma renormal : forall w, vfin w -> Rabs (length2 w - 1) <= 11 / 100000 ->
  vfin (f_normalize w) /\ Rabs (length2 (f_normalize w) - 1) <= 11 / 1000000 /\
  Rabs (val (fx (f_normalize w)) - val (fx w)) <= 7 / 100000 /\ Rabs (val (fy (f_normalize w)) - val (fy w)) <= 7 / 100000 /\ Rabs (val (fz (f_normalize w)) - val (fz w)) <= 7 / 100000.
Proof.
  intros w F L. assert (Z0 : forall x, Rabs (x - x) <= 0) by (intro x; replace (x - x) with 0 by ring; rewrite Rabs_R0; lra).
  destruct (normal_near w (val (fx w)) (val (fy w)) (val (fz w)) 0 (11 / 100000) F (Z0 _) (Z0 _) (Z0 _)) as (NF & NL & NX & NY & NZ); [lra|lra|exact L|].
  split; [exact NF|]. split; [exact NL|]. split; [|split]; (eapply Rle_trans; [eassumption|lra]).
Qed.

Lemma pano_frame : forall m v a b c, let l := axis_left m in let n := axis_up m in let f := axis_forward m in
  vfin l -> vfin n -> vfin f -> Rabs (length2 l - 1) <= 3 / 100000 -> Rabs (length2 n - 1) <= 3 / 100000 -> Rabs (length2 f - 1) <= 3 / 100000 ->
  Rabs (dotr l n) <= 3 / 100000 -> Rabs (dotr n f) <= 3 / 100000 -> Rabs (dotr l f) <= 3 / 100000 -> unit_11 v ->
  Rabs (val (fx v) - a) <= / 1000000 -> Rabs (val (fy v) - b) <= / 1000000 -> Rabs (val (fz v) - c) <= / 1000000 ->
  let w := f_normalize (f_vec m v) in vfin w /\ Rabs (length2 w - 1) <= 11 / 1000000 /\
  Rabs (dotr w l - a) <= 25 / 100000 /\ Rabs (dotr w n - b) <= 25 / 100000 /\ Rabs (dotr w f - c) <= 25 / 100000.
Proof.
  intros m v ra rb rc. cbv zeta. intros LF NF FF LL LN LFF OLN ONF OLF UV VX VY VZ.
  assert (ID : forall x, Rabs (x - x / 1) <= 1e-5) by (intro x; replace (x - x / 1) with 0 by field; rewrite Rabs_R0; lra).
  destruct (image_frame m v v 1 LF NF FF LL LN LFF OLN ONF OLF UV (ID _) (ID _) (ID _)) as (WF & WL & X & Y & Z). set (w := f_vec m v) in *. clearbody w.
  destruct (renormal w WF WL) as (NFI & NL & NX & NY & NZ). generalize dependent (f_normalize w). intros n NFI NL NX NY NZ.
  split; [exact NFI|]. split; [exact NL|]. clear NL NFI WF WL UV ID OLN ONF OLF LF NF FF.
  assert (G : forall a t r, Rabs (length2 a - 1) <= 3 / 100000 -> Rabs (dotr w a - t / 1) <= 11 / 100000 -> Rabs (t - r) <= / 1000000 -> Rabs (dotr n a - r) <= 25 / 100000).
  { intros a t r L D R. apply abs_both in L. unfold length2 in L. pose proof (small_dot _ _ _ (val (fx a)) (val (fy a)) (val (fz a)) _ NX NY NZ ltac:(lra)) as S. unfold dotr in *.
    set (ax := val (fx a)) in *. set (ay := val (fy a)) in *. set (az := val (fz a)) in *. set (nx := val (fx n)) in *. set (ny := val (fy n)) in *. set (nz := val (fz n)) in *. set (wx := val (fx w)) in *. set (wy := val (fy w)) in *. set (wz := val (fz w)) in *.
    replace (nx * ax + ny * ay + nz * az - r) with (((nx - wx) * ax + (ny - wy) * ay + (nz - wz) * az) + (wx * ax + wy * ay + wz * az - t / 1) + (t - r)) by field.
    eapply Rle_trans; [apply Rabs_triang|]. eapply Rle_trans; [apply Rplus_le_compat_r, Rabs_triang|]. lra. }
  split; [apply (G _ _ _ LL X VX)|]. split; [apply (G _ _ _ LN Y VY)|apply (G _ _ _ LFF Z VZ)].
Qed.

(* Provided the sines and cosines the library returns satisfy s^2 + c^2 = 1 up to 1e-6, the rays of the
   panoramic camera have length 1 up to 1.1e-5 in the square, and their coordinates along the axes of the
   camera are those of the point of the sphere with these angles up to 2.5e-4. *)
Theorem float_pano_direction : forall pos eye up st ct sp cp, measurable (fv_sub eye pos) -> measurable up -> apart up (fv_sub eye pos) ->
  on_circle st ct -> on_circle sp cp ->
  let m := f_look_at pos eye up in let w := f_pano_dir m st ct sp cp in
  vfin w /\ Rabs (length2 w - 1) <= 11 / 1000000 /\
  Rabs (dotr w (axis_left m) - val st * val cp) <= 25 / 100000 /\ Rabs (dotr w (axis_up m) - val ct) <= 25 / 100000 /\ Rabs (dotr w (axis_forward m) - val st * val sp) <= 25 / 100000.
Proof.
  intros pos eye up st ct sp cp MD MU AP T P. cbv zeta. destruct (float_camera_frame pos eye up MD MU AP) as (LF & NF & FF & LL & LN & LFF & OLN & ONF & OLF & _).
  destruct (sphere_near st ct sp cp T P) as (UV & VX & VZ). assert (VY : Rabs (val ct - val ct) <= / 1000000) by (replace (val ct - val ct) with 0 by ring; rewrite Rabs_R0; lra).
  exact (pano_frame _ (mk_fvec (fmul st cp) ct (fmul st sp)) _ _ _ LF NF FF LL LN LFF OLN ONF OLF UV VX VY VZ).
Qed.

(* sine 3/5 and cosine 4/5 as floats, and the two of the angle 0 *)
Example circle_case : on_circle (fdiv (of_Z 3) (of_Z 5)) (fdiv (of_Z 4) (of_Z 5)) /\ on_circle fzero fone.
Proof.
  split.
  - assert (D : forall a, (1 <= a <= 4)%Z -> fin (fdiv (of_Z a) (of_Z 5)) /\ Rabs (val (fdiv (of_Z a) (of_Z 5)) - IZR a / 5) <= 2 * u24).
    { intros a A. destruct (of_Z_exact a) as (FA & VA); [lia|]. destruct (of_Z_exact 5) as (F5 & V5); [lia|].
      assert (B : 0 <= IZR a / 5 <= 1) by (assert (1 <= IZR a <= 4) by (split; apply IZR_le; lia); lra).
      destruct (fdiv_val (of_Z a) (of_Z 5) FA) as (F & V); [rewrite V5; lra|rewrite VA, V5, Rabs_pos_eq by lra; apply Rle_trans with 1; [lra|apply (bpow_le radix2 0 127); lia]|].
      split; [exact F|]. rewrite V, VA, V5. eapply Rle_trans; [apply rerr|]. rewrite Rabs_pos_eq by lra. pose proof h150_u24. unfold u24 in *. lra. }
    destruct (D 3%Z ltac:(lia)) as (F3 & V3). destruct (D 4%Z ltac:(lia)) as (F4 & V4). split; [exact F3|]. split; [exact F4|]. apply abs_both in V3. apply abs_both in V4. unfold u24 in *. set (x := val _) in *. set (y := val (fdiv (of_Z 4) _)) in *. clearbody x y.
    apply Rabs_le. split; nra.
  - destruct fzero_val as (FZ & VZ). destruct fone_val as (FO & VO). split; [exact FZ|]. split; [exact FO|]. rewrite VZ, VO. replace (0 * 0 + 1 * 1 - 1) with 0 by ring. rewrite Rabs_R0. lra.
Qed.
Print Assumptions float_ortho_direction.
Print Assumptions float_pano_direction.
