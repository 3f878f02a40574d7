(* The density of the directions towards a light in single precision. *)
From Coq Require Import ZArith Reals List Lra Lia Bool.
From Flocq Require Import Core.Core IEEE754.BinarySingleNaN.
From Verif Require Import Common FltModel FltFacts FltProps FExtFacts FRayModel FSphereProps FBoxMarginProps FMatBoundProps FFilmProps FFresProps FFresNearProps FTexModel FTexProps FSpecProps FSpecNearProps FMisProps FNearFacts FGgxProps FLightModel.
Local Open Scope R_scope.

Definition unit_box (v : fvec) : Prop := (fin (fx v) /\ Rabs (val (fx v)) <= 1) /\ (fin (fy v) /\ Rabs (val (fy v)) <= 1) /\ (fin (fz v) /\ Rabs (val (fz v)) <= 1).
Definition place (v : fvec) : Prop := (fin (fx v) /\ Rabs (val (fx v)) <= bpow radix2 29) /\ (fin (fy v) /\ Rabs (val (fy v)) <= bpow radix2 29) /\ (fin (fz v) /\ Rabs (val (fz v)) <= bpow radix2 29).
Definition dot_real (a b : fvec) : R := val (fx a) * val (fx b) + val (fy a) * val (fy b) + val (fz a) * val (fz b).
Definition dist2_real (a b : fvec) : R := (val (fx a) - val (fx b)) ^ 2 + (val (fy a) - val (fy b)) ^ 2 + (val (fz a) - val (fz b)) ^ 2.

Lemma dot_near : forall n w, unit_box n -> unit_box w -> near (fv_dot n (fv_neg w)) (- dot_real n w) 3 12.
Proof.
  intros n w ((FA & A) & (FB & B) & (FC & C)) ((FD & D) & (FE & E) & (FG & G)). unfold fv_dot, fv_neg, dot_real. cbn [fx fy fz].
  assert (T : forall x y, fin x -> fin y -> Rabs (val x) <= 1 -> Rabs (val y) <= 1 -> near (fmul x (fneg y)) (val x * - val y) 1 (7 / 4)).
  { intros x y FX FY X Y. eapply near_weaken; [apply (near_mul x (fneg y) (val x) (- val y) 1 1 0 0 1)| |]; try lra.
    - apply near_exact; assumption.
    - apply near_neg, near_exact; assumption.
    - rewrite Rabs_mult, Rabs_Ropp, <- (Rmult_1_l 1). apply Rmult_le_compat; try apply Rabs_pos; assumption. }
  pose proof (T _ _ FA FD A D) as TX. pose proof (T _ _ FB FE B E) as TY. pose proof (T _ _ FC FG C G) as TZ. clear T.
  assert (LX := proj2 (proj2 TX)). assert (LY := proj2 (proj2 TY)). assert (LZ := proj2 (proj2 TZ)).
  assert (S : near (fadd (fmul (fx n) (fneg (fx w))) (fmul (fy n) (fneg (fy w)))) (val (fx n) * - val (fx w) + val (fy n) * - val (fy w)) 2 6).
  { eapply near_weaken; [apply (near_add _ _ _ _ 1 1 (7 / 4) (7 / 4) 2 TX TY)| |]; try lra. eapply Rle_trans; [apply Rabs_triang|]. lra. }
  assert (LS := proj2 (proj2 S)).
  replace (- (val (fx n) * val (fx w) + val (fy n) * val (fy w) + val (fz n) * val (fz w))) with (val (fx n) * - val (fx w) + val (fy n) * - val (fy w) + val (fz n) * - val (fz w)) by ring.
  eapply near_weaken; [apply (near_add _ _ _ _ 2 1 6 (7 / 4) 3 S TZ)| |]; try lra. eapply Rle_trans; [apply Rabs_triang|]. lra.
Qed.

(* one squared difference *)
Lemma square_near : forall a b, fin a -> fin b -> Rabs (val a) <= bpow radix2 29 -> Rabs (val b) <= bpow radix2 29 -> let D := (val a - val b) ^ 2 in
  fin (fmul (fsub a b) (fsub a b)) /\ Rabs (val (fmul (fsub a b) (fsub a b)) - D) <= 33 / 10 * u24 * D + bpow radix2 (-100) /\ 0 <= D <= bpow radix2 60.
Proof.
  intros a b FA FB A B. cbv zeta. assert (L : Rabs (val a - val b) <= bpow radix2 30). { unfold Rminus. eapply Rle_trans; [apply Rabs_triang|]. rewrite Rabs_Ropp. cbn in *. lra. }
  destruct (fsub_val a b FA FB) as (FS & VS); [apply (small_127 _ 30); [lia|exact L]|]. pose proof (rerr (val a - val b)) as R1. rewrite <- VS in R1.
  assert (S : Rabs (val (fsub a b)) <= bpow radix2 30) by (rewrite VS, <- (rnd_fits (bpow radix2 30)) by (apply fits_bpow; lia); apply rnd_abs_le; exact L).
  set (d := val a - val b) in *. clearbody d. set (s := fsub a b) in *. clearbody s. clear VS.
  assert (Q : 0 <= val s * val s <= bpow radix2 60).
  { replace (val s * val s) with (Rabs (val s) * Rabs (val s)) by (rewrite <- Rabs_mult; apply Rabs_pos_eq, Rle_0_sqr). pose proof (Rabs_pos (val s)). split; [apply Rmult_le_pos; lra|]. change 60%Z with (30 + 30)%Z. rewrite bpow_plus. apply Rmult_le_compat; lra. }
  assert (Q2 : 0 <= d ^ 2 <= bpow radix2 60).
  { replace (d ^ 2) with (Rabs d * Rabs d) by (rewrite <- Rabs_mult, Rabs_pos_eq by apply Rle_0_sqr; ring). pose proof (Rabs_pos d). split; [apply Rmult_le_pos; lra|]. change 60%Z with (30 + 30)%Z. rewrite bpow_plus. apply Rmult_le_compat; lra. }
  destruct (fmul_val s s FS FS) as (FM & VM); [apply (small_127 _ 60); [lia|rewrite Rabs_pos_eq; lra]|]. split; [exact FM|]. split; [|exact Q2]. pose proof (rerr (val s * val s)) as R2. rewrite <- VM, (Rabs_pos_eq (val s * val s)) in R2 by lra.
  set (m := val (fmul s s)) in *. clearbody m. set (x := val s) in *. clearbody x. clear - R1 R2 L S Q Q2 FM.
  assert (H : 0 < h150 /\ h150 * bpow radix2 40 <= bpow radix2 (-110)).
  { unfold h150. split; [cbn; lra|]. first [rewrite <- bpow_plus; apply bpow_le; lia|cbn; lra]. }
  destruct H as (H0 & H1).
  (* the product of the errors *)
  assert (P : Rabs (x * x - d ^ 2) <= 21 / 10 * u24 * d ^ 2 + bpow radix2 (-105)).
  { replace (x * x - d ^ 2) with ((x - d) * (x - d) + 2 * d * (x - d)) by ring. set (e := x - d) in *. assert (E2 : e * e = Rabs e * Rabs e) by (rewrite <- Rabs_mult; symmetry; apply Rabs_pos_eq, Rle_0_sqr).
    eapply Rle_trans; [apply Rabs_triang|]. rewrite (Rabs_pos_eq (e * e)) by apply Rle_0_sqr. rewrite !Rabs_mult, (Rabs_pos_eq 2), E2 by lra. replace (d ^ 2) with (Rabs d * Rabs d) by (rewrite <- Rabs_mult, Rabs_pos_eq by apply Rle_0_sqr; ring).
    set (a := Rabs e) in *. set (b := Rabs d) in *. assert (A0 : 0 <= a) by apply Rabs_pos. assert (B0 : 0 <= b) by apply Rabs_pos. clearbody a b. clear - R1 L H0 H1 A0 B0.
    assert (U : u24 = / 16777216) by (unfold u24; lra). assert (L' : b <= 1073741824) by (cbn in L; lra).
    assert (HB : h150 * b <= h150 * 1073741824) by (apply Rmult_le_compat_l; lra).
    assert (T1 : a * a <= (u24 * b + h150) * (u24 * b + h150)) by (apply Rmult_le_compat; lra).
    assert (T2 : 2 * b * a <= 2 * b * (u24 * b + h150)) by (apply Rmult_le_compat_l; lra).
    assert (BB : 0 <= b * b) by (apply Rmult_le_pos; lra).
    assert (HH : h150 * h150 <= h150) by (rewrite <- (Rmult_1_r h150) at 3; apply Rmult_le_compat_l; [lra|]; unfold h150 in *; cbn; lra).
    assert (G : h150 * 10000000000 <= bpow radix2 (-105)). { apply Rle_trans with (h150 * bpow radix2 40); [apply Rmult_le_compat_l; [lra|cbn; lra]|]. apply Rle_trans with (1 := H1). apply bpow_le; lia. }
    replace ((u24 * b + h150) * (u24 * b + h150)) with (u24 * u24 * (b * b) + 2 * u24 * (h150 * b) + h150 * h150) in T1 by ring.
    replace (2 * b * (u24 * b + h150)) with (2 * u24 * (b * b) + 2 * (h150 * b)) in T2 by ring. rewrite U in *. lra. }
  set (D := d ^ 2) in *. clearbody D. apply abs_both in P. apply abs_both in R2.
  assert (U : u24 = / 16777216) by (unfold u24; lra). assert (G : bpow radix2 (-100) = 32 * bpow radix2 (-105)) by (cbn; lra). assert (K : h150 <= bpow radix2 (-105)) by (unfold h150; first [apply bpow_le; lia|cbn; lra]).
  pose proof (bpow_gt_0 radix2 (-105)). rewrite U in *. apply Rabs_le. lra.
Qed.

Lemma sum_near : forall x y X Y k j, fin x -> fin y -> 0 <= X <= bpow radix2 62 -> 0 <= Y <= bpow radix2 62 -> 0 <= k <= 10 -> 0 <= j <= 100 ->
  Rabs (val x - X) <= k * u24 * X + j * bpow radix2 (-100) -> Rabs (val y - Y) <= k * u24 * Y + j * bpow radix2 (-100) ->
  fin (fadd x y) /\ Rabs (val (fadd x y) - (X + Y)) <= (k + 11 / 10) * u24 * (X + Y) + (3 * j + 1) * bpow radix2 (-100).
Proof.
  intros x y X Y k j FX FY HX HY K J EX EY. apply abs_both in EX. apply abs_both in EY. assert (U : u24 = / 16777216) by (unfold u24; lra). pose proof (bpow_gt_0 radix2 (-100)) as P. assert (P1 : bpow radix2 (-100) <= / 1000000) by (cbn; lra). assert (H : 0 <= h150 <= bpow radix2 (-100) / 2) by (replace (bpow radix2 (-100) / 2) with (bpow radix2 (-101)) by (cbn; lra); unfold h150; split; [apply bpow_ge_0|apply bpow_le; lia]).
  assert (KX : 0 <= k * u24 * X <= 10 * u24 * X) by (split; [apply Rmult_le_pos; [apply Rmult_le_pos|]; lra|apply Rmult_le_compat_r; [lra|apply Rmult_le_compat_r; lra]]).
  assert (KY : 0 <= k * u24 * Y <= 10 * u24 * Y) by (split; [apply Rmult_le_pos; [apply Rmult_le_pos|]; lra|apply Rmult_le_compat_r; [lra|apply Rmult_le_compat_r; lra]]).
  assert (JP : 0 <= j * bpow radix2 (-100) <= 100 * bpow radix2 (-100)) by (split; [apply Rmult_le_pos; lra|apply Rmult_le_compat_r; lra]).
  set (kx := k * u24 * X) in *. set (ky := k * u24 * Y) in *. set (jp := j * bpow radix2 (-100)) in *. set (p := bpow radix2 (-100)) in *.
  assert (S : Rabs (val x + val y) <= 2 * (X + Y) + 2) by (apply Rabs_le; rewrite U in *; lra).
  destruct (fadd_val x y FX FY) as (F & V); [apply (small_127 _ 65); [lia|]; eapply Rle_trans; [exact S|]; cbn in HX, HY |- *; lra|]. split; [exact F|]. rewrite V.
  assert (S1 : Rabs (val x + val y) <= (X + Y) + (10 * u24 * (X + Y)) + 200 * p) by (apply Rabs_le; rewrite U in *; lra).
  pose proof (rerr (val x + val y)) as R1. assert (R2 : u24 * Rabs (val x + val y) <= u24 * ((X + Y) + (10 * u24 * (X + Y)) + 200 * p)) by (apply Rmult_le_compat_l; [lra|exact S1]).
  replace ((k + 11 / 10) * u24 * (X + Y) + (3 * j + 1) * p) with (kx + ky + 11 / 10 * u24 * (X + Y) + 3 * jp + p) by (unfold kx, ky, jp; ring).
  replace (rnd (val x + val y) - (X + Y)) with ((rnd (val x + val y) - (val x + val y)) + ((val x - X) + (val y - Y))) by ring. set (a := Rabs (val x + val y)) in *.
  apply abs_both in R1. set (r := rnd (val x + val y) - (val x + val y)) in *. clearbody r a kx ky.
  apply Rabs_le. rewrite U in *. cbn in HX, HY. lra.
Qed.

(* For points with coordinates up to 2^29 at a distance of 2^-20 or more, an area between 2^-30 and
   2^30 and a cosine c of at least 2^-10 the density is the squared distance over the product of
   cosine and area, up to a part of 2^-18 / c; the density of a sampled direction is the same
   float. *)
Theorem float_light_density : forall o p n wi area, place o -> place p -> unit_box n -> unit_box wi -> fin area -> bpow radix2 (-30) <= val area <= bpow radix2 30 ->
  let c := Rabs (dot_real n wi) in let d2 := dist2_real o p in bpow radix2 (-10) <= c -> bpow radix2 (-40) <= d2 ->
  let pdf := f_light_density o p n wi area in
  fin pdf /\ Rabs (val pdf * (c * val area) - d2) <= d2 * (bpow radix2 (-18) / c) /\
  f_light_sampled o p n wi area = (pdf, fgt (fv_dot n (fv_neg wi)) fzero) /\
  (fgt (fv_dot n (fv_neg wi)) fzero = true <-> dot_real n wi < 0).
Proof.
  intros o p n wi area PO PP UN UW FA A c d2 C D2 pdf. pose proof (dot_near n wi UN UW) as (FD & ED & LD). rewrite Rabs_Ropp in LD. fold c in LD.
  destruct PO as ((FX & X) & (FY & Y) & (FZ & Z)). destruct PP as ((FX' & X') & (FY' & Y') & (FZ' & Z')).
  destruct (square_near _ _ FX FX' X X') as (F1 & E1 & B1). destruct (square_near _ _ FY FY' Y Y') as (F2 & E2 & B2). destruct (square_near _ _ FZ FZ' Z Z') as (F3 & E3 & B3). cbv zeta in *.
  assert (PDF : pdf = f_light_density o p n wi area) by reflexivity. unfold f_light_sampled. cbv zeta. rewrite <- PDF. unfold f_light_density in PDF. cbv zeta in PDF. unfold d2, dist2_real in *. clear d2.
  set (sx := fmul (fsub (fx o) (fx p)) (fsub (fx o) (fx p))) in *. set (sy := fmul (fsub (fy o) (fy p)) (fsub (fy o) (fy p))) in *. set (sz := fmul (fsub (fz o) (fz p)) (fsub (fz o) (fz p))) in *. clearbody sx sy sz.
  set (DX := (val (fx o) - val (fx p)) ^ 2) in *. set (DY := (val (fy o) - val (fy p)) ^ 2) in *. set (DZ := (val (fz o) - val (fz p)) ^ 2) in *. clearbody DX DY DZ. clear FX FY FZ FX' FY' FZ' X Y Z X' Y' Z'.
  assert (B60 : bpow radix2 62 = 4 * bpow radix2 60) by (cbn; lra). pose proof (bpow_gt_0 radix2 60) as P60.
  destruct (sum_near sx sy DX DY (33 / 10) 1 F1 F2) as (F4 & E4); try lra. destruct (sum_near (fadd sx sy) sz (DX + DY) DZ (44 / 10) 4 F4 F3) as (F5 & E5); try lra.
  { pose proof (bpow_gt_0 radix2 (-100)). unfold u24 in *. eapply Rle_trans; [exact E3|]. assert (0 <= DZ) by lra. lra. }
  set (D := DX + DY + DZ) in *. assert (DB : D <= bpow radix2 62) by (unfold D; lra). set (q := fadd (fadd sx sy) sz) in *. clearbody q D. clear E1 E2 E3 E4 F1 F2 F3 F4 B1 B2 B3.
  assert (U : u24 = / 16777216) by (unfold u24; lra).
  pose proof (bpow_gt_0 radix2 (-40)) as P40.
  assert (E6 : Rabs (val q - D) <= 6 * u24 * D).
  { eapply Rle_trans; [exact E5|]. assert (bpow radix2 (-100) * 13 <= / 10 * u24 * D); [|rewrite U in *; lra]. apply Rle_trans with (/ 10 * u24 * bpow radix2 (-40)); [rewrite U; cbn; lra|apply Rmult_le_compat_l; [rewrite U; lra|exact D2]]. } clear E5.
  destruct (abs_val _ FD) as (FG & VG). set (dot := fv_dot n (fv_neg wi)) in *. set (g := fabs dot) in *.
  assert (EG : Rabs (val g - c) <= 12 * u24). { rewrite VG. unfold c. rewrite <- (Rabs_Ropp (dot_real n wi)). eapply Rle_trans; [apply Rabs_triang_inv2|]. exact ED. }
  assert (C10 : bpow radix2 (-10) = / 1024) by (cbn; lra). rewrite C10 in C. apply abs_both in EG. apply abs_both in E6.
  assert (IFF : fgt dot fzero = true <-> dot_real n wi < 0).
  { destruct fzero_val as (F0 & V0). unfold fgt. fold (flt fzero dot). rewrite (flt_val _ _ F0 FD), V0. apply abs_both in ED. unfold c in C. clear - ED C U. rewrite U in *. split; intro H.
    - destruct (Rle_or_lt 0 (dot_real n wi)) as [L|L]; [rewrite (Rabs_pos_eq _ L) in C; lra|exact L].
    - rewrite (Rabs_left _ H) in C. lra. }
  clearbody dot. clear ED. set (cc := c) in *. clearbody cc. assert (GB : / 2048 <= val g <= 4) by (rewrite U in *; lra). clear VG. clearbody g.
  assert (P30 : 0 < bpow radix2 (-30)) by apply bpow_gt_0.
  assert (GA : bpow radix2 (-41) <= val g * val area <= bpow radix2 32).
  { split; [replace (bpow radix2 (-41)) with (/ 2048 * bpow radix2 (-30)) by (cbn; lra)|replace (bpow radix2 32) with (4 * bpow radix2 30) by (cbn; lra)]; apply Rmult_le_compat; lra. }
  pose proof (bpow_gt_0 radix2 (-41)) as P41. destruct (fmul_val g area FG FA) as (FM & VM); [apply (small_127 _ 32); [lia|rewrite Rabs_pos_eq; lra]|].
  assert (MB : bpow radix2 (-41) <= val (fmul g area) <= bpow radix2 32) by (rewrite VM; apply rnd_between; [apply fits_bpow; lia|apply fits_bpow; lia|exact GA]).
  destruct (rel_error (val g * val area)) as (e1 & H1 & V1); [rewrite Rabs_pos_eq by lra; apply Rle_trans with (bpow radix2 (-41)); [apply bpow_le; lia|lra]|]. rewrite V1 in VM. set (m := fmul g area) in *. clearbody m.
  assert (QB : D / 2 <= val q <= 2 * D) by (rewrite U in *; lra).
  assert (IM : bpow radix2 (-32) <= / val m <= bpow radix2 41) by (split; [change (-32)%Z with (- (32))%Z; rewrite bpow_opp; apply Rinv_le_contravar; lra|change 41%Z with (- -41)%Z; rewrite bpow_opp; apply Rinv_le_contravar; lra]).
  pose proof (bpow_gt_0 radix2 (-32)) as P32.
  assert (QM : bpow radix2 (-73) <= val q / val m <= bpow radix2 104).
  { unfold Rdiv. split; [replace (bpow radix2 (-73)) with (bpow radix2 (-41) * bpow radix2 (-32)) by (rewrite <- bpow_plus; reflexivity)|replace (bpow radix2 104) with (bpow radix2 63 * bpow radix2 41) by (rewrite <- bpow_plus; reflexivity)]; apply Rmult_le_compat; try lra.
    - apply Rle_trans with (D / 2); [|lra]. replace (bpow radix2 (-41)) with (bpow radix2 (-40) / 2) by (cbn; lra). lra.
    - apply Rle_trans with (2 * D); [lra|]. replace (bpow radix2 63) with (2 * bpow radix2 62) by (cbn; lra). lra. }
  pose proof (bpow_gt_0 radix2 (-73)) as P73.
  destruct (fdiv_val q m F5) as (FV & VV); [lra|apply (small_127 _ 104); [lia|rewrite Rabs_pos_eq; lra]|].
  destruct (rel_error (val q / val m)) as (e2 & H2 & V2); [rewrite Rabs_pos_eq by lra; apply Rle_trans with (bpow radix2 (-73)); [apply bpow_le; lia|lra]|]. rewrite V2 in VV. rewrite <- PDF in FV, VV. clearbody pdf.
  split; [exact FV|]. split; [|split; [destruct pdf; try discriminate; reflexivity|exact IFF]].
  rewrite VV, VM. apply abs_both in H1. apply abs_both in H2.
  assert (N1 : 1 + e1 <> 0) by (rewrite U in *; lra). assert (NG : val g <> 0) by lra. assert (NA : val area <> 0) by lra. assert (NC : cc <> 0) by lra.
  replace (val q / (val g * val area * (1 + e1)) * (1 + e2) * (cc * val area)) with (val q * (1 + e2) * (cc / val g) / (1 + e1)) by (field; tauto).
  clear - E6 EG H1 H2 C GB U QB D2 P40 LD. set (Q := val q) in *. set (G := val g) in *. clearbody Q G.
  (* the ratio of the cosines *)
  assert (IC : 0 < / cc) by (apply Rinv_0_lt_compat; lra). assert (IG : 0 < / G) by (apply Rinv_0_lt_compat; lra).
  assert (RC : Rabs (cc / G - 1) <= 121 / 10 * u24 / cc).
  { replace (cc / G - 1) with ((cc - G) / G) by (field; lra). unfold Rdiv. rewrite Rabs_mult, (Rabs_pos_eq (/ G)) by lra.
    assert (W : / G <= 1005 / 1000 * / cc). { replace (1005 / 1000 * / cc) with (/ (1000 / 1005 * cc)) by (field; lra). apply Rinv_le_contravar; [lra|]. rewrite U in *. lra. }
    apply Rle_trans with (12 * u24 * (1005 / 1000 * / cc)); [apply Rmult_le_compat; [apply Rabs_pos|lra|apply Rabs_le; lra|exact W]|]. assert (0 <= u24 * / cc) by (apply Rmult_le_pos; [rewrite U; lra|lra]). lra. }
  set (i := / cc) in *. assert (I : / 3 <= i <= 1024) by (unfold i; split; [apply Rinv_le_contravar; lra|replace 1024 with (/ / 1024) by field; apply Rinv_le_contravar; lra]).
  unfold Rdiv in RC at 2. fold i in RC. unfold Rdiv at 3. fold i. set (t := cc / G) in *. clearbody t i. clear IG GB EG.
  assert (J1 : Rabs (/ (1 + e1) - 1) <= 11 / 10 * u24).
  { replace (/ (1 + e1) - 1) with (- e1 * / (1 + e1)) by (field; rewrite U in *; lra). rewrite Rabs_mult, Rabs_Ropp. assert (W : Rabs (/ (1 + e1)) <= 1005 / 1000).
    { rewrite Rabs_pos_eq by (left; apply Rinv_0_lt_compat; rewrite U in *; lra). replace (1005 / 1000) with (/ (1000 / 1005)) by field. apply Rinv_le_contravar; rewrite U in *; lra. }
    apply Rle_trans with (1001 / 1000 * u24 * (1005 / 1000)); [apply Rmult_le_compat; try apply Rabs_pos; [apply Rabs_le; lra|exact W]|rewrite U; lra]. }
  unfold Rdiv at 1. set (w := / (1 + e1)) in *. clearbody w. apply abs_both in J1. apply abs_both in RC.
  assert (K1 : 0 <= i * u24 <= / 10000) by (rewrite U; lra).
  assert (Z1 : Rabs ((1 + e2) * w - 1) <= 22 / 10 * u24).
  { replace ((1 + e2) * w - 1) with (e2 + (w - 1) + e2 * (w - 1)) by ring. assert (T : Rabs (e2 * (w - 1)) <= / 100 * u24).
    { rewrite Rabs_mult. apply Rle_trans with ((1001 / 1000 * u24) * (11 / 10 * u24)); [apply Rmult_le_compat; try apply Rabs_pos; apply Rabs_le; lra|rewrite U; lra]. }
    apply abs_both in T. apply Rabs_le. lra. }
  assert (Z2 : Rabs (((1 + e2) * w) * t - 1) <= 20 * (i * u24)).
  { set (v := (1 + e2) * w) in *. clearbody v. replace (v * t - 1) with ((v - 1) + (t - 1) + (v - 1) * (t - 1)) by ring. assert (T : Rabs ((v - 1) * (t - 1)) <= / 100 * (i * u24)).
    { rewrite Rabs_mult. apply Rle_trans with ((22 / 10 * u24) * (121 / 10 * u24 * i)); [apply Rmult_le_compat; try apply Rabs_pos; [exact Z1|apply Rabs_le; lra]|]. rewrite U. lra. }
    apply abs_both in T. apply abs_both in Z1. apply Rabs_le. assert (u24 <= 3 * (i * u24)) by (rewrite U; lra). lra. }
  replace (Q * (1 + e2) * t * w) with (Q * ((1 + e2) * w * t)) by ring. set (z := (1 + e2) * w * t) in *. clearbody z. clear Z1.
  replace (Q * z - D) with ((Q - D) + Q * (z - 1)) by ring. eapply Rle_trans; [apply Rabs_triang|]. rewrite Rabs_mult, (Rabs_pos_eq Q) by lra.
  assert (Y1 : Q * Rabs (z - 1) <= (101 / 100 * D) * (20 * (i * u24))) by (apply Rmult_le_compat; [lra|apply Rabs_pos|rewrite U in *; lra|exact Z2]).
  assert (Y2 : Rabs (Q - D) <= 6 * u24 * D) by (apply Rabs_le; lra).
  assert (Y3 : u24 * D <= 3 * (i * u24) * D) by (apply Rmult_le_compat_r; [lra|rewrite U; lra]).
  assert (Y4 : 0 <= i * u24 * D) by (apply Rmult_le_pos; lra).
  replace (bpow radix2 (-18)) with (64 * u24) by (rewrite U; cbn; lra).
  replace (D * (64 * u24 * i)) with (64 * (i * u24 * D)) by ring. replace (101 / 100 * D * (20 * (i * u24))) with (202 / 10 * (i * u24 * D)) in Y1 by field. replace (6 * u24 * D) with (6 * (u24 * D)) in Y2 by ring. replace (3 * (i * u24) * D) with (3 * (i * u24 * D)) in Y3 by ring. lra.
Qed.
Print Assumptions float_light_density.

(* a light of area 2 seen from distance 5 at a cosine of 0.8: the exact density is 25 / 1.6 = 15.625 *)
Example light_density_case :
  let o := mk_fvec fzero fzero fzero in let p := mk_fvec (of_Z 3) (of_Z 4) fzero in let n := mk_fvec fzero (of_Z (-1)) fzero in let wi := mk_fvec (fnum 10066330 (-24)) (fnum 13421773 (-24)) fzero in
  B2SF (f_light_density o p n wi (of_Z 2)) = SpecFloat.S754_finite false 16384000 (-20) /\ snd (f_light_sampled o p n wi (of_Z 2)) = true.
Proof. split; vm_compute; reflexivity. Qed.

Lemma mul_zero : forall x y : f32, fin x -> fin y -> val x * val y = 0 -> exists s, fmul x y = B754_zero s.
Proof.
  intros x y FX FY Z. destruct (fmul_val x y FX FY) as (F & V); [rewrite Z, Rabs_R0; apply bpow_ge_0|]. rewrite Z, rnd_0 in V. apply zero_form; assumption.
Qed.

(* Whatever the floats are, the density of a sampled direction is never infinite and comes with
   emission only on the side of the normal; if the light is seen exactly along its surface, in the
   sense that no coordinate contributes to the cosine, the density is infinite and the sample is
   discarded: density 0 and no emission. *)
Theorem float_light_along :
  (forall o p n wi area, (forall s, fst (f_light_sampled o p n wi area) <> B754_infinity s) /\
     (snd (f_light_sampled o p n wi area) = true -> fgt (fv_dot n (fv_neg wi)) fzero = true)) /\
  (forall o p n wi area, place o -> place p -> unit_box n -> unit_box wi -> fin area -> 0 < val area <= bpow radix2 30 -> bpow radix2 (-40) <= dist2_real o p ->
     val (fx n) * val (fx wi) = 0 -> val (fy n) * val (fy wi) = 0 -> val (fz n) * val (fz wi) = 0 ->
     f_light_density o p n wi area = B754_infinity false /\ f_light_sampled o p n wi area = (fzero, false)).
Proof.
  split.
  - intros o p n wi area. unfold f_light_sampled. cbv zeta. set (q := f_light_density o p n wi area). clearbody q. destruct fzero_val as (F0 & _).
    destruct q as [t|t| |t m e h]; cbn [fst snd]; (split; [intros s E; try discriminate E; rewrite E in F0; discriminate F0|intro H; try discriminate H; exact H]).
  - intros o p n wi area ((FX & X) & (FY & Y) & (FZ & Z)) ((FX' & X') & (FY' & Y') & (FZ' & Z')) ((FA & _) & (FB & _) & (FC & _)) ((FD & _) & (FE & _) & (FG & _)) FR A D2 ZX ZY ZZ.
    assert (Q : f_light_density o p n wi area = B754_infinity false); [|split; [exact Q|unfold f_light_sampled; cbv zeta; rewrite Q; reflexivity]].
    destruct (square_near _ _ FX FX' X X') as (F1 & E1 & B1). destruct (square_near _ _ FY FY' Y Y') as (F2 & E2 & B2). destruct (square_near _ _ FZ FZ' Z Z') as (F3 & E3 & B3). cbv zeta in *. unfold f_light_density. cbv zeta. unfold dist2_real in D2.
    set (sx := fmul (fsub (fx o) (fx p)) (fsub (fx o) (fx p))) in *. set (sy := fmul (fsub (fy o) (fy p)) (fsub (fy o) (fy p))) in *. set (sz := fmul (fsub (fz o) (fz p)) (fsub (fz o) (fz p))) in *. clearbody sx sy sz.
    set (DX := (val (fx o) - val (fx p)) ^ 2) in *. set (DY := (val (fy o) - val (fy p)) ^ 2) in *. set (DZ := (val (fz o) - val (fz p)) ^ 2) in *. clearbody DX DY DZ.
    assert (B60 : bpow radix2 62 = 4 * bpow radix2 60) by (cbn; lra). pose proof (bpow_gt_0 radix2 60) as P60. pose proof (bpow_gt_0 radix2 (-100)) as P100. pose proof (bpow_gt_0 radix2 (-40)) as P40.
    destruct (sum_near sx sy DX DY (33 / 10) 1 F1 F2) as (F4 & E4); try lra. destruct (sum_near (fadd sx sy) sz (DX + DY) DZ (44 / 10) 4 F4 F3) as (F5 & E5); try lra.
    { unfold u24 in *. eapply Rle_trans; [exact E3|]. lra. }
    set (q := fadd (fadd sx sy) sz) in *. clearbody q. assert (P : 0 < val q). { apply abs_both in E5. assert (13 * bpow radix2 (-100) <= bpow radix2 (-40) / 2) by (cbn; lra). unfold u24 in E5. lra. }
    assert (NG : forall x, fin x -> fin (fneg x) /\ val (fneg x) = - val x) by (intros x F; apply neg_val; exact F).
    assert (MZ : forall x y, fin x -> fin y -> val x * val y = 0 -> exists s, fmul x (fneg y) = B754_zero s).
    { intros x y GX GY G. destruct (NG y GY) as (GN & VN). apply mul_zero; [exact GX|exact GN|]. rewrite VN. lra. }
    destruct (MZ _ _ FA FD ZX) as (s1 & M1). destruct (MZ _ _ FB FE ZY) as (s2 & M2). destruct (MZ _ _ FC FG ZZ) as (s3 & M3).
    assert (DT : fabs (fv_dot n (fv_neg wi)) = B754_zero false). { unfold fv_dot, fv_neg. cbn [fx fy fz]. rewrite M1, M2, M3. destruct s1, s2, s3; reflexivity. } rewrite DT.
    assert (AR : fmul (B754_zero false) area = B754_zero false). { pose proof (sign_pos area FR ltac:(lra)) as S. destruct area as [s|s| |s m e h]; try discriminate; [cbn in A; lra|]. cbn in S. subst s. reflexivity. } rewrite AR.
    pose proof (sign_pos q F5 P) as S. destruct q as [s|s| |s m e h]; try discriminate; [cbn in P; lra|]. cbn in S. subst s. reflexivity.
Qed.
Print Assumptions float_light_along.

(* from a point in the plane of the light *)
Example light_along_case :
  let o := mk_fvec fzero fzero fzero in let p := mk_fvec (of_Z 3) (of_Z 4) fzero in let n := mk_fvec fzero fzero fone in let wi := mk_fvec (fnum 10066330 (-24)) (fnum 13421773 (-24)) fzero in
  B2SF (f_light_density o p n wi (of_Z 2)) = SpecFloat.S754_infinity false /\ snd (f_light_sampled o p n wi (of_Z 2)) = false.
Proof. split; vm_compute; reflexivity. Qed.
