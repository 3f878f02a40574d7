(* Points sampled on a triangle in single precision are where the exact ones are. *)
From Coq Require Import ZArith Reals List Lra Psatz Lia Bool.
From Flocq Require Import Core.Core IEEE754.BinarySingleNaN.
From Verif Require Import Common FltModel FltFacts FltProps FExtFacts FRayModel FSphereProps FBoxMarginProps FMatBoundProps FFilmProps FFresProps FFresNearProps FTexModel FTexProps FSpecNearProps FNearFacts FMisProps FGgxProps FOrenProps FltVecProps FFaceModel.
Local Open Scope R_scope.

Lemma near_one : near fone 1 1 0.
Proof. destruct fone_val as (F & V). rewrite <- V at 1. apply near_exact; [exact F|rewrite V, Rabs_R1; lra]. Qed.

Lemma weights_near : forall r0 r1, fin r0 -> val r0 <= 1 -> fin r1 -> 0 <= val r1 <= 1 ->
  let s := sqrt (Rmax 0 (val r0)) in let '(u, v, w) := f_face_weights r0 r1 in
  0 <= s <= 1 /\ near u (1 - s) 1 3 /\ near v (val r1 * s) 1 (13 / 4) /\ near w (s - val r1 * s) 1 (37 / 4) /\ 0 <= val u <= 1 /\ 0 <= val v <= 1.
Proof.
  intros r0 r1 F0 L0 F1 R1 s. unfold f_face_weights. cbv zeta. destruct (max_zero r0 F0) as (FM & VM). set (m := fmax fzero r0) in *. clearbody m.
  assert (M : 0 <= Rmax 0 (val r0) <= 1) by (split; [apply Rmax_l|apply Rmax_lub; lra]). destruct (fsqrt_val m FM) as (FS & VS); [lra|]. rewrite VM in VS. fold s in VS.
  assert (S : 0 <= s <= 1) by (apply sqrt_unit; exact M). clearbody s. clear VM M L0. set (q := fsqrt m) in *. clearbody q. clear FM m F0 r0.
  assert (NS : near q s 1 (3 / 2)).
  { apply (near_weaken _ _ 1 (0 + 1 + / 2)); [|lra|lra]. apply (near_round _ s); [exact FS|exact VS| | |lra]; [rewrite Rminus_diag_eq, Rabs_R0 by reflexivity; lra|apply Rabs_le; lra]. }
  assert (QU : 0 <= val q <= 1). { rewrite VS. split; [apply rnd_nonneg; lra|]. rewrite <- rnd_one. apply rnd_le. lra. }
  pose proof (near_exact r1 1 F1 ltac:(apply Rabs_le; lra)) as NR. pose proof near_one as N1. destruct fone_val as (FO & VO).
  assert (SR : 0 <= val r1 * s <= s) by nra.
  assert (NU : near (fsub fone q) (1 - s) 1 3) by (apply (near_weaken _ _ 1 (0 + 3 / 2 + 1 + / 2)); [|lra|lra]; apply (near_sub _ _ _ _ 1 1); try assumption; try lra; apply Rabs_le; lra).
  assert (NV : near (fmul r1 q) (val r1 * s) 1 (13 / 4)) by (apply (near_weaken _ _ 1 (0 * 1 + 3 / 2 * 1 + 1 + 3 / 4)); [|lra|lra]; apply (near_mul _ _ _ _ 1 1); try assumption; try lra; apply Rabs_le; lra).
  assert (NW : near (fsub fone (fsub fone q)) (1 - (1 - s)) 1 (9 / 2)) by (apply (near_weaken _ _ 1 (0 + 3 + 1 + / 2)); [|lra|lra]; apply (near_sub _ _ _ _ 1 1); try assumption; try lra; apply Rabs_le; lra).
  split; [exact S|]. split; [exact NU|]. split; [exact NV|]. split; [|split].
  - replace (s - val r1 * s) with (1 - (1 - s) - val r1 * s) by ring. apply (near_weaken _ _ 1 (9 / 2 + 13 / 4 + 1 + / 2)); [|lra|lra]. apply (near_sub _ _ _ _ 1 1); try assumption; try lra. apply Rabs_le. lra.
  - destruct (fsub_val fone q FO FS) as (_ & V). { rewrite VO. apply one_127. apply Rabs_le. lra. } rewrite V, VO. split; [apply rnd_nonneg; lra|]. apply Rle_trans with (rnd 1); [apply rnd_le; lra|rewrite rnd_one; lra].
  - assert (RQ : 0 <= val r1 * val q <= 1) by (clear - R1 QU; split; [apply Rmult_le_pos; lra|replace 1 with (1 * 1) by ring; apply Rmult_le_compat; lra]).
    destruct (fmul_val r1 q F1 FS) as (_ & V). { apply one_127. apply Rabs_le. lra. } rewrite V. split; [apply rnd_nonneg; lra|]. apply Rle_trans with (rnd 1); [apply rnd_le; lra|rewrite rnd_one; lra].
Qed.

Lemma mix_near : forall M u v w x y z s r, 1 <= M <= 65536 -> 0 <= s <= 1 -> 0 <= r <= 1 ->
  near u (1 - s) 1 3 -> near v (r * s) 1 (13 / 4) -> near w (s - r * s) 1 (37 / 4) ->
  fin x -> fin y -> fin z -> Rabs (val x) <= M -> Rabs (val y) <= M -> Rabs (val z) <= M ->
  near (fadd (fadd (fmul u x) (fmul v y)) (fmul w z)) ((1 - s) * val x + r * s * val y + (s - r * s) * val z) M (24 * M).
Proof.
  intros M u v w x y z s r HM S R NU NV NW FX FY FZ BX BY BZ. assert (SR : 0 <= r * s <= s) by nra.
  pose proof (near_exact x M FX BX) as NX. pose proof (near_exact y M FY BY) as NY. pose proof (near_exact z M FZ BZ) as NZ.
  assert (P : forall k t, 0 <= k <= 1 -> Rabs t <= M -> Rabs (k * t) <= M). { intros k t K T. rewrite Rabs_mult, (Rabs_pos_eq k) by lra. pose proof (Rabs_pos t). nra. }
  assert (PX : near (fmul u x) ((1 - s) * val x) M (3 * M + 0 * 1 + M + 3 / 4)) by (apply (near_mul _ _ _ _ 1 M); try assumption; try lra; apply P; [lra|exact BX]).
  assert (PY : near (fmul v y) (r * s * val y) M (13 / 4 * M + 0 * 1 + M + 3 / 4)) by (apply (near_mul _ _ _ _ 1 M); try assumption; try lra; apply P; [lra|exact BY]).
  assert (PZ : near (fmul w z) ((s - r * s) * val z) M (37 / 4 * M + 0 * 1 + M + 3 / 4)) by (apply (near_mul _ _ _ _ 1 M); try assumption; try lra; apply P; [lra|exact BZ]).
  apply abs_both in BX, BY, BZ. clear NX NY NZ NU NV NW P.
  eapply near_weaken; [eapply near_add; [eapply near_add; [exact PX|exact PY| | | | |]|exact PZ| | | | |]| |]; try lra.
  - apply Rabs_le. instantiate (1 := M). nra.
  - apply Rabs_le. instantiate (1 := M). nra.
  - lra.
  - lra.
  - lra.
  - lra.
Qed.

(* For all triangles with coordinates up to M, where M is between 1 and 65536, and all random numbers
   up to 1: the sampled point is the exact one, (1-s) a + r1 s b + (1-r1) s c with s the root of r0,
   up to 24 M 2^-24 in each coordinate. The exact one lies in the triangle. *)
Theorem float_face_sample : forall M a b c r0 r1, 1 <= M <= 65536 ->
  (forall p, p = a \/ p = b \/ p = c -> vfin p /\ Rabs (val (fx p)) <= M /\ Rabs (val (fy p)) <= M /\ Rabs (val (fz p)) <= M) ->
  fin r0 -> val r0 <= 1 -> fin r1 -> 0 <= val r1 <= 1 ->
  let p := fst (f_face_sample a b c r0 r1) in let s := sqrt (Rmax 0 (val r0)) in let r := val r1 in let e := 24 * M / 16777216 in
  vfin p /\ 0 <= s <= 1 /\
  Rabs (val (fx p) - ((1 - s) * val (fx a) + r * s * val (fx b) + (1 - r) * s * val (fx c))) <= e /\
  Rabs (val (fy p) - ((1 - s) * val (fy a) + r * s * val (fy b) + (1 - r) * s * val (fy c))) <= e /\
  Rabs (val (fz p) - ((1 - s) * val (fz a) + r * s * val (fz b) + (1 - r) * s * val (fz c))) <= e.
Proof.
  intros M a b c r0 r1 HM V F0 L0 F1 R1. cbv zeta. destruct (V a (or_introl eq_refl)) as ((AX & AY & AZ) & AX' & AY' & AZ'). destruct (V b (or_intror (or_introl eq_refl))) as ((BX & BY & BZ) & BX' & BY' & BZ'). destruct (V c (or_intror (or_intror eq_refl))) as ((CX & CY & CZ) & CX' & CY' & CZ'). clear V.
  pose proof (weights_near r0 r1 F0 L0 F1 R1) as W. cbv zeta in W. unfold f_face_sample. destruct (f_face_weights r0 r1) as ((u & v) & w). destruct W as (S & NU & NV & NW & _). cbn [fst fx fy fz].
  set (s := sqrt (Rmax 0 (val r0))) in *. clearbody s. set (r := val r1) in *. clearbody r.
  destruct (mix_near M u v w _ _ _ s r HM S R1 NU NV NW AX BX CX AX' BX' CX') as (FX & EX & _). destruct (mix_near M u v w _ _ _ s r HM S R1 NU NV NW AY BY CY AY' BY' CY') as (FY & EY & _). destruct (mix_near M u v w _ _ _ s r HM S R1 NU NV NW AZ BZ CZ AZ' BZ' CZ') as (FZ & EZ & _).
  replace (s - r * s) with ((1 - r) * s) in * by ring. replace (24 * M / 16777216) with (24 * M * u24) by (unfold u24; field).
  split; [exact (conj FX (conj FY FZ))|]. split; [exact S|]. split; [exact EX|]. split; [exact EY|exact EZ].
Qed.
Print Assumptions float_face_sample.

(* the weights: all at least -10 * 2^-24, together 1 up to 2^-20 *)
Theorem float_face_weights : forall r0 r1, fin r0 -> val r0 <= 1 -> fin r1 -> 0 <= val r1 <= 1 ->
  let '(u, v, w) := f_face_weights r0 r1 in
  fin u /\ fin v /\ fin w /\ 0 <= val u <= 1 /\ 0 <= val v <= 1 /\ - (10 / 16777216) <= val w <= 1 + 10 / 16777216 /\
  Rabs (val u + val v + val w - 1) <= 16 / 16777216.
Proof.
  intros r0 r1 F0 L0 F1 R1. pose proof (weights_near r0 r1 F0 L0 F1 R1) as W. cbv zeta in W. destruct (f_face_weights r0 r1) as ((u & v) & w). destruct W as (S & (FU & EU & _) & (FV & EV & _) & (FW & EW & _) & U & V).
  set (s := sqrt (Rmax 0 (val r0))) in *. clearbody s. assert (SR : 0 <= val r1 * s <= s) by (clear - S R1; nra). apply abs_both in EU, EV, EW. unfold u24 in *.
  repeat (split; [assumption|]). split; [lra|]. apply Rabs_le. lra.
Qed.
Print Assumptions float_face_weights.

(* The weight of the third vertex can be below zero: for all r0 up to 2^-52 and all r1 whose product with the root of r0 does not vanish,
   the first weight is 1 and the third one minus the second. *)
Theorem float_face_weights_refuted : forall r0 r1, fin r0 -> bpow radix2 (-120) <= val r0 <= bpow radix2 (-52) -> fin r1 -> bpow radix2 (-60) <= val r1 <= 1 ->
  let '(u, v, w) := f_face_weights r0 r1 in val u = 1 /\ 0 < val v /\ val w = - val v.
Proof.
  intros r0 r1 F0 R0 F1 R1. unfold f_face_weights. cbv zeta. pose proof (bpow_gt_0 radix2 (-120)) as P120. pose proof (bpow_gt_0 radix2 (-60)) as P60.
  destruct (max_zero r0 F0) as (FM & VM). rewrite Rmax_right in VM by lra. set (m := fmax fzero r0) in *. clearbody m. destruct (fsqrt_val m FM) as (FQ & VQ); [lra|]. rewrite VM in VQ. clear VM FM. set (q := fsqrt m) in *. clearbody q. clear m.
  assert (H2 : forall k : Z, sqrt (bpow radix2 (k + k)) = bpow radix2 k) by (intro k; rewrite bpow_plus; apply sqrt_square, bpow_ge_0).
  assert (Q : bpow radix2 (-60) <= val q <= bpow radix2 (-26)).
  { rewrite VQ. apply rnd_between; [apply fits_bpow; lia|apply fits_bpow; lia|]. rewrite <- (H2 (-60)%Z), <- (H2 (-26)%Z). split; apply sqrt_le_1_alt; [exact (proj1 R0)|exact (proj2 R0)]. }
  destruct fone_val as (FO & VO). assert (B26 : bpow radix2 (-26) = / 67108864) by (cbn; lra).
  destruct (fsub_val fone q FO FQ) as (FU & VU). { rewrite VO. apply one_127. apply Rabs_le. lra. }
  assert (U1 : rnd (1 - val q) = 1).
  { apply (absorb_below 1 (val q) (-1)); [apply (fits_Z 1); cbn; lia|lia|cbn; lra|lra|]. eapply Rle_lt_trans; [exact (proj2 Q)|apply bpow_lt; lia]. }
  rewrite VO, U1 in VU. destruct (fsub_val fone (fsub fone q) FO FU) as (FZ & VZ). { rewrite VU, VO, Rminus_diag_eq, Rabs_R0 by reflexivity. apply bpow_ge_0. }
  rewrite VO, VU, Rminus_diag_eq, rnd_0 in VZ by reflexivity.
  assert (PQ : bpow radix2 (-120) <= val r1 * val q <= 1) by (change (-120)%Z with (-60 + -60)%Z; rewrite bpow_plus; split; [apply Rmult_le_compat; lra|replace 1 with (1 * 1) by ring; apply Rmult_le_compat; lra]).
  destruct (fmul_val r1 q F1 FQ) as (FV & VV). { apply one_127. apply Rabs_le. lra. }
  assert (VP : bpow radix2 (-120) <= val (fmul r1 q) <= 1). { rewrite VV. apply rnd_between; [apply fits_bpow; lia|apply (fits_Z 1); cbn; lia|exact PQ]. }
  set (v := fmul r1 q) in *. clearbody v. destruct (fsub_val (fsub fone (fsub fone q)) v FZ FV) as (FW & VW). { rewrite VZ. apply one_127. apply Rabs_le. lra. }
  rewrite VZ, Rminus_0_l in VW. split; [exact VU|]. split; [lra|]. rewrite VW. apply rnd_fits. apply fits_opp, fits_val.
Qed.
Print Assumptions float_face_weights_refuted.

(* a triangle with corners (0,0,0), (4,0,0), (0,8,1), sampled at r0 = 1/4 and r1 = 1/2: s = 1/2 and the weights are 1/2, 1/4, 1/4 *)
Example face_sample_case :
  let a := mk_fvec fzero fzero fzero in let b := mk_fvec (of_Z 4) fzero fzero in let c := mk_fvec fzero (of_Z 8) fone in
  let p := fst (f_face_sample a b c (fnum 1 (-2)) (fnum 1 (-1))) in
  B2SF (fx p) = B2SF fone /\ B2SF (fy p) = B2SF (of_Z 2) /\ B2SF (fz p) = B2SF (fnum 1 (-2)).
Proof. repeat split; vm_compute; reflexivity. Qed.

(* r0 = 2^-60 and r1 = 1/2 *)
Example face_weights_case :
  let '(u, v, w) := f_face_weights (fnum 1 (-60)) (fnum 1 (-1)) in B2SF u = B2SF fone /\ B2SF v = B2SF (fnum 1 (-31)) /\ B2SF w = B2SF (fnum (-1) (-31)).
Proof. vm_compute. repeat split. Qed.
