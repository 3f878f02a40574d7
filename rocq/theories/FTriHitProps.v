(* Triangles in single precision: hits lie on the triangle, rays through it hit, rays past it miss. *)
From Coq Require Import ZArith Reals List Lra Lia Bool.
From Flocq Require Import Core.Core IEEE754.BinarySingleNaN.
From Verif Require Import Common FltModel FltFacts FltProps FExtFacts FRayModel FRayFacts FSphereProps FBoxMarginProps FMatModel FMatProps FMatBoundProps FFilmProps FQuadProps FQuadRootProps FSphereHitProps RVecModel FTriProps.
Import ListNotations.
Local Open Scope R_scope.

(* ----- specification ----- *)

(* the point of the line at t is a + u (b - a) + v (c - a) *)
Definition meets (a b c o d : rv) (t u v : R) : Prop :=
  radd o (rscale t d) = radd a (radd (rscale u (rsub b a)) (rscale v (rsub c a))).

(* the volume spanned by the direction of the ray and the edges, and what it would be at most *)
Definition volume (a b c d : rv) : R := rdot (rcross d (rsub c a)) (rsub b a).
Definition box_volume (a b c d : rv) : R := n1 d * n1 (rsub c a) * n1 (rsub b a).

(* finite coordinates, the triangle neither a sliver nor seen from the side, all within 2^18 *)
Definition regular (a b c : fvec) (r : fray) : Prop :=
  finite_vec a /\ finite_vec b /\ finite_vec c /\ finite_vec (fr_o r) /\ finite_vec (fr_d r) /\
  n1 (rsub (exact b) (exact a)) <= bpow radix2 18 /\ n1 (rsub (exact c) (exact a)) <= bpow radix2 18 /\
  n1 (rsub (exact (fr_o r)) (exact a)) <= bpow radix2 18 /\ n1 (exact (fr_d r)) <= bpow radix2 18 /\
  bpow radix2 (-60) <= Rabs (volume (exact a) (exact b) (exact c) (exact (fr_d r))) /\
  box_volume (exact a) (exact b) (exact c) (exact (fr_d r)) <= bpow radix2 18 * Rabs (volume (exact a) (exact b) (exact c) (exact (fr_d r))).

(* how far u and v, and the distance, may be off, in units of the volume *)
Definition bary_slack (a b c o d : rv) : R :=
  14 * u24 * (2 * box_volume a b c d + n1 d * n1 (rsub o a) * (n1 (rsub b a) + n1 (rsub c a))).
Definition dist_slack (a b c o d : rv) (t : R) : R :=
  14 * u24 * ((1 + Rabs t) * box_volume a b c d + n1 (rsub b a) * n1 (rsub c a) * n1 (rsub o a)).

(* ----- the exact solution ----- *)

Lemma rv_ext : forall a b, rx a = rx b -> ry a = ry b -> rz a = rz b -> a = b.
Proof. intros [x y z] [x' y' z']; cbn; intros -> -> ->; reflexivity. Qed.

Lemma meets_products : forall a b c o d t u v, meets a b c o d t u v ->
  rdot (rcross d (rsub c a)) (rsub o a) = u * volume a b c d /\
  rdot (rcross (rsub o a) (rsub b a)) d = v * volume a b c d /\
  rdot (rcross (rsub o a) (rsub b a)) (rsub c a) = t * volume a b c d.
Proof.
  intros [ax ay az] [bx by_ bz] [cx cy cz] [ox oy oz] [dx dy dz] t u v M. unfold meets in M; unfold radd, rscale, rsub in M; cbn in M. injection M as MX MY MZ.
  unfold volume, rdot, rcross, rsub; cbn.
  assert (EX : ox = ax + (u * (bx - ax) + v * (cx - ax)) - t * dx) by lra.
  assert (EY : oy = ay + (u * (by_ - ay) + v * (cy - ay)) - t * dy) by lra.
  assert (EZ : oz = az + (u * (bz - az) + v * (cz - az)) - t * dz) by lra.
  subst ox oy oz. repeat split; ring.
Qed.

Lemma meets_exists : forall a b c o d, volume a b c d <> 0 -> exists t u v, meets a b c o d t u v.
Proof.
  intros a b c o d N. exists (rdot (rcross (rsub o a) (rsub b a)) (rsub c a) / volume a b c d).
  exists (rdot (rcross d (rsub c a)) (rsub o a) / volume a b c d). exists (rdot (rcross (rsub o a) (rsub b a)) d / volume a b c d).
  unfold meets. apply rv_ext; unfold volume, radd, rscale, rdot, rcross, rsub in *; cbn in *; field; exact N.
Qed.

(* ----- the reciprocal and the products with it ----- *)

Lemma volume_box : forall a b c d, Rabs (volume a b c d) <= box_volume a b c d.
Proof. intros. apply triple_bound. Qed.

Lemma quotient : forall (det n : f32) D N W M, fin det -> fin n -> bpow radix2 (-60) <= Rabs D -> Rabs D <= W -> W <= bpow radix2 18 * Rabs D -> W <= bpow radix2 54 -> 0 <= M <= bpow radix2 54 ->
  Rabs N <= M ->
  Rabs (val det - D) <= 83 / 10 * u24 * W + bpow radix2 (-120) -> Rabs (val n - N) <= 83 / 10 * u24 * M + bpow radix2 (-120) ->
  let q := fmul n (fdiv fone det) in
  val det <> 0 /\ fin q /\ Rabs (val q) <= bpow radix2 117 /\ Rabs (val q * D - N) <= 105 / 10 * u24 * (Rabs (val q) * W + M + W).
Proof.
  intros det n D N W M FD FN LD DW WD BW BM NM ED EN q.
  assert (T1 : bpow radix2 (-120) <= / 1000 * u24 * bpow radix2 (-60)).
  { rewrite <- u24_bpow. apply Rle_trans with (bpow radix2 (-10) * bpow radix2 (-24) * bpow radix2 (-60)); [rewrite <- !bpow_plus; apply bpow_le; lia|].
    apply Rmult_le_compat_r; [apply bpow_ge_0|]. apply Rmult_le_compat_r; [apply bpow_ge_0|]. change (bpow radix2 (-10)) with (/ 1024). lra. }
  assert (PW : bpow radix2 (-60) <= W) by lra.
  assert (TW : bpow radix2 (-120) <= / 1000 * u24 * W) by (eapply Rle_trans; [exact T1|]; apply Rmult_le_compat_l; [unfold u24; lra|exact PW]).
  assert (P60 : 0 < bpow radix2 (-60)) by apply bpow_gt_0.
  assert (UW : u24 * W <= / 64 * Rabs D).
  { apply Rle_trans with (u24 * (bpow radix2 18 * Rabs D)); [apply Rmult_le_compat_l; [unfold u24; lra|exact WD]|].
    rewrite <- Rmult_assoc, <- u24_bpow, pow_mult. change (bpow radix2 (-24 + 18)) with (/ 64). lra. }
  assert (DD : Rabs (val det - D) <= / 7 * Rabs D).
  { eapply Rle_trans; [exact ED|]. replace (83 / 10 * u24 * W) with (83 / 10 * (u24 * W)) by ring. replace (/ 1000 * u24 * W) with (/ 1000 * (u24 * W)) in TW by ring. lra. }
  assert (L1 : 6 / 7 * Rabs D <= Rabs (val det)).
  { pose proof (Rabs_triang_inv D (D - val det)) as T. replace (D - (D - val det)) with (val det) in T by ring. rewrite (Rabs_minus_sym D) in T. lra. }
  assert (L2 : Rabs (val det) <= 8 / 7 * Rabs D).
  { pose proof (Rabs_triang D (val det - D)) as T. replace (D + (val det - D)) with (val det) in T by ring. lra. }
  assert (PD : 0 < Rabs (val det)) by lra.
  assert (ND : val det <> 0) by (intro E; rewrite E, Rabs_R0 in PD; lra).
  split; [exact ND|].
  destruct fone_val as (F1 & V1).
  assert (I1 : Rabs (val fone / val det) = / Rabs (val det)) by (rewrite V1; unfold Rdiv; rewrite Rmult_1_l, Rabs_inv; reflexivity).
  assert (I2 : / Rabs (val det) <= bpow radix2 61).
  { rewrite <- (Rinv_inv (bpow radix2 61)), <- bpow_opp. apply Rinv_le; [apply bpow_gt_0|].
    apply Rle_trans with (6 / 7 * Rabs D); [|exact L1]. assert (EE : bpow radix2 (-60) = 2 * bpow radix2 (-(61))) by (change 2 with (bpow radix2 1); rewrite pow_mult; reflexivity). lra. }
  assert (I3 : bpow radix2 (-56) <= / Rabs (val det)).
  { change (-56)%Z with (- (56))%Z. rewrite (bpow_opp radix2 56). apply Rinv_le; [exact PD|]. assert (EE : bpow radix2 56 = 4 * bpow radix2 54) by (change 4 with (bpow radix2 2); rewrite pow_mult; reflexivity). lra. }
  destruct (fdiv_val fone det F1 ND) as (FI & VI); [rewrite I1; eapply Rle_trans; [exact I2|apply bpow_le; lia]|].
  destruct (rel_rnd (val fone / val det)) as (e1 & E1 & R1); [rewrite I1; eapply Rle_trans; [|exact I3]; apply bpow_le; lia|].
  rewrite R1, V1 in VI. clear R1.
  assert (NB : Rabs (val n) <= bpow radix2 55).
  { pose proof (Rabs_triang N (val n - N)) as T. replace (N + (val n - N)) with (val n) in T by ring.
    assert (EE : bpow radix2 55 = 2 * bpow radix2 54) by (change 2 with (bpow radix2 1); rewrite pow_mult; reflexivity).
    assert (1 <= bpow radix2 54) by (change 1 with (bpow radix2 0); apply bpow_le; lia).
    assert (bpow radix2 (-120) <= / 2) by (change (/ 2) with (bpow radix2 (-1)); apply bpow_le; lia). unfold u24 in *. lra. }
  assert (IB : Rabs (val (fdiv fone det)) <= bpow radix2 62).
  { rewrite VI, Rabs_mult. unfold Rdiv. rewrite Rmult_1_l, Rabs_inv. replace (bpow radix2 62) with (bpow radix2 61 * 2) by (change 2 with (bpow radix2 1); rewrite pow_mult; reflexivity).
    apply Rmult_le_compat; [left; apply Rinv_0_lt_compat; exact PD|apply Rabs_pos|exact I2|].
    eapply Rle_trans; [apply Rabs_triang|]. rewrite Rabs_R1. unfold u24 in E1. lra. }
  destruct (fmul_val n (fdiv fone det) FN FI) as (FQ & VQ); [apply (small_127 _ (55 + 62)); [lia|apply abs_prod; assumption]|].
  split; [exact FQ|]. unfold q. clear q. split; [rewrite VQ; apply rnd_abs; [lia|apply (abs_prod _ _ 55 62); assumption]|].
  pose proof (rerr (val n * val (fdiv fone det))) as RQ. rewrite <- VQ in RQ. set (qv := val (fmul n (fdiv fone det))) in *. clearbody qv. clear VQ.
  (* q det against n *)
  assert (QD : Rabs (qv * val det - val n) <= 21 / 10 * u24 * Rabs (val n) + h150 * Rabs (val det)).
  { rewrite VI in RQ.
    replace (qv * val det - val n) with ((qv - val n * (1 / val det * (1 + e1))) * val det + val n * e1) by (field; exact ND).
    eapply Rle_trans; [apply Rabs_triang|]. rewrite !Rabs_mult.
    assert (S1 : Rabs (val n) * Rabs e1 <= 1001 / 1000 * u24 * Rabs (val n)) by (rewrite Rmult_comm; apply Rmult_le_compat_r; [apply Rabs_pos|exact E1]).
    assert (S2 : Rabs (qv - val n * (1 / val det * (1 + e1))) * Rabs (val det) <= (u24 * Rabs (val n * (1 / val det * (1 + e1))) + h150) * Rabs (val det)) by (apply Rmult_le_compat_r; [lra|exact RQ]).
    assert (S3 : Rabs (val n * (1 / val det * (1 + e1))) * Rabs (val det) <= 1001 / 1000 * Rabs (val n)).
    { rewrite <- Rabs_mult. replace (val n * (1 / val det * (1 + e1)) * val det) with (val n * (1 + e1)) by (field; exact ND).
      rewrite Rabs_mult, Rmult_comm. apply Rmult_le_compat_r; [apply Rabs_pos|]. eapply Rle_trans; [apply Rabs_triang|]. rewrite Rabs_R1. unfold u24 in E1. lra. }
    replace ((u24 * Rabs (val n * (1 / val det * (1 + e1))) + h150) * Rabs (val det)) with (u24 * (Rabs (val n * (1 / val det * (1 + e1))) * Rabs (val det)) + h150 * Rabs (val det)) in S2 by ring.
    apply (Rmult_le_compat_l u24) in S3; [|unfold u24; lra].
    pose proof (Rabs_pos (val n)) as PN. set (g := Rabs (val n)) in *. set (g1 := Rabs (qv - val n * (1 / val det * (1 + e1))) * Rabs (val det)) in *.
    set (g2 := Rabs (val n * (1 / val det * (1 + e1))) * Rabs (val det)) in *. set (g3 := h150 * Rabs (val det)) in *. set (g4 := g * Rabs e1) in *. clearbody g g1 g2 g3 g4.
    clear - S1 S2 S3 PN. unfold u24 in *. lra. }
  assert (HD : h150 * Rabs (val det) <= / 100 * u24 * W).
  { assert (H150 : h150 <= / 200 * u24).
    { unfold h150. rewrite <- u24_bpow. apply Rle_trans with (bpow radix2 (-10) * bpow radix2 (-24)); [rewrite pow_mult; apply bpow_le; lia|].
      apply Rmult_le_compat_r; [apply bpow_ge_0|]. change (bpow radix2 (-10)) with (/ 1024). lra. }
    apply Rle_trans with (/ 200 * u24 * (2 * W)); [|lra]. apply Rmult_le_compat; [apply bpow_ge_0|lra|exact H150|lra]. }
  assert (QE : Rabs (qv * (val det - D)) <= Rabs qv * (831 / 100 * u24 * W)).
  { rewrite Rabs_mult. apply Rmult_le_compat_l; [apply Rabs_pos|]. assert (0 <= u24 * W) by (apply Rmult_le_pos; [unfold u24; lra|lra]). lra. }
  assert (NN : Rabs (val n) <= M + (83 / 10 * u24 * M + bpow radix2 (-120))).
  { pose proof (Rabs_triang N (val n - N)) as T. replace (N + (val n - N)) with (val n) in T by ring. lra. }
  replace (qv * D - N) with ((qv * val det - val n) + ((val n - N) + - (qv * (val det - D)))) by ring.
  eapply Rle_trans; [apply Rabs_triang|]. pose proof (Rabs_triang (val n - N) (- (qv * (val det - D)))) as T. rewrite Rabs_Ropp in T.
  replace (Rabs qv * (831 / 100 * u24 * W)) with (831 / 100 * u24 * (Rabs qv * W)) in QE by ring.
  assert (PQ : 0 <= Rabs qv * W) by (apply Rmult_le_pos; [apply Rabs_pos|lra]).
  assert (PM : 0 <= M) by lra. assert (PW0 : 0 <= W) by lra.
  clear - QD HD QE NN T TW EN PQ PM PW0.
  set (g1 := Rabs (qv * val det - val n)) in *. set (g2 := Rabs (val n)) in *. set (g3 := h150 * Rabs (val det)) in *. set (g4 := Rabs (qv * (val det - D))) in *.
  set (g5 := Rabs (val n - N + - (qv * (val det - D)))) in *. set (g6 := Rabs (val n - N)) in *. set (g7 := Rabs qv * W) in *. set (g8 := bpow radix2 (-120)) in *.
  clearbody g1 g2 g3 g4 g5 g6 g7 g8. unfold u24 in *. lra.
Qed.

(* ----- what the code computes ----- *)

Definition t_pv (a c : fvec) (r : fray) : fvec := fv_cross (fr_d r) (fv_sub c a).
Definition t_qv (a b : fvec) (r : fray) : fvec := fv_cross (fv_sub (fr_o r) a) (fv_sub b a).
Definition t_det (a b c : fvec) (r : fray) : f32 := fv_dot (t_pv a c r) (fv_sub b a).
Definition t_u (a b c : fvec) (r : fray) : f32 := fmul (fv_dot (t_pv a c r) (fv_sub (fr_o r) a)) (fdiv fone (t_det a b c r)).
Definition t_v (a b c : fvec) (r : fray) : f32 := fmul (fv_dot (fr_d r) (t_qv a b r)) (fdiv fone (t_det a b c r)).
Definition t_t (a b c : fvec) (r : fray) : f32 := fmul (fv_dot (fv_sub c a) (t_qv a b r)) (fdiv fone (t_det a b c r)).

Lemma triangle_unfold : forall a b c r distance, f_triangle a b c r distance =
  if Beqb (t_det a b c r) fzero then None else
  if flt (t_u a b c r) fzero || fgt (t_u a b c r) fone then None else
  if flt (t_v a b c r) fzero || fgt (fadd (t_u a b c r) (t_v a b c r)) fone then None else
  if flt (t_t a b c r) f_self || fgt (t_t a b c r) distance then None else Some (t_t a b c r, t_u a b c r, t_v a b c r).
Proof. intros. unfold f_triangle, t_t, t_u, t_v, t_det, t_pv, t_qv. cbv zeta. reflexivity. Qed.

Lemma triangle_values : forall a b c r t u v, regular a b c r ->
  meets (exact a) (exact b) (exact c) (exact (fr_o r)) (exact (fr_d r)) t u v ->
  let V := volume (exact a) (exact b) (exact c) (exact (fr_d r)) in let W := box_volume (exact a) (exact b) (exact c) (exact (fr_d r)) in
  let nB := n1 (rsub (exact b) (exact a)) in let nC := n1 (rsub (exact c) (exact a)) in let nT := n1 (rsub (exact (fr_o r)) (exact a)) in let nD := n1 (exact (fr_d r)) in
  val (t_det a b c r) <> 0 /\ fin (t_det a b c r) /\ fin (t_u a b c r) /\ fin (t_v a b c r) /\ fin (t_t a b c r) /\ Rabs (val (t_v a b c r)) <= bpow radix2 117 /\
  Rabs (val (t_u a b c r) * V - u * V) <= 105 / 10 * u24 * (Rabs (val (t_u a b c r)) * W + nD * nC * nT + W) /\
  Rabs (val (t_v a b c r) * V - v * V) <= 105 / 10 * u24 * (Rabs (val (t_v a b c r)) * W + nD * nB * nT + W) /\
  Rabs (val (t_t a b c r) * V - t * V) <= 105 / 10 * u24 * (Rabs (val (t_t a b c r)) * W + nB * nC * nT + W).
Proof.
  intros a b c r t u v (FA & FB & FC & FO & FD & BB & BC & BT & BD & LV & WV) M V W nB nC nT nD.
  assert (P18 : bpow radix2 18 <= bpow radix2 127) by (apply bpow_le; lia).
  destruct (vsub_close b a FB FA (Rle_trans _ _ _ BB P18)) as (GB & CB). destruct (vsub_close c a FC FA (Rle_trans _ _ _ BC P18)) as (GC & CC).
  destruct (vsub_close (fr_o r) a FO FA (Rle_trans _ _ _ BT P18)) as (GT & CT). pose proof (close_refl (exact (fr_d r))) as CD.
  destruct (meets_products _ _ _ _ _ _ _ _ M) as (NU & NV & NT).
  destruct (triple_close _ _ _ _ _ _ FD GC GB CD CC CB BD BC BB) as (F1 & _ & E1 & _).
  destruct (triple_close _ _ _ _ _ _ FD GC GT CD CC CT BD BC BT) as (F2 & _ & E2 & _).
  destruct (triple_close _ _ _ _ _ _ GT GB FD CT CB CD BT BB BD) as (_ & F3 & _ & E3).
  destruct (triple_close _ _ _ _ _ _ GT GB GC CT CB CC BT BB BC) as (_ & F4 & _ & E4).
  assert (P54 : forall x y z, n1 x <= bpow radix2 18 -> n1 y <= bpow radix2 18 -> n1 z <= bpow radix2 18 -> 0 <= n1 x * n1 y * n1 z <= bpow radix2 54).
  { intros x y z X Y Z. split; [apply Rmult_le_pos; [apply Rmult_le_pos|]; apply n1_pos|].
    replace (bpow radix2 54) with (bpow radix2 18 * bpow radix2 18 * bpow radix2 18) by (rewrite !pow_mult; reflexivity). apply mul_le3; try apply n1_pos; assumption. }
  assert (BW : W <= bpow radix2 54) by (apply P54; assumption).
  pose proof (volume_box (exact a) (exact b) (exact c) (exact (fr_d r))) as VB.
  destruct (quotient _ _ _ _ _ _ F1 F2 LV VB WV BW (P54 _ _ _ BD BC BT) (triple_bound _ _ _) E1 E2) as (ND & FU & _ & QU).
  destruct (quotient _ _ _ _ _ _ F1 F3 LV VB WV BW (P54 _ _ _ BT BB BD) (triple_bound _ _ _) E1 E3) as (_ & FV & LVV & QV).
  destruct (quotient _ _ _ _ _ _ F1 F4 LV VB WV BW (P54 _ _ _ BT BB BC) (triple_bound _ _ _) E1 E4) as (_ & FT & _ & QT).
  rewrite NU in QU. rewrite NV in QV. rewrite NT in QT.
  split; [exact ND|]. split; [exact F1|]. split; [exact FU|]. split; [exact FV|]. split; [exact FT|]. split; [exact LVV|]. split; [exact QU|].
  split; [replace (nD * nB * nT) with (nT * nB * nD) by ring; exact QV|replace (nB * nC * nT) with (nT * nB * nC) by ring; exact QT].
Qed.

(* ----- hits ----- *)

Lemma det_checked : forall x, fin x -> val x <> 0 -> Beqb x fzero = false.
Proof.
  intros x F N. destruct fzero_val as (F0 & V0). pose proof (Beqb_correct 24 128 x fzero F F0) as E. rewrite E. apply Req_bool_false. fold (val x) (val fzero). rewrite V0. exact N.
Qed.

Lemma self_fin : fin f_self.
Proof. vm_compute; reflexivity. Qed.

Lemma hit_checks : forall a b c r distance t u v, f_triangle a b c r distance = Some (t, u, v) ->
  fin (t_u a b c r) -> fin (t_v a b c r) -> fin (t_t a b c r) ->
  t = t_t a b c r /\ u = t_u a b c r /\ v = t_v a b c r /\ 0 <= val u <= 1 /\ 0 <= val v /\ fgt (fadd u v) fone = false /\
  val f_self <= val t /\ (fin distance -> val t <= val distance).
Proof.
  intros a b c r distance t u v H FU FV FT. rewrite triangle_unfold in H. destruct fzero_val as (F0 & V0). destruct fone_val as (F1 & V1).
  destruct (Beqb _ _); [discriminate|].
  destruct (flt (t_u a b c r) fzero) eqn:E1; [discriminate|]. destruct (fgt (t_u a b c r) fone) eqn:E2; [discriminate|].
  destruct (flt (t_v a b c r) fzero) eqn:E3; [discriminate|]. destruct (fgt (fadd (t_u a b c r) (t_v a b c r)) fone) eqn:E4; [discriminate|].
  destruct (flt (t_t a b c r) f_self) eqn:E5; [discriminate|]. destruct (fgt (t_t a b c r) distance) eqn:E6; [discriminate|].
  cbn [orb] in H. injection H as <- <- <-.
  assert (K : forall x y, fin x -> fin y -> flt x y = false -> val y <= val x) by (intros x y X Y L; apply Rnot_lt_le; intro Q; apply (flt_val _ _ X Y) in Q; congruence).
  split; [reflexivity|]. split; [reflexivity|]. split; [reflexivity|].
  pose proof (K _ _ FU F0 E1) as L1. pose proof (K fone (t_u a b c r) F1 FU E2) as L2. pose proof (K _ _ FV F0 E3) as L3. rewrite V0 in L1, L3. rewrite V1 in L2.
  split; [lra|]. split; [exact L3|]. split; [exact E4|]. split; [apply (K _ _ FT self_fin E5)|]. intro FD. apply (K distance (t_t a b c r) FD FT E6).
Qed.

Lemma sum_at_most : forall u v, fin u -> fin v -> 0 <= val u <= 1 -> 0 <= val v -> Rabs (val v) <= bpow radix2 117 -> fgt (fadd u v) fone = false -> val u + val v <= 1 + 2 * u24.
Proof.
  intros u v FU FV (U0 & U1) V0 BV H. destruct fone_val as (F1 & V1). apply Rnot_lt_le. intro G.
  assert (B : fits (1 + 2 * u24)).
  { replace (1 + 2 * u24) with (IZR 8388609 * bpow radix2 (-23)) by (change (bpow radix2 (-23)) with (/ 8388608); unfold u24; lra).
    apply generic_format_FLT. exists (Float radix2 8388609 (-23)); [reflexivity|cbn; lia|cbn; lia]. }
  destruct (fadd_val u v FU FV) as (FA & VA).
  { apply (small_127 _ (117 + 1)); [lia|]. apply sum_bound; [|exact BV]. rewrite Rabs_pos_eq by lra. apply Rle_trans with 1; [lra|]. change 1 with (bpow radix2 0). apply bpow_le; lia. }
  assert (L : val fone < val (fadd u v)).
  { rewrite V1, VA. apply Rlt_le_trans with (1 + 2 * u24); [unfold u24; lra|]. rewrite <- (rnd_fits _ B). apply rnd_le. lra. }
  apply (flt_val _ _ F1 FA) in L. unfold fgt, flt in *. congruence.
Qed.

Lemma volume_nonzero : forall a b c r, regular a b c r -> 0 < Rabs (volume (exact a) (exact b) (exact c) (exact (fr_d r))).
Proof. intros a b c r (_ & _ & _ & _ & _ & _ & _ & _ & _ & L & _). pose proof (bpow_gt_0 radix2 (-60)). lra. Qed.

Lemma n1_scale : forall k a, n1 (rscale k a) = Rabs k * n1 a.
Proof. intros. unfold n1, rscale; cbn. rewrite !Rabs_mult. ring. Qed.

(* C354: what is reported as hit is a point of the ray and, up to rounding, a point of the triangle *)
Theorem float_triangle_on : forall a b c r distance t u v, regular a b c r -> f_triangle a b c r distance = Some (t, u, v) ->
  let A := exact a in let B := exact b in let C := exact c in let O := exact (fr_o r) in let D := exact (fr_d r) in
  fin t /\ fin u /\ fin v /\ 0 <= val u /\ 0 <= val v /\ val u + val v <= 1 + 2 * u24 /\ val f_self <= val t /\ (fin distance -> val t <= val distance) /\
  Rabs (volume A B C D) * n1 (rsub (radd O (rscale (val t) D)) (radd A (radd (rscale (val u) (rsub B A)) (rscale (val v) (rsub C A))))) <=
    32 * u24 * box_volume A B C D * ((1 + val t) * n1 D + n1 (rsub O A) + n1 (rsub B A) + n1 (rsub C A)).
Proof.
  intros a b c r distance t' u' v' REG H A B C O D. pose proof (volume_nonzero _ _ _ _ REG) as PV.
  destruct (meets_exists A B C O D) as (t & u & v & M); [intro E; unfold A, B, C, D in E; rewrite E, Rabs_R0 in PV; lra|].
  destruct (triangle_values a b c r t u v REG M) as (_ & _ & FU & FV & FT & LV & QU & QV & QT).
  destruct (hit_checks _ _ _ _ _ _ _ _ H FU FV FT) as (-> & -> & -> & U01 & V0 & SUM & T0 & TD).
  pose proof (sum_at_most _ _ FU FV U01 V0 LV SUM) as UV.
  split; [exact FT|]. split; [exact FU|]. split; [exact FV|]. split; [lra|]. split; [exact V0|]. split; [exact UV|]. split; [exact T0|]. split; [exact TD|].
  assert (TP : 0 <= val (t_t a b c r)).
  { assert (E : val f_self = IZR 10737418 * bpow radix2 (-30)) by (apply lit_val; vm_compute; reflexivity). pose proof (bpow_gt_0 radix2 (-30)). lra. }
  fold A B C D O in QU, QV, QT, PV.
  set (t' := val (t_t a b c r)) in *. set (u' := val (t_u a b c r)) in *. set (v' := val (t_v a b c r)) in *. clearbody t' u' v'.
  replace (rsub (radd O (rscale t' D)) (radd A (radd (rscale u' (rsub B A)) (rscale v' (rsub C A))))) with
    (radd (rscale (t' - t) D) (radd (rscale (u - u') (rsub B A)) (rscale (v - v') (rsub C A)))).
  2: { unfold meets in M. assert (MX := f_equal rx M). assert (MY := f_equal ry M). assert (MZ := f_equal rz M). unfold radd, rscale, rsub in *; cbn in *. f_equal; lra. }
  set (W := box_volume A B C D) in *. set (V := volume A B C D) in *.
  set (nB := n1 (rsub B A)) in *. set (nC := n1 (rsub C A)) in *. set (nT := n1 (rsub O A)) in *. set (nD := n1 D) in *.
  assert (PB : 0 <= nB) by apply n1_pos. assert (PC : 0 <= nC) by apply n1_pos. assert (PT : 0 <= nT) by apply n1_pos. assert (PD : 0 <= nD) by apply n1_pos.
  assert (EW : W = nD * nC * nB) by reflexivity. clearbody W.
  apply Rle_trans with (Rabs V * (Rabs (t' - t) * nD + (Rabs (u - u') * nB + Rabs (v - v') * nC))).
  { apply Rmult_le_compat_l; [apply Rabs_pos|]. eapply Rle_trans; [apply n1_add|]. rewrite n1_scale. apply Rplus_le_compat_l.
    eapply Rle_trans; [apply n1_add|]. rewrite !n1_scale. apply Rle_refl. }
  clearbody nB nC nT nD V. rewrite (Rabs_minus_sym u), (Rabs_minus_sym v).
  rewrite <- Rmult_minus_distr_r, Rabs_mult in QU, QV, QT. rewrite (Rabs_pos_eq u') in QU by lra. rewrite (Rabs_pos_eq v') in QV by lra. rewrite (Rabs_pos_eq t') in QT by lra.
  assert (PW : 0 <= W) by (rewrite EW; apply Rmult_le_pos; [apply Rmult_le_pos|]; assumption).
  apply (Rmult_le_compat_r nB) in QU; [|exact PB]. apply (Rmult_le_compat_r nC) in QV; [|exact PC]. apply (Rmult_le_compat_r nD) in QT; [|exact PD].
  replace (Rabs V * (Rabs (t' - t) * nD + (Rabs (u' - u) * nB + Rabs (v' - v) * nC))) with
    (Rabs (t' - t) * Rabs V * nD + (Rabs (u' - u) * Rabs V * nB + Rabs (v' - v) * Rabs V * nC)) by ring.
  set (x1 := Rabs (t' - t) * Rabs V * nD) in *. set (x2 := Rabs (u' - u) * Rabs V * nB) in *. set (x3 := Rabs (v' - v) * Rabs V * nC) in *. clearbody x1 x2 x3.
  replace (105 / 10 * u24 * (u' * W + nD * nC * nT + W) * nB) with (105 / 10 * u24 * (u' * (W * nB) + W * nT + W * nB)) in QU by (rewrite EW; ring).
  replace (105 / 10 * u24 * (v' * W + nD * nB * nT + W) * nC) with (105 / 10 * u24 * (v' * (W * nC) + W * nT + W * nC)) in QV by (rewrite EW; ring).
  replace (105 / 10 * u24 * (t' * W + nB * nC * nT + W) * nD) with (105 / 10 * u24 * (t' * (W * nD) + W * nT + W * nD)) in QT by (rewrite EW; ring).
  replace (32 * u24 * W * ((1 + t') * nD + nT + nB + nC)) with (32 * u24 * (W * nD + t' * (W * nD) + W * nT + W * nB + W * nC)) by ring.
  assert (UB : u' * (W * nB) <= W * nB) by (rewrite <- (Rmult_1_l (W * nB)) at 2; apply Rmult_le_compat_r; [apply Rmult_le_pos; assumption|lra]).
  assert (VC : v' * (W * nC) <= 2 * (W * nC)) by (apply Rmult_le_compat_r; [apply Rmult_le_pos; assumption|unfold u24 in UV; lra]).
  assert (PWB : 0 <= W * nB) by (apply Rmult_le_pos; assumption). assert (PWC : 0 <= W * nC) by (apply Rmult_le_pos; assumption).
  assert (PWT : 0 <= W * nT) by (apply Rmult_le_pos; assumption). assert (PWD : 0 <= W * nD) by (apply Rmult_le_pos; assumption).
  assert (PTD : 0 <= t' * (W * nD)) by (apply Rmult_le_pos; assumption).
  set (y1 := W * nB) in *. set (y2 := W * nC) in *. set (y3 := W * nT) in *. set (y4 := W * nD) in *. set (y5 := t' * y4) in *. set (y6 := u' * y1) in *. set (y7 := v' * y2) in *.
  clearbody y1 y2 y3 y4 y5 y6 y7. clear - QU QV QT UB VC PWB PWC PWT PWD PTD. unfold u24 in *. lra.
Qed.
Print Assumptions float_triangle_on.

(* ----- rays through the triangle, rays past it ----- *)

(* an error relative to the computed value is also one relative to the exact value *)
Lemma exact_slack : forall q' q V W M, 0 <= M -> 0 <= W -> W <= bpow radix2 18 * Rabs V ->
  Rabs (q' * V - q * V) <= 105 / 10 * u24 * (Rabs q' * W + M + W) -> Rabs (q' - q) * Rabs V <= 14 * u24 * (Rabs q * W + M + W).
Proof.
  intros q' q V W M PM PW WV H. rewrite <- Rmult_minus_distr_r, Rabs_mult in H.
  assert (T : Rabs q' * W <= Rabs q * W + Rabs (q' - q) * W).
  { rewrite <- Rmult_plus_distr_r. apply Rmult_le_compat_r; [exact PW|]. replace q' with (q + (q' - q)) at 1 by ring. apply Rabs_triang. }
  assert (S : u24 * (Rabs (q' - q) * W) <= / 64 * (Rabs (q' - q) * Rabs V)).
  { replace (/ 64 * (Rabs (q' - q) * Rabs V)) with (u24 * (Rabs (q' - q) * (bpow radix2 18 * Rabs V))).
    - apply Rmult_le_compat_l; [unfold u24; lra|]. apply Rmult_le_compat_l; [apply Rabs_pos|exact WV].
    - change (bpow radix2 18) with 262144. unfold u24. field. }
  assert (P1 : 0 <= Rabs q * W) by (apply Rmult_le_pos; [apply Rabs_pos|exact PW]).
  assert (P2 : 0 <= Rabs (q' - q) * Rabs V) by (apply Rmult_le_pos; apply Rabs_pos).
  set (x := Rabs (q' - q) * Rabs V) in *. set (y := Rabs (q' - q) * W) in *. set (z := Rabs q * W) in *. set (w := Rabs q' * W) in *.
  clearbody x y z w. clear - H T S P1 P2 PM PW. unfold u24 in *. lra.
Qed.

Lemma triangle_near : forall a b c r t u v, regular a b c r ->
  let A := exact a in let B := exact b in let C := exact c in let O := exact (fr_o r) in let D := exact (fr_d r) in
  meets A B C O D t u v ->
  (Rabs (val (t_u a b c r)) <= 1 \/ Rabs u <= 1 -> Rabs (val (t_u a b c r) - u) * Rabs (volume A B C D) <= bary_slack A B C O D) /\
  (Rabs (val (t_v a b c r)) <= 1 + 2 * u24 \/ Rabs v <= 1 -> Rabs (val (t_v a b c r) - v) * Rabs (volume A B C D) <= bary_slack A B C O D) /\
  Rabs (val (t_t a b c r) - t) * Rabs (volume A B C D) <= dist_slack A B C O D t.
Proof.
  intros a b c r t u v REG A B C O D M. destruct (triangle_values a b c r t u v REG M) as (_ & _ & _ & _ & _ & _ & QU & QV & QT).
  destruct REG as (_ & _ & _ & _ & _ & _ & _ & _ & _ & _ & WV). fold A B C O D in QU, QV, QT, WV.
  unfold bary_slack, dist_slack.
  assert (PW : 0 <= box_volume A B C D) by (unfold box_volume; apply Rmult_le_pos; [apply Rmult_le_pos|]; apply n1_pos).
  set (W := box_volume A B C D) in *. set (V := volume A B C D) in *.
  set (nB := n1 (rsub B A)) in *. set (nC := n1 (rsub C A)) in *. set (nT := n1 (rsub O A)) in *. set (nD := n1 D) in *.
  assert (PB : 0 <= nB) by apply n1_pos. assert (PC : 0 <= nC) by apply n1_pos. assert (PT : 0 <= nT) by apply n1_pos. assert (PD : 0 <= nD) by apply n1_pos.
  assert (P1 : 0 <= nD * nC * nT) by (apply Rmult_le_pos; [apply Rmult_le_pos|]; assumption).
  assert (P2 : 0 <= nD * nB * nT) by (apply Rmult_le_pos; [apply Rmult_le_pos|]; assumption).
  assert (P3 : 0 <= nB * nC * nT) by (apply Rmult_le_pos; [apply Rmult_le_pos|]; assumption).
  replace (nD * nT * (nB + nC)) with (nD * nC * nT + nD * nB * nT) by ring.
  assert (K : forall q' q N s, 0 <= N -> 0 <= s -> N <= s -> Rabs (q' * V - q * V) <= 105 / 10 * u24 * (Rabs q' * W + N + W) -> Rabs q' <= 1 + 2 * u24 \/ Rabs q <= 1 ->
    Rabs (q' - q) * Rabs V <= 14 * u24 * (2 * W + s)).
  { intros q' q N s PN PS NS Q [L|L].
    - rewrite <- Rmult_minus_distr_r, Rabs_mult in Q.
      assert (X : Rabs q' * W <= (1 + 2 * u24) * W) by (apply Rmult_le_compat_r; assumption). set (g := Rabs (q' - q) * Rabs V) in *. set (h := Rabs q' * W) in *. clearbody g h.
      clear - Q X PN PS NS PW. unfold u24 in *. lra.
    - pose proof (exact_slack _ _ _ _ _ PN PW WV Q) as S.
      assert (X : Rabs q * W <= 1 * W) by (apply Rmult_le_compat_r; assumption). set (g := Rabs (q' - q) * Rabs V) in *. set (h := Rabs q * W) in *. clearbody g h.
      clear - S X PN PS NS PW. unfold u24 in *. lra. }
  split; [intro L; apply (K _ _ (nD * nC * nT)); [exact P1|lra|lra|exact QU|destruct L as [L|L]; [left; unfold u24; lra|right; exact L]]|].
  split; [intro L; apply (K _ _ (nD * nB * nT)); [exact P2|lra|lra|exact QV|exact L]|].
  pose proof (exact_slack _ _ _ _ _ P3 PW WV QT) as S. eapply Rle_trans; [exact S|]. apply Rmult_le_compat_l; [unfold u24; lra|]. lra.
Qed.

(* C355: a ray that passes through the inside of a triangle, by more than the rounding, hits it *)
Theorem float_triangle_hit : forall a b c r distance t u v, regular a b c r ->
  let A := exact a in let B := exact b in let C := exact c in let O := exact (fr_o r) in let D := exact (fr_d r) in
  meets A B C O D t u v ->
  let V := Rabs (volume A B C D) in let s := bary_slack A B C O D in let e := dist_slack A B C O D t in
  s <= u * V -> s <= v * V -> (u + v) * V + 2 * s <= V -> val f_self * V + e <= t * V ->
  (fin distance /\ t * V + e <= val distance * V \/ distance = B754_infinity false) ->
  exists t' u' v', f_triangle a b c r distance = Some (t', u', v') /\
    Rabs (val u' - u) * V <= s /\ Rabs (val v' - v) * V <= s /\ Rabs (val t' - t) * V <= e.
Proof.
  intros a b c r distance t u v REG A B C O D M V s e HU HV HUV HT HD.
  pose proof (volume_nonzero _ _ _ _ REG) as PV. fold A B C D V in PV.
  assert (PS : 0 <= s).
  { unfold s, bary_slack. apply Rmult_le_pos; [unfold u24; lra|]. apply Rplus_le_le_0_compat.
    - apply Rmult_le_pos; [lra|]. unfold box_volume. apply Rmult_le_pos; [apply Rmult_le_pos|]; apply n1_pos.
    - apply Rmult_le_pos; [apply Rmult_le_pos; apply n1_pos|]. apply Rplus_le_le_0_compat; apply n1_pos. }
  assert (U0 : 0 <= u) by (apply (Rmult_le_reg_r V); [exact PV|]; lra).
  assert (V0 : 0 <= v) by (apply (Rmult_le_reg_r V); [exact PV|]; lra).
  assert (UV1 : u + v <= 1) by (apply (Rmult_le_reg_r V); [exact PV|]; lra).
  destruct (triangle_values a b c r t u v REG M) as (ND & FD & FU & FV & FT & LV & _).
  destruct (triangle_near a b c r t u v REG M) as (NU & NV & NT). fold A B C O D V s e in NU, NV, NT.
  assert (EU : Rabs (val (t_u a b c r) - u) * V <= s) by (apply NU; right; rewrite Rabs_pos_eq; lra).
  assert (EV : Rabs (val (t_v a b c r) - v) * V <= s) by (apply NV; right; rewrite Rabs_pos_eq; lra).
  assert (K : forall x y m, Rabs (x - y) * V <= m -> y * V - m <= x * V <= y * V + m).
  { intros x y m X. rewrite <- (Rabs_pos_eq V) in X by lra. rewrite <- Rabs_mult in X. apply Rabs_le_inv in X. lra. }
  pose proof (K _ _ _ EU) as KU. pose proof (K _ _ _ EV) as KV. pose proof (K _ _ _ NT) as KT.
  assert (L1 : 0 <= val (t_u a b c r)) by (apply (Rmult_le_reg_r V); [exact PV|]; lra).
  assert (L2 : 0 <= val (t_v a b c r)) by (apply (Rmult_le_reg_r V); [exact PV|]; lra).
  assert (L3 : val (t_u a b c r) + val (t_v a b c r) <= 1) by (apply (Rmult_le_reg_r V); [exact PV|]; lra).
  assert (L4 : val f_self <= val (t_t a b c r)) by (apply (Rmult_le_reg_r V); [exact PV|]; lra).
  destruct fzero_val as (F0 & Z0). destruct fone_val as (F1 & Z1).
  destruct (fadd_val _ _ FU FV) as (FS & VS).
  { rewrite Rabs_pos_eq by lra. apply Rle_trans with 1; [exact L3|]. change 1 with (bpow radix2 0). apply bpow_le; lia. }
  assert (X1 : rnd 1 = 1) by (apply rnd_fits, (fits_Z 1); cbn; lia).
  assert (L5 : val (fadd (t_u a b c r) (t_v a b c r)) <= 1) by (rewrite VS, <- X1; apply rnd_le; exact L3).
  assert (Q : forall x y, fin x -> fin y -> val y <= val x -> flt x y = false).
  { intros x y X Y L. destruct (flt x y) eqn:E; [|reflexivity]. apply (flt_val _ _ X Y) in E. lra. }
  assert (G : fgt (t_t a b c r) distance = false).
  { destruct HD as [(FDI & HD)| -> ].
    - apply (Q distance (t_t a b c r) FDI FT). apply (Rmult_le_reg_r V); [exact PV|]; lra.
    - unfold fgt. generalize (t_t a b c r) FT. intros [ | | | ] Y; try reflexivity; discriminate. }
  exists (t_t a b c r), (t_u a b c r), (t_v a b c r). split; [|auto].
  rewrite triangle_unfold, (det_checked _ FD ND), G.
  rewrite (Q _ _ FU F0) by (rewrite Z0; exact L1). rewrite (Q _ _ FV F0) by (rewrite Z0; exact L2). rewrite (Q _ _ FT self_fin L4).
  unfold fgt. fold (flt fone (t_u a b c r)) (flt fone (fadd (t_u a b c r) (t_v a b c r))).
  rewrite (Q fone (t_u a b c r) F1 FU) by (rewrite Z1; lra). rewrite (Q fone _ F1 FS) by (rewrite Z1; exact L5). reflexivity.
Qed.
Print Assumptions float_triangle_hit.

(* C356: a ray that passes the triangle, or reaches it before or after what is asked, by more than
   the rounding does not hit it *)
Theorem float_triangle_miss : forall a b c r distance t u v, regular a b c r ->
  let A := exact a in let B := exact b in let C := exact c in let O := exact (fr_o r) in let D := exact (fr_d r) in
  meets A B C O D t u v ->
  let V := Rabs (volume A B C D) in let s := bary_slack A B C O D in let e := dist_slack A B C O D t in
  u * V < - s \/ v * V < - s \/ (1 + 2 * u24) * V + 2 * s < (u + v) * V \/ t * V + e < val f_self * V \/ (fin distance /\ val distance * V + e < t * V) ->
  f_triangle a b c r distance = None.
Proof.
  intros a b c r distance t u v REG A B C O D M V s e H.
  destruct (f_triangle a b c r distance) as [((t', u'), v')|] eqn:E; [|reflexivity]. exfalso.
  pose proof (volume_nonzero _ _ _ _ REG) as PV. fold A B C D V in PV.
  destruct (triangle_values a b c r t u v REG M) as (ND & FD & FU & FV & FT & LV & _).
  destruct (hit_checks _ _ _ _ _ _ _ _ E FU FV FT) as (-> & -> & -> & U01 & V0 & SUM & T0 & TD).
  pose proof (sum_at_most _ _ FU FV U01 V0 LV SUM) as UV.
  destruct (triangle_near a b c r t u v REG M) as (NU & NV & NT). fold A B C O D V s e in NU, NV, NT.
  assert (EU : Rabs (val (t_u a b c r) - u) * V <= s) by (apply NU; left; rewrite Rabs_pos_eq; lra).
  assert (EV : Rabs (val (t_v a b c r) - v) * V <= s) by (apply NV; left; rewrite Rabs_pos_eq; lra).
  assert (K : forall x y m, Rabs (x - y) * V <= m -> y * V - m <= x * V <= y * V + m).
  { intros x y m X. rewrite <- (Rabs_pos_eq V) in X by lra. rewrite <- Rabs_mult in X. apply Rabs_le_inv in X. lra. }
  pose proof (K _ _ _ EU) as KU. pose proof (K _ _ _ EV) as KV. pose proof (K _ _ _ NT) as KT.
  assert (M1 : 0 <= val (t_u a b c r) * V) by (apply Rmult_le_pos; lra).
  assert (M2 : 0 <= val (t_v a b c r) * V) by (apply Rmult_le_pos; lra).
  assert (M3 : (val (t_u a b c r) + val (t_v a b c r)) * V <= (1 + 2 * u24) * V) by (apply Rmult_le_compat_r; lra).
  assert (M4 : val f_self * V <= val (t_t a b c r) * V) by (apply Rmult_le_compat_r; lra).
  destruct H as [H|[H|[H|[H|(FDI & H)]]]]; [lra|lra|lra|lra|].
  assert (M5 : val (t_t a b c r) * V <= val distance * V) by (apply Rmult_le_compat_r; [lra|apply TD, FDI]). lra.
Qed.
Print Assumptions float_triangle_miss.

(* ----- a triangle so small that the reciprocal of the volume overflows ----- *)

Definition small_x : f32 := fnum 1 (-70).
Definition tiny_ray : fray := mk_fray (ivec 0 0 0) (ivec 0 0 1).

(* C357: the distance of a hit is a number.  False: the reciprocal of a volume below 2^-128 is
   infinite, and infinity times zero passes every comparison *)
Theorem float_triangle_number_refuted :
  ~ (forall a b c r distance t u v, finite_vec a -> finite_vec b -> finite_vec c -> finite_vec (fr_o r) -> finite_vec (fr_d r) -> fin distance ->
      f_triangle a b c r distance = Some (t, u, v) -> is_nan t = false).
Proof.
  intro H. set (b := mk_fvec small_x fzero fzero). set (c := mk_fvec fzero small_x fzero).
  assert (X : match f_triangle (ivec 0 0 0) b c tiny_ray (of_Z 100) with Some (t, _, _) => is_nan t | None => false end = true) by (vm_compute; reflexivity).
  destruct (f_triangle (ivec 0 0 0) b c tiny_ray (of_Z 100)) as [((t, u), v)|] eqn:E; [|discriminate].
  assert (N : is_nan t = false); [|congruence].
  apply (H (ivec 0 0 0) b c tiny_ray (of_Z 100) t u v); try exact E; try (vm_compute; repeat split; reflexivity).
Qed.
Print Assumptions float_triangle_number_refuted.

(* ----- a concrete case: the centre of a triangle of edges 4, seen from five away ----- *)

Definition front_ray : fray := mk_fray (ivec 1 1 (-5)) (ivec 0 0 1).

Lemma exact_ivec : forall x y z, (Z.abs x <= 2 ^ 24)%Z -> (Z.abs y <= 2 ^ 24)%Z -> (Z.abs z <= 2 ^ 24)%Z -> exact (ivec x y z) = RV (IZR x) (IZR y) (IZR z).
Proof. intros x y z X Y Z. unfold exact, ivec; cbn [fx fy fz]. rewrite (proj2 (of_Z_exact x X)), (proj2 (of_Z_exact y Y)), (proj2 (of_Z_exact z Z)). reflexivity. Qed.

Lemma finite_ivec : forall x y z, (Z.abs x <= 2 ^ 24)%Z -> (Z.abs y <= 2 ^ 24)%Z -> (Z.abs z <= 2 ^ 24)%Z -> finite_vec (ivec x y z).
Proof. intros x y z X Y Z. unfold finite_vec, ivec; cbn [fx fy fz]. split; [apply of_Z_exact, X|split; [apply of_Z_exact, Y|apply of_Z_exact, Z]]. Qed.

Example float_triangle_case :
  regular (ivec 0 0 0) (ivec 4 0 0) (ivec 0 4 0) front_ray /\
  meets (exact (ivec 0 0 0)) (exact (ivec 4 0 0)) (exact (ivec 0 4 0)) (exact (fr_o front_ray)) (exact (fr_d front_ray)) 5 (/ 4) (/ 4) /\
  exists t u v, f_triangle (ivec 0 0 0) (ivec 4 0 0) (ivec 0 4 0) front_ray (of_Z 100) = Some (t, u, v) /\ val t = 5.
Proof.
  assert (VOL : volume (RV 0 0 0) (RV 4 0 0) (RV 0 4 0) (RV 0 0 1) = -16) by (unfold volume, rdot, rcross, rsub; cbn; lra).
  assert (N0 : forall x y z, 0 <= x -> 0 <= y -> 0 <= z -> n1 (RV x y z) = x + y + z) by (intros; unfold n1; cbn; rewrite !Rabs_pos_eq by assumption; reflexivity).
  assert (E1 : rsub (RV 4 0 0) (RV 0 0 0) = RV 4 0 0) by (apply rv_ext; cbn; lra).
  assert (E2 : rsub (RV 0 4 0) (RV 0 0 0) = RV 0 4 0) by (apply rv_ext; cbn; lra).
  assert (BOX : box_volume (RV 0 0 0) (RV 4 0 0) (RV 0 4 0) (RV 0 0 1) = 16) by (unfold box_volume; rewrite E1, E2, !N0 by lra; lra).
  assert (E3 : n1 (rsub (RV 1 1 (-5)) (RV 0 0 0)) = 7).
  { unfold n1, rsub; cbn. rewrite (Rabs_pos_eq (1 - 0)) by lra. rewrite (Rabs_left (-5 - 0)) by lra. lra. }
  split; [|split].
  - unfold regular, front_ray; cbn [fr_o fr_d]. split; [apply finite_ivec; cbn; lia|]. split; [apply finite_ivec; cbn; lia|]. split; [apply finite_ivec; cbn; lia|]. split; [apply finite_ivec; cbn; lia|]. split; [apply finite_ivec; cbn; lia|].
    rewrite !exact_ivec by (cbn; lia). rewrite VOL, BOX, E1, E2, E3, !N0 by lra. rewrite (Rabs_left (-16)) by lra.
    change (bpow radix2 18) with 262144. assert (bpow radix2 (-60) <= 1) by (change 1 with (bpow radix2 0); apply bpow_le; lia). repeat split; lra.
  - unfold front_ray; cbn [fr_o fr_d]. rewrite !exact_ivec by (cbn; lia). unfold meets, radd, rscale, rsub; cbn. apply rv_ext; cbn; lra.
  - assert (X : match f_triangle (ivec 0 0 0) (ivec 4 0 0) (ivec 0 4 0) front_ray (of_Z 100) with Some (t, _, _) => Beqb t (of_Z 5) && is_finite t | None => false end = true) by (vm_compute; reflexivity).
    destruct (f_triangle _ _ _ _ _) as [((t, u), v)|]; [|discriminate]. exists t, u, v. split; [reflexivity|]. apply andb_prop in X as (X & F).
    destruct (of_Z_exact 5) as (F5 & V5); [cbn; lia|]. rewrite (Beqb_correct 24 128 t (of_Z 5) F F5) in X.
    destruct (Req_bool_spec (B2R t) (B2R (of_Z 5))) as [Y|Y]; [|discriminate]. unfold val in *. rewrite Y, V5. reflexivity.
Qed.
