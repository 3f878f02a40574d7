(* Directions survive the trip from the shading frame to the world and back, in single precision. *)
From Coq Require Import ZArith Reals List Lra Psatz Lia Bool.
From Flocq Require Import Core.Core IEEE754.BinarySingleNaN.
From Verif Require Import Common FltModel FltFacts FltProps FExtFacts FRayModel FSphereProps FBoxMarginProps FMatBoundProps FFilmProps FFresProps FFresNearProps FTexModel FTexProps FSpecNearProps FNearFacts FltVecProps FShadeModel.
Local Open Scope R_scope.

(* ----- reals ----- *)

Lemma inv_sqrt : forall a d, 0 <= d <= / 100 -> Rabs (a - 1) <= d -> 0 < sqrt a /\ Rabs (/ sqrt a - 1) <= 51 / 100 * d.
Proof.
  intros a d D A. apply abs_both in A. assert (P : 0 < sqrt a) by (apply sqrt_lt_R0; lra). split; [exact P|]. assert (S : sqrt a * sqrt a = a) by (apply sqrt_sqrt; lra).
  set (s := sqrt a) in *. clearbody s. assert (I : s * / s = 1) by (apply Rinv_r; lra). assert (IP : 0 < / s) by (apply Rinv_0_lt_compat; exact P). set (i := / s) in *. clearbody i.
  assert (Q : i * i * a = 1) by (rewrite <- S; replace (i * i * (s * s)) with ((s * i) * (s * i)) by ring; rewrite I; ring).
  assert (D2 : 0 <= d * d <= d * / 100) by (split; [apply Rmult_le_pos; lra|apply Rmult_le_compat_l; lra]).
  apply Rabs_le. split; apply Rnot_lt_le; intro L.
  - assert (i * i < (1 - 51 / 100 * d) * (1 - 51 / 100 * d)) by (apply Rmult_le_0_lt_compat; lra).
    assert (i * i * a <= (1 - 51 / 100 * d) * (1 - 51 / 100 * d) * (1 + d)); [|nra]. apply Rmult_le_compat; lra || (apply Rmult_le_pos; lra).
  - assert ((1 + 51 / 100 * d) * (1 + 51 / 100 * d) < i * i) by (apply Rmult_le_0_lt_compat; lra).
    assert ((1 + 51 / 100 * d) * (1 + 51 / 100 * d) * (1 - d) <= i * i * a); [|nra]. apply Rmult_le_compat; lra || (apply Rmult_le_pos; lra).
Qed.

Lemma sum3 : forall x y z, x * x + y * y + z * z <= 1002 / 1000 -> Rabs x + Rabs y + Rabs z <= 174 / 100.
Proof.
  intros x y z L. assert (Q : forall a, a * a = Rabs a * Rabs a) by (intro a; rewrite <- Rabs_mult; symmetry; apply Rabs_pos_eq, Rle_0_sqr). rewrite (Q x), (Q y), (Q z) in L.
  pose proof (Rabs_pos x). pose proof (Rabs_pos y). pose proof (Rabs_pos z). set (a := Rabs x) in *. set (b := Rabs y) in *. set (c := Rabs z) in *. clearbody a b c. clear Q.
  apply Rnot_lt_le. intro N. assert (P : (174 / 100) * (174 / 100) < (a + b + c) * (a + b + c)) by (apply Rmult_le_0_lt_compat; lra).
  pose proof (Rle_0_sqr (a - b)) as S1. pose proof (Rle_0_sqr (b - c)) as S2. pose proof (Rle_0_sqr (a - c)) as S3. unfold Rsqr in *. lra.
Qed.

Lemma comp_le : forall x y z, x * x + y * y + z * z <= 1002 / 1000 -> Rabs x <= 1001 / 1000.
Proof. intros x y z L. pose proof (Rle_0_sqr y) as Y. pose proof (Rle_0_sqr z) as Z. unfold Rsqr in *. apply Rabs_le. split; apply Rnot_lt_le; intro N; nra. Qed.

(* the product of a small vector and one of length about 1 *)
Lemma small_dot : forall e f g x y z m, Rabs e <= m -> Rabs f <= m -> Rabs g <= m -> x * x + y * y + z * z <= 1002 / 1000 -> Rabs (e * x + f * y + g * z) <= 174 / 100 * m.
Proof.
  intros e f g x y z m E F G L. pose proof (sum3 x y z L) as S. assert (M : 0 <= m) by (eapply Rle_trans; [apply Rabs_pos|exact E]).
  eapply Rle_trans; [apply Rabs_triang|]. eapply Rle_trans; [apply Rplus_le_compat_r, Rabs_triang|]. rewrite !Rabs_mult.
  assert (Rabs e * Rabs x <= m * Rabs x) by (apply Rmult_le_compat_r; [apply Rabs_pos|exact E]). assert (Rabs f * Rabs y <= m * Rabs y) by (apply Rmult_le_compat_r; [apply Rabs_pos|exact F]). assert (Rabs g * Rabs z <= m * Rabs z) by (apply Rmult_le_compat_r; [apply Rabs_pos|exact G]).
  assert (m * (Rabs x + Rabs y + Rabs z) <= m * (174 / 100)) by (apply Rmult_le_compat_l; lra). lra.
Qed.

(* ----- floats ----- *)

Definition unit_v (v : fvec) : Prop := vfin v /\ Rabs (length2 v - 1) <= 2 / 100000.
Definition dotr (a b : fvec) : R := val (fx a) * val (fx b) + val (fy a) * val (fy b) + val (fz a) * val (fz b).

Lemma unit_comp : forall v, vfin v -> length2 v <= 1002 / 1000 -> Rabs (val (fx v)) <= 1001 / 1000 /\ Rabs (val (fy v)) <= 1001 / 1000 /\ Rabs (val (fz v)) <= 1001 / 1000.
Proof.
  intros v F L. unfold length2 in L. split; [|split]; [apply (comp_le _ (val (fy v)) (val (fz v)))|apply (comp_le _ (val (fx v)) (val (fz v)))|apply (comp_le _ (val (fx v)) (val (fy v)))]; lra.
Qed.

Lemma prod_near : forall x y, fin x -> fin y -> Rabs (val x) <= 1001 / 1000 -> Rabs (val y) <= 1001 / 1000 -> near (fmul x y) (val x * val y) (11 / 10) 2.
Proof.
  intros x y FX FY X Y. eapply near_weaken; [apply (near_mul x y (val x) (val y) (11 / 10) (11 / 10) 0 0 (11 / 10))| |]; try lra; try (apply near_exact; [assumption|lra]).
  rewrite Rabs_mult. apply Rle_trans with (1001 / 1000 * (1001 / 1000)); [apply Rmult_le_compat; try apply Rabs_pos; assumption|lra].
Qed.

Lemma dot3_near : forall a b c x y z, fin a -> fin b -> fin c -> fin x -> fin y -> fin z ->
  Rabs (val a) <= 1001 / 1000 -> Rabs (val b) <= 1001 / 1000 -> Rabs (val c) <= 1001 / 1000 -> Rabs (val x) <= 1001 / 1000 -> Rabs (val y) <= 1001 / 1000 -> Rabs (val z) <= 1001 / 1000 ->
  near (fadd (fadd (fmul a x) (fmul b y)) (fmul c z)) (val a * val x + val b * val y + val c * val z) 4 16.
Proof.
  intros a b c x y z FA FB FC FX FY FZ A B C X Y Z. pose proof (prod_near a x FA FX A X) as P1. pose proof (prod_near b y FB FY B Y) as P2. pose proof (prod_near c z FC FZ C Z) as P3.
  assert (L1 := proj2 (proj2 P1)). assert (L2 := proj2 (proj2 P2)). assert (L3 := proj2 (proj2 P3)).
  assert (S : near (fadd (fmul a x) (fmul b y)) (val a * val x + val b * val y) (22 / 10) 7).
  { eapply near_weaken; [apply (near_add _ _ _ _ (11 / 10) (11 / 10) 2 2 (22 / 10) P1 P2)| |]; try lra. eapply Rle_trans; [apply Rabs_triang|]. lra. }
  assert (LS := proj2 (proj2 S)). eapply near_weaken; [apply (near_add _ _ _ _ (22 / 10) (11 / 10) 7 2 4 S P3)| |]; try lra. eapply Rle_trans; [apply Rabs_triang|]. lra.
Qed.

(* normalising a vector that is close to a given one of length about 1 *)
Lemma normal_near : forall v a b c m d, vfin v -> Rabs (val (fx v) - a) <= m -> Rabs (val (fy v) - b) <= m -> Rabs (val (fz v) - c) <= m -> 0 <= m <= / 1000 ->
  0 <= d <= / 1000 -> Rabs (a * a + b * b + c * c - 1) <= d ->
  let n := f_normalize v in let k := m + 52 / 100 * d + 19 / 10 * m + 11 / 1000000 in
  vfin n /\ Rabs (length2 n - 1) <= 11 / 1000000 /\ Rabs (val (fx n) - a) <= k /\ Rabs (val (fy n) - b) <= k /\ Rabs (val (fz n) - c) <= k.
Proof.
  intros v a b c m d VF A B C M D L. cbv zeta.
  assert (AB : a * a + b * b + c * c <= 1002 / 1000) by (apply abs_both in L; lra).
  assert (L2 : Rabs (length2 v - 1) <= d + 36 / 10 * m).
  { unfold length2. set (x := val (fx v)) in *. set (y := val (fy v)) in *. set (z := val (fz v)) in *.
    replace (x * x + y * y + z * z - 1) with ((a * a + b * b + c * c - 1) + 2 * ((x - a) * a + (y - b) * b + (z - c) * c) + ((x - a) * (x - a) + (y - b) * (y - b) + (z - c) * (z - c))) by ring.
    pose proof (small_dot _ _ _ a b c m A B C AB) as S. apply abs_both in S. apply abs_both in L.
    assert (Q : forall e, Rabs e <= m -> 0 <= e * e <= / 1000 * m).
    { intros e E. split; [apply Rle_0_sqr|]. replace (e * e) with (Rabs e * Rabs e) by (rewrite <- Rabs_mult; apply Rabs_pos_eq, Rle_0_sqr). apply Rle_trans with (m * m); [apply Rmult_le_compat; try apply Rabs_pos; assumption|apply Rmult_le_compat_r; lra]. }
    pose proof (Q _ A) as QA. pose proof (Q _ B) as QB. pose proof (Q _ C) as QC. apply Rabs_le. lra. }
  destruct (inv_sqrt (length2 v) (d + 36 / 10 * m)) as (SP & SI); [lra|exact L2|].
  destruct (float_normalize v VF) as (NF & NL & NX & NY & NZ).
  { apply abs_both in L2. assert (bpow radix2 (-100) <= / 2) by (apply Rle_trans with (bpow radix2 (-1)); [apply bpow_le; lia|cbn; lra]). assert (2 <= bpow radix2 100) by (apply Rle_trans with (bpow radix2 1); [cbn; lra|apply bpow_le; lia]). lra. }
  split; [exact NF|]. split; [eapply Rle_trans; [exact NL|lra]|].
  assert (U : forall n x t u w, Rabs (n - x / sqrt (length2 v)) <= 1e-5 -> Rabs (x - t) <= m -> t * t + u * u + w * w <= 1002 / 1000 -> Rabs (n - t) <= m + 52 / 100 * d + 19 / 10 * m + 11 / 1000000).
  { intros n x t u w N X T. pose proof (comp_le t u w T) as TC. set (i := / sqrt (length2 v)) in *. unfold Rdiv in N. fold i in N.
    replace (n - t) with ((n - x * i) + (x - t) + x * (i - 1)) by ring.
    assert (XB : Rabs x <= 1003 / 1000). { replace x with (t + (x - t)) by ring. eapply Rle_trans; [apply Rabs_triang|]. lra. }
    assert (XI : Rabs (x * (i - 1)) <= 1003 / 1000 * (51 / 100 * (d + 36 / 10 * m))) by (rewrite Rabs_mult; apply Rmult_le_compat; try apply Rabs_pos; assumption).
    eapply Rle_trans; [apply Rabs_triang|]. eapply Rle_trans; [apply Rplus_le_compat_r, Rabs_triang|]. lra. }
  split; [|split]; [apply (U _ _ a b c NX A); lra|apply (U _ _ b a c NY B); lra|apply (U _ _ c a b NZ C); lra].
Qed.

Lemma unit_le : forall v, unit_v v -> vfin v /\ length2 v <= 1002 / 1000 /\ Rabs (val (fx v)) <= 1001 / 1000 /\ Rabs (val (fy v)) <= 1001 / 1000 /\ Rabs (val (fz v)) <= 1001 / 1000.
Proof. intros v (F & L). apply abs_both in L. split; [exact F|]. split; [lra|]. apply unit_comp; [exact F|lra]. Qed.

(* the third axis *)
Lemma frame_t : forall s n, unit_v s -> unit_v n -> Rabs (dotr s n) <= / 10000 ->
  let t := f_frame_t s n in unit_v t /\ Rabs (dotr t s) <= 7 / 100000 /\ Rabs (dotr t n) <= 7 / 100000.
Proof.
  intros s n US UN O. cbv zeta. destruct (unit_le s US) as ((FSX & FSY & FSZ) & LS & SX & SY & SZ). destruct (unit_le n UN) as ((FNX & FNY & FNZ) & LN & NX & NY & NZ).
  assert (DIF : forall a b c d, fin a -> fin b -> fin c -> fin d -> Rabs (val a) <= 1001 / 1000 -> Rabs (val b) <= 1001 / 1000 -> Rabs (val c) <= 1001 / 1000 -> Rabs (val d) <= 1001 / 1000 ->
            fin (fsub (fmul a b) (fmul c d)) /\ Rabs (val (fsub (fmul a b) (fmul c d)) - (val a * val b - val c * val d)) <= / 1000000).
  { intros a b c d FA FB FC FD A B C D. pose proof (prod_near a b FA FB A B) as P1. pose proof (prod_near c d FC FD C D) as P2. assert (L1 := proj2 (proj2 P1)). assert (L2 := proj2 (proj2 P2)).
    assert (S : near (fsub (fmul a b) (fmul c d)) (val a * val b - val c * val d) (22 / 10) 7).
    { eapply near_weaken; [apply (near_sub _ _ _ _ (11 / 10) (11 / 10) 2 2 (22 / 10) P1 P2)| |]; try lra. unfold Rminus. eapply Rle_trans; [apply Rabs_triang|]. rewrite Rabs_Ropp. lra. }
    destruct S as (F & E & _). split; [exact F|]. eapply Rle_trans; [exact E|]. unfold u24. lra. }
  unfold f_frame_t, fv_cross.
  destruct (DIF (fy n) (fz s) (fz n) (fy s)) as (F1 & E1); try assumption. destruct (DIF (fz n) (fx s) (fx n) (fz s)) as (F2 & E2); try assumption. destruct (DIF (fx n) (fy s) (fy n) (fx s)) as (F3 & E3); try assumption. clear DIF.
  destruct US as (_ & LS1). destruct UN as (_ & LN1). apply abs_both in LS1. apply abs_both in LN1. apply abs_both in O.
  set (v := mk_fvec _ _ _). assert (VF : vfin v) by (split; [exact F1|split; [exact F2|exact F3]]).
  unfold length2, dotr in *. set (a := val (fx s)) in *. set (b := val (fy s)) in *. set (c := val (fz s)) in *. set (x := val (fx n)) in *. set (y := val (fy n)) in *. set (z := val (fz n)) in *.
  destruct (normal_near v (y * c - z * b) (z * a - x * c) (x * b - y * a) (/ 1000000) (5 / 100000) VF E1 E2 E3) as (TF & TL & TX & TY & TZ); try lra.
  { assert (I : (y * c - z * b) * (y * c - z * b) + (z * a - x * c) * (z * a - x * c) + (x * b - y * a) * (x * b - y * a) = (a * a + b * b + c * c) * (x * x + y * y + z * z) - (a * x + b * y + c * z) * (a * x + b * y + c * z)) by ring. rewrite I.
    set (p := a * a + b * b + c * c) in *. set (q := x * x + y * y + z * z) in *. set (o := a * x + b * y + c * z) in *. clearbody p q o.
    assert (OO : 0 <= o * o <= / 100000000) by (split; [apply Rle_0_sqr|]; replace (/ 100000000) with (/ 10000 * / 10000) by field; replace (o * o) with (Rabs o * Rabs o) by (rewrite <- Rabs_mult; apply Rabs_pos_eq, Rle_0_sqr); apply Rmult_le_compat; try apply Rabs_pos; apply Rabs_le; lra).
    assert (PQ : 99998 / 100000 * (99998 / 100000) <= p * q <= 100002 / 100000 * (100002 / 100000)) by (split; apply Rmult_le_compat; lra). apply Rabs_le. lra. }
  set (t := f_normalize v) in *. split; [split; [exact TF|unfold length2 in *; eapply Rle_trans; [exact TL|lra]]|]. clearbody t v. clear F1 F2 F3 E1 E2 E3 VF.
  set (k := / 1000000 + _ + _ + _) in *. assert (K : k <= 402 / 10000000) by (unfold k; lra). clearbody k.
  set (p := val (fx t)) in *. set (q := val (fy t)) in *. set (r := val (fz t)) in *. clearbody p q r.
  split; [replace (p * a + q * b + r * c) with ((p - (y * c - z * b)) * a + (q - (z * a - x * c)) * b + (r - (x * b - y * a)) * c) by ring|replace (p * x + q * y + r * z) with ((p - (y * c - z * b)) * x + (q - (z * a - x * c)) * y + (r - (x * b - y * a)) * z) by ring];
    (eapply Rle_trans; [apply (small_dot _ _ _ _ _ _ k); eassumption|lra]).
Qed.

(* the length of the combination of the axes *)
Lemma combo_length : forall sx sy sz tx ty tz nx ny nz vx vy vz, let e := 2 / 100000 in let o := / 10000 in
  Rabs (sx * sx + sy * sy + sz * sz - 1) <= e -> Rabs (tx * tx + ty * ty + tz * tz - 1) <= e -> Rabs (nx * nx + ny * ny + nz * nz - 1) <= e -> Rabs (vx * vx + vy * vy + vz * vz - 1) <= e ->
  Rabs (tx * sx + ty * sy + tz * sz) <= o -> Rabs (tx * nx + ty * ny + tz * nz) <= o -> Rabs (sx * nx + sy * ny + sz * nz) <= o ->
  let wx := sx * vx + tx * vy + nx * vz in let wy := sy * vx + ty * vy + ny * vz in let wz := sz * vx + tz * vy + nz * vz in
  Rabs (wx * wx + wy * wy + wz * wz - 1) <= 25 / 100000.
Proof.
  intros sx sy sz tx ty tz nx ny nz vx vy vz e o LS LT LN LV TS TN O. cbv zeta. unfold e, o in *. clear e o.
  replace ((sx * vx + tx * vy + nx * vz) * (sx * vx + tx * vy + nx * vz) + (sy * vx + ty * vy + ny * vz) * (sy * vx + ty * vy + ny * vz) + (sz * vx + tz * vy + nz * vz) * (sz * vx + tz * vy + nz * vz) - 1) with
    ((vx * vx + vy * vy + vz * vz - 1) + ((sx * sx + sy * sy + sz * sz - 1) * (vx * vx) + (tx * tx + ty * ty + tz * tz - 1) * (vy * vy) + (nx * nx + ny * ny + nz * nz - 1) * (vz * vz))
        + 2 * ((tx * sx + ty * sy + tz * sz) * (vx * vy) + (tx * nx + ty * ny + tz * nz) * (vy * vz) + (sx * nx + sy * ny + sz * nz) * (vx * vz))) by ring.
  generalize dependent (sx * sx + sy * sy + sz * sz - 1). intros gs LS. generalize dependent (tx * tx + ty * ty + tz * tz - 1). intros gt LT. generalize dependent (nx * nx + ny * ny + nz * nz - 1). intros gn LN.
  generalize dependent (tx * sx + ty * sy + tz * sz). intros ts TS. generalize dependent (tx * nx + ty * ny + tz * nz). intros tn TN. generalize dependent (sx * nx + sy * ny + sz * nz). intros sn O. clear sx sy sz tx ty tz nx ny nz.
  apply abs_both in LS. apply abs_both in LT. apply abs_both in LN. apply abs_both in LV. apply abs_both in TS. apply abs_both in TN. apply abs_both in O.
  assert (B : forall g a e, - e <= g <= e -> 0 <= a -> - (e * a) <= g * a <= e * a).
  { intros g a e G A. split; [rewrite Ropp_mult_distr_l|]; apply Rmult_le_compat_r; lra. }
  assert (C : forall g a b e, - e <= g <= e -> 0 <= e -> - (e * ((a * a + b * b) / 2)) <= g * (a * b) <= e * ((a * a + b * b) / 2)).
  { intros g a b e G E. pose proof (Rle_0_sqr (a - b)) as S1. pose proof (Rle_0_sqr (a + b)) as S2. unfold Rsqr in *. assert (AB : Rabs (a * b) <= (a * a + b * b) / 2) by (apply Rabs_le; lra).
    apply abs_both. rewrite Rabs_mult. apply Rmult_le_compat; try apply Rabs_pos; [apply Rabs_le; lra|exact AB]. }
  pose proof (Rle_0_sqr vx) as X2. pose proof (Rle_0_sqr vy) as Y2. pose proof (Rle_0_sqr vz) as Z2. unfold Rsqr in *.
  pose proof (B gs _ _ LS X2) as B1. pose proof (B gt _ _ LT Y2) as B2. pose proof (B gn _ _ LN Z2) as B3.
  pose proof (C ts vx vy _ TS ltac:(lra)) as C1. pose proof (C tn vy vz _ TN ltac:(lra)) as C2. pose proof (C sn vx vz _ O ltac:(lra)) as C3. clear B C.
  apply Rabs_le. lra.
Qed.

(* the coordinate along an axis: g is its squared length less 1, h and k the cosines to the others *)
Lemma along_axis : forall d g h k x y z, Rabs d <= 253 / 1000000 -> Rabs g <= 2 / 100000 -> Rabs h <= / 10000 -> Rabs k <= / 10000 ->
  Rabs x <= 1001 / 1000 -> Rabs y <= 1001 / 1000 -> Rabs z <= 1001 / 1000 -> Rabs (d + g * x + h * y + k * z) <= 48 / 100000.
Proof.
  intros d g h k x y z D G H K X Y Z. assert (P : forall a b e, Rabs a <= e -> Rabs b <= 1001 / 1000 -> Rabs (a * b) <= e * (1001 / 1000)) by (intros a b e A B; rewrite Rabs_mult; apply Rmult_le_compat; try apply Rabs_pos; assumption).
  pose proof (P _ _ _ G X) as A1. pose proof (P _ _ _ H Y) as A2. pose proof (P _ _ _ K Z) as A3. clear P.
  eapply Rle_trans; [apply Rabs_triang|]. eapply Rle_trans; [apply Rplus_le_compat_r, Rabs_triang|]. eapply Rle_trans; [apply Rplus_le_compat_r, Rplus_le_compat_r, Rabs_triang|]. lra.
Qed.

Lemma combo_back : forall sx sy sz tx ty tz nx ny nz vx vy vz px py pz, let e := 2 / 100000 in let o := / 10000 in
  Rabs (sx * sx + sy * sy + sz * sz - 1) <= e -> Rabs (sx * tx + sy * ty + sz * tz) <= o -> Rabs (sx * nx + sy * ny + sz * nz) <= o ->
  Rabs vx <= 1001 / 1000 -> Rabs vy <= 1001 / 1000 -> Rabs vz <= 1001 / 1000 ->
  Rabs (px - (sx * vx + tx * vy + nx * vz)) <= 145 / 1000000 -> Rabs (py - (sy * vx + ty * vy + ny * vz)) <= 145 / 1000000 -> Rabs (pz - (sz * vx + tz * vy + nz * vz)) <= 145 / 1000000 ->
  Rabs (px * sx + py * sy + pz * sz - vx) <= 48 / 100000.
Proof.
  intros sx sy sz tx ty tz nx ny nz vx vy vz px py pz e o LS TS O X Y Z A B C. unfold e, o in *. clear e o.
  assert (L : sx * sx + sy * sy + sz * sz <= 1002 / 1000) by (apply abs_both in LS; lra). pose proof (small_dot _ _ _ sx sy sz _ A B C L) as D. clear A B C L.
  replace (px * sx + py * sy + pz * sz - vx) with (((px - (sx * vx + tx * vy + nx * vz)) * sx + (py - (sy * vx + ty * vy + ny * vz)) * sy + (pz - (sz * vx + tz * vy + nz * vz)) * sz) + (sx * sx + sy * sy + sz * sz - 1) * vx + (sx * tx + sy * ty + sz * tz) * vy + (sx * nx + sy * ny + sz * nz) * vz) by ring.
  apply along_axis; try assumption. eapply Rle_trans; [exact D|lra].
Qed.

Lemma weaker : forall x a b, Rabs x <= a -> a <= b -> Rabs x <= b.
Proof. intros x a b H L. lra. Qed.

Lemma dot_flip : forall a b, dotr a b = dotr b a.
Proof. intros a b. unfold dotr. ring. Qed.

(* For a tangent and a normal of length 1 (up to 2e-5, what normalising gives) that are orthogonal up
   to 1e-4, every direction of the shading frame becomes a direction of length 1 of the world, its
   cosine to the normal is kept up to 5e-4, and transforming back gives the direction up to 0.0015. *)
Theorem float_shading_round_trip : forall s n v, unit_v s -> unit_v n -> Rabs (dotr s n) <= / 10000 -> unit_v v ->
  let t := f_frame_t s n in let w := f_to_world s t n v in let b := f_to_shading s t n w in
  unit_v w /\ Rabs (dotr w n - val (fz v)) <= 5 / 10000 /\ Rabs (dotr w s - val (fx v)) <= 5 / 10000 /\
  unit_v b /\ Rabs (val (fx b) - val (fx v)) <= 15 / 10000 /\ Rabs (val (fy b) - val (fy v)) <= 15 / 10000 /\ Rabs (val (fz b) - val (fz v)) <= 15 / 10000.
Proof.
  intros s n v US UN O UV. cbv zeta. destruct (frame_t s n US UN O) as (UT & TS & TN). cbv zeta in *. set (t := f_frame_t s n) in *. clearbody t.
  destruct (unit_le s US) as ((FSX & FSY & FSZ) & LS & SX & SY & SZ). destruct (unit_le n UN) as ((FNX & FNY & FNZ) & LN & NX & NY & NZ). destruct (unit_le t UT) as ((FTX & FTY & FTZ) & LT & TX & TY & TZ). destruct (unit_le v UV) as ((FVX & FVY & FVZ) & LV & VX & VY & VZ). clear LS LN LT LV.
  destruct (dot3_near (fx s) (fx t) (fx n) (fx v) (fy v) (fz v) FSX FTX FNX FVX FVY FVZ SX TX NX VX VY VZ) as (F1 & E1 & _). destruct (dot3_near (fy s) (fy t) (fy n) (fx v) (fy v) (fz v) FSY FTY FNY FVX FVY FVZ SY TY NY VX VY VZ) as (F2 & E2 & _). destruct (dot3_near (fz s) (fz t) (fz n) (fx v) (fy v) (fz v) FSZ FTZ FNZ FVX FVY FVZ SZ TZ NZ VX VY VZ) as (F3 & E3 & _).
  assert (U16 : 16 * u24 <= / 1000000) by (unfold u24; lra).
  assert (TS' : Rabs (dotr t s) <= / 10000) by (eapply weaker; [exact TS|lra]). assert (TN' : Rabs (dotr t n) <= / 10000) by (eapply weaker; [exact TN|lra]). clear TS TN.
  pose proof (combo_length _ _ _ _ _ _ _ _ _ _ _ _ (proj2 US) (proj2 UT) (proj2 UN) (proj2 UV) TS' TN' O) as WL. cbv zeta in WL.
  unfold f_to_world. cbv zeta.
  destruct (normal_near (mk_fvec _ _ _) _ _ _ (/ 1000000) (25 / 100000) (conj F1 (conj F2 F3)) (weaker _ _ _ E1 U16) (weaker _ _ _ E2 U16) (weaker _ _ _ E3 U16) ltac:(lra) ltac:(lra) WL) as (TF & TL & WX & WY & WZ).
  match type of WX with _ <= ?k => assert (K : k <= 145 / 1000000) by (clear; lra); pose proof (weaker _ _ _ WX K) as WX'; pose proof (weaker _ _ _ WY K) as WY'; pose proof (weaker _ _ _ WZ K) as WZ'; clear WX WY WZ K end. clear F1 F2 F3 E1 E2 E3 WL.
  match goal with |- context [f_to_shading s t n ?x] => set (w := x) in * end. assert (UW : unit_v w) by (split; [exact TF|eapply weaker; [exact TL|lra]]). clearbody w. clear TF TL.
  assert (RS : Rabs (dotr w s - val (fx v)) <= 48 / 100000).
  { apply (combo_back _ _ _ (val (fx t)) (val (fy t)) (val (fz t)) (val (fx n)) (val (fy n)) (val (fz n)) _ (val (fy v)) (val (fz v))); try assumption; [exact (proj2 US)|rewrite dot_flip in TS'; exact TS']. }
  assert (RT : Rabs (dotr w t - val (fy v)) <= 48 / 100000).
  { rewrite dot_flip in TS'. apply (combo_back _ _ _ (val (fx s)) (val (fy s)) (val (fz s)) (val (fx n)) (val (fy n)) (val (fz n)) _ (val (fx v)) (val (fz v))); try assumption; [exact (proj2 UT)|rewrite dot_flip in TS'; exact TS'| | |].
    - rewrite (Rplus_comm (val (fx t) * val (fy v))). exact WX'.
    - rewrite (Rplus_comm (val (fy t) * val (fy v))). exact WY'.
    - rewrite (Rplus_comm (val (fz t) * val (fy v))). exact WZ'. }
  assert (RN : Rabs (dotr w n - val (fz v)) <= 48 / 100000).
  { apply (combo_back _ _ _ (val (fx s)) (val (fy s)) (val (fz s)) (val (fx t)) (val (fy t)) (val (fz t)) _ (val (fx v)) (val (fy v))); try assumption; [exact (proj2 UN)|rewrite dot_flip in O; exact O|rewrite dot_flip in TN'; exact TN'| | |].
    - rewrite Rplus_assoc, Rplus_comm. exact WX'.
    - rewrite Rplus_assoc, Rplus_comm. exact WY'.
    - rewrite Rplus_assoc, Rplus_comm. exact WZ'. }
  clear WX' WY' WZ' TS' TN' O. split; [exact UW|]. split; [eapply weaker; [exact RN|lra]|]. split; [eapply weaker; [exact RS|lra]|].
  destruct (unit_le w UW) as ((FWX & FWY & FWZ) & _ & BX & BY & BZ).
  destruct (dot3_near (fx w) (fy w) (fz w) (fx s) (fy s) (fz s) FWX FWY FWZ FSX FSY FSZ BX BY BZ SX SY SZ) as (F1 & E1 & _). destruct (dot3_near (fx w) (fy w) (fz w) (fx t) (fy t) (fz t) FWX FWY FWZ FTX FTY FTZ BX BY BZ TX TY TZ) as (F2 & E2 & _). destruct (dot3_near (fx w) (fy w) (fz w) (fx n) (fy n) (fz n) FWX FWY FWZ FNX FNY FNZ BX BY BZ NX NY NZ) as (F3 & E3 & _).
  assert (TR : forall x y z, Rabs (x - y) <= 16 * u24 -> Rabs (y - z) <= 48 / 100000 -> Rabs (x - z) <= 49 / 100000).
  { clear - U16. intros x y z A B. replace (x - z) with ((x - y) + (y - z)) by ring. eapply Rle_trans; [apply Rabs_triang|]. lra. }
  unfold f_to_shading, fv_dot.
  destruct (normal_near (mk_fvec _ _ _) _ _ _ (49 / 100000) (2 / 100000) (conj F1 (conj F2 F3)) (TR _ _ _ E1 RS) (TR _ _ _ E2 RT) (TR _ _ _ E3 RN) ltac:(lra) ltac:(lra) (proj2 UV)) as (NF & NL & QX & QY & QZ). clear - NF NL QX QY QZ.
  split; [split; [exact NF|eapply weaker; [exact NL|lra]]|]. split; [|split]; (eapply weaker; [eassumption|lra]).
Qed.
Print Assumptions float_shading_round_trip.

(* a frame turned in the plane of x and z, with 0.6 and 0.8 rounded, and a slanted direction *)
Example shading_case :
  let a := fnum 10066330 (-24) in let b := fnum 13421773 (-24) in
  let s := mk_fvec a fzero (fneg b) in let n := mk_fvec b fzero a in let v := mk_fvec fzero a b in
  (unit_v s /\ unit_v n /\ Rabs (dotr s n) <= / 10000 /\ unit_v v) /\
  B2SF (fy (f_frame_t s n)) = SpecFloat.S754_finite false 8388608 (-23) /\
  B2SF (fy (f_to_shading s (f_frame_t s n) n (f_to_world s (f_frame_t s n) n v))) <> SpecFloat.S754_nan.
Proof.
  cbv zeta. assert (A : val (fnum 10066330 (-24)) = 10066330 / 16777216) by (erewrite lit_val by (vm_compute; reflexivity); cbn; lra).
  assert (B : val (fnum 13421773 (-24)) = 13421773 / 16777216) by (erewrite lit_val by (vm_compute; reflexivity); cbn; lra).
  assert (FA : fin (fnum 10066330 (-24))) by reflexivity. assert (FB : fin (fnum 13421773 (-24))) by reflexivity. destruct fzero_val as (F0 & V0). destruct (neg_val _ FB) as (FN & VN).
  split; [|split; vm_compute; [reflexivity|discriminate]].
  unfold unit_v, vfin, length2, dotr. cbn [fx fy fz]. rewrite VN, A, B, V0. repeat split; try assumption; apply Rabs_le; lra.
Qed.
