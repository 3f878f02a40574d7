(* The frame of a camera in single precision. *)
From Coq Require Import ZArith Reals List Lra Psatz Lia Bool.
From Flocq Require Import Core.Core IEEE754.BinarySingleNaN.
From Verif Require Import Common FltModel FltFacts FltProps FExtFacts FRayModel FSphereProps FBoxMarginProps FMatBoundProps FFilmProps FFresProps FFresNearProps FTexModel FTexProps FSpecNearProps FNearFacts FMatModel FGgxProps FltVecProps FShadeModel FShadeProps FLookModel.
Local Open Scope R_scope.

(* ----- reals ----- *)

(* normalising a vector v close to c gives one that is orthogonal to what c is orthogonal to *)
Lemma stays_orthogonal : forall vx vy vz cx cy cz lx ly lz dx dy dz s,
  Rabs (vx - cx) <= / 1000000 -> Rabs (vy - cy) <= / 1000000 -> Rabs (vz - cz) <= / 1000000 -> 4 / 10 <= s ->
  Rabs (lx - vx / s) <= 1e-5 -> Rabs (ly - vy / s) <= 1e-5 -> Rabs (lz - vz / s) <= 1e-5 -> dx * dx + dy * dy + dz * dz <= 1002 / 1000 ->
  cx * dx + cy * dy + cz * dz = 0 -> Rabs (lx * dx + ly * dy + lz * dz) <= 3 / 100000.
Proof.
  intros vx vy vz cx cy cz lx ly lz dx dy dz s X Y Z S LX LY LZ D O.
  pose proof (small_dot _ _ _ dx dy dz _ X Y Z D) as A. pose proof (small_dot _ _ _ dx dy dz _ LX LY LZ D) as B.
  assert (I : 0 < / s <= 25 / 10).
  { split; [apply Rinv_0_lt_compat; lra|]. replace (25 / 10) with (/ (4 / 10)) by field. apply Rinv_le_contravar; lra. }
  replace (lx * dx + ly * dy + lz * dz) with (((lx - vx / s) * dx + (ly - vy / s) * dy + (lz - vz / s) * dz) + / s * ((vx - cx) * dx + (vy - cy) * dy + (vz - cz) * dz) + / s * (cx * dx + cy * dy + cz * dz)) by (field; lra).
  rewrite O. set (a := (vx - cx) * dx + _ + _) in *. set (b := (lx - vx / s) * dx + _ + _) in *. clearbody a b.
  assert (E : Rabs (/ s * a) <= 25 / 10 * (174 / 100 * / 1000000)) by (rewrite Rabs_mult, (Rabs_pos_eq (/ s)) by lra; apply Rmult_le_compat; try apply Rabs_pos; lra).
  apply abs_both in E. apply abs_both in B. apply Rabs_le. lra.
Qed.

(* ... and points the way of c *)
Lemma stays_forward : forall vx vy vz cx cy cz lx ly lz s,
  Rabs (vx - cx) <= / 1000000 -> Rabs (vy - cy) <= / 1000000 -> Rabs (vz - cz) <= / 1000000 -> 43 / 100 <= s -> s * s = vx * vx + vy * vy + vz * vz ->
  Rabs (lx - vx / s) <= 1e-5 -> Rabs (ly - vy / s) <= 1e-5 -> Rabs (lz - vz / s) <= 1e-5 -> vx * vx + vy * vy + vz * vz <= 1002 / 1000 -> lx * lx + ly * ly + lz * lz <= 1002 / 1000 ->
  42 / 100 <= lx * cx + ly * cy + lz * cz.
Proof.
  intros vx vy vz cx cy cz lx ly lz s X Y Z S SS LX LY LZ V L.
  pose proof (small_dot _ _ _ lx ly lz _ X Y Z L) as A. pose proof (small_dot _ _ _ vx vy vz _ LX LY LZ V) as B.
  replace (lx * cx + ly * cy + lz * cz) with (((lx - vx / s) * vx + (ly - vy / s) * vy + (lz - vz / s) * vz) + (vx * vx + vy * vy + vz * vz) / s - ((vx - cx) * lx + (vy - cy) * ly + (vz - cz) * lz)) by (field; lra).
  rewrite <- SS. replace (s * s / s) with s by (field; lra). apply abs_both in A. apply abs_both in B. lra.
Qed.

Lemma lagrange : forall a b c x y z, (y * c - z * b) * (y * c - z * b) + (z * a - x * c) * (z * a - x * c) + (x * b - y * a) * (x * b - y * a) = (a * a + b * b + c * c) * (x * x + y * y + z * z) - (a * x + b * y + c * z) * (a * x + b * y + c * z).
Proof. intros. ring. Qed.

(* squared length of a vector close to another *)
Lemma near_length : forall x y z a b c, Rabs (x - a) <= / 1000000 -> Rabs (y - b) <= / 1000000 -> Rabs (z - c) <= / 1000000 -> a * a + b * b + c * c <= 1002 / 1000 ->
  Rabs (x * x + y * y + z * z - (a * a + b * b + c * c)) <= 36 / 10000000.
Proof.
  intros x y z a b c A B C L. pose proof (small_dot _ _ _ a b c _ A B C L) as S. apply abs_both in S.
  assert (Q : forall e, Rabs e <= / 1000000 -> 0 <= e * e <= / 1000000 * / 1000000).
  { intros e E. split; [apply Rle_0_sqr|]. replace (e * e) with (Rabs e * Rabs e) by (rewrite <- Rabs_mult; apply Rabs_pos_eq, Rle_0_sqr). apply Rmult_le_compat; try apply Rabs_pos; assumption. }
  pose proof (Q _ A) as QA. pose proof (Q _ B) as QB. pose proof (Q _ C) as QC. clear Q.
  replace (x * x + y * y + z * z - (a * a + b * b + c * c)) with (2 * ((x - a) * a + (y - b) * b + (z - c) * c) + ((x - a) * (x - a) + (y - b) * (y - b) + (z - c) * (z - c))) by ring.
  apply Rabs_le. lra.
Qed.

Lemma prod_near_one : forall p q, Rabs (p - 1) <= 11 / 1000000 -> Rabs (q - 1) <= 11 / 1000000 -> Rabs (p * q - 1) <= 221 / 10000000.
Proof.
  intros p q P Q. apply abs_both in P. apply abs_both in Q. assert (999989 / 1000000 * (999989 / 1000000) <= p * q <= 1000011 / 1000000 * (1000011 / 1000000)) by (split; apply Rmult_le_compat; lra). apply Rabs_le. lra.
Qed.

(* ----- floats ----- *)

Definition unit_11 (v : fvec) : Prop := vfin v /\ Rabs (length2 v - 1) <= 11 / 1000000.

Lemma unit_11_v : forall v, unit_11 v -> unit_v v.
Proof. intros v (F & L). split; [exact F|]. eapply Rle_trans; [exact L|lra]. Qed.

Lemma minor_near : forall a b c d, fin a -> fin b -> fin c -> fin d -> Rabs (val a) <= 1001 / 1000 -> Rabs (val b) <= 1001 / 1000 -> Rabs (val c) <= 1001 / 1000 -> Rabs (val d) <= 1001 / 1000 ->
  fin (fsub (fmul a b) (fmul c d)) /\ Rabs (val (fsub (fmul a b) (fmul c d)) - (val a * val b - val c * val d)) <= / 1000000.
Proof.
  intros a b c d FA FB FC FD A B C D. pose proof (prod_near a b FA FB A B) as P1. pose proof (prod_near c d FC FD C D) as P2. assert (L1 := proj2 (proj2 P1)). assert (L2 := proj2 (proj2 P2)).
  assert (S : near (fsub (fmul a b) (fmul c d)) (val a * val b - val c * val d) (22 / 10) 7).
  { eapply near_weaken; [apply (near_sub _ _ _ _ (11 / 10) (11 / 10) 2 2 (22 / 10) P1 P2)| |]; try lra. unfold Rminus. eapply Rle_trans; [apply Rabs_triang|]. rewrite Rabs_Ropp. lra. }
  destruct S as (F & E & _). split; [exact F|]. eapply Rle_trans; [exact E|]. unfold u24. lra.
Qed.

Lemma cross_near : forall a b, unit_11 a -> unit_11 b -> let v := fv_cross a b in vfin v /\
  Rabs (val (fx v) - (val (fy a) * val (fz b) - val (fz a) * val (fy b))) <= / 1000000 /\
  Rabs (val (fy v) - (val (fz a) * val (fx b) - val (fx a) * val (fz b))) <= / 1000000 /\
  Rabs (val (fz v) - (val (fx a) * val (fy b) - val (fy a) * val (fx b))) <= / 1000000.
Proof.
  intros a b UA UB. cbv zeta. destruct (unit_le a (unit_11_v a UA)) as ((FAX & FAY & FAZ) & _ & AX & AY & AZ). destruct (unit_le b (unit_11_v b UB)) as ((FBX & FBY & FBZ) & _ & BX & BY & BZ). unfold fv_cross. cbn [fx fy fz].
  destruct (minor_near (fy a) (fz b) (fz a) (fy b)) as (F1 & E1); try assumption. destruct (minor_near (fz a) (fx b) (fx a) (fz b)) as (F2 & E2); try assumption. destruct (minor_near (fx a) (fy b) (fy a) (fx b)) as (F3 & E3); try assumption.
  split; [split; [exact F1|split; [exact F2|exact F3]]|]. split; [exact E1|split; [exact E2|exact E3]].
Qed.

Lemma normal_unit : forall v, vfin v -> bpow radix2 (-100) <= length2 v <= bpow radix2 100 -> unit_11 (f_normalize v).
Proof. intros v F B. destruct (float_normalize v F B) as (NF & NL & _). split; [exact NF|]. eapply Rle_trans; [exact NL|lra]. Qed.

(* the axis to the left *)
Lemma left_axis : forall u d, unit_11 u -> unit_11 d -> Rabs (dotr u d) <= 9 / 10 ->
  let l := f_normalize (fv_cross u d) in unit_11 l /\ Rabs (dotr l d) <= 3 / 100000 /\ Rabs (dotr l u) <= 3 / 100000 /\
  42 / 100 <= val (fx l) * (val (fy u) * val (fz d) - val (fz u) * val (fy d)) + val (fy l) * (val (fz u) * val (fx d) - val (fx u) * val (fz d)) + val (fz l) * (val (fx u) * val (fy d) - val (fy u) * val (fx d)).
Proof.
  intros u d UU UD O. cbv zeta. destruct (cross_near u d UU UD) as (VF & E1 & E2 & E3). set (v := fv_cross u d) in *. clearbody v.
  destruct UU as (_ & LU). destruct UD as (_ & LD). pose proof (prod_near_one _ _ LD LU) as PQ.
  unfold length2, dotr in *. set (a := val (fx u)) in *. set (b := val (fy u)) in *. set (c := val (fz u)) in *. set (x := val (fx d)) in *. set (y := val (fy d)) in *. set (z := val (fz d)) in *. clearbody a b c x y z.
  pose proof (lagrange x y z a b c) as LG.
  assert (OO : 0 <= (x * a + y * b + z * c) * (x * a + y * b + z * c) <= 81 / 100).
  { split; [apply Rle_0_sqr|]. replace (81 / 100) with (9 / 10 * (9 / 10)) by field. replace (x * a + y * b + z * c) with (a * x + b * y + c * z) by ring. set (o := a * x + b * y + c * z) in *. replace (o * o) with (Rabs o * Rabs o) by (rewrite <- Rabs_mult; apply Rabs_pos_eq, Rle_0_sqr). apply Rmult_le_compat; try apply Rabs_pos; exact O. }
  set (p := b * z - c * y) in *. set (q := c * x - a * z) in *. set (r := a * y - b * x) in *.
  assert (Z1 : p * x + q * y + r * z = 0) by (unfold p, q, r; ring). assert (Z2 : p * a + q * b + r * c = 0) by (unfold p, q, r; ring).
  apply abs_both in PQ. apply abs_both in LU. apply abs_both in LD.
  assert (CC : 1899 / 10000 <= p * p + q * q + r * r <= 10001 / 10000) by (rewrite LG; lra).
  pose proof (near_length _ _ _ _ _ _ E1 E2 E3 ltac:(lra)) as NL. apply abs_both in NL.
  destruct (float_normalize v VF) as (NF & NN & NX & NY & NZ).
  { unfold length2. assert (bpow radix2 (-100) <= / 8) by (apply Rle_trans with (bpow radix2 (-3)); [apply bpow_le; lia|cbn; lra]). assert (2 <= bpow radix2 100) by (apply Rle_trans with (bpow radix2 1); [cbn; lra|apply bpow_le; lia]). lra. }
  unfold length2 in *. set (s := sqrt _) in *. assert (SS : s * s = val (fx v) * val (fx v) + val (fy v) * val (fy v) + val (fz v) * val (fz v)) by (apply sqrt_sqrt; lra). assert (S0 : 0 <= s) by apply sqrt_pos. clearbody s.
  assert (S : 43 / 100 <= s) by (apply Rnot_lt_le; intro N; assert (s * s < 43 / 100 * (43 / 100)) by (apply Rmult_le_0_lt_compat; lra); lra).
  set (l := f_normalize v) in *. clearbody l. set (vx := val (fx v)) in *. set (vy := val (fy v)) in *. set (vz := val (fz v)) in *. clearbody vx vy vz p q r.
  split; [split; [exact NF|unfold length2; eapply Rle_trans; [exact NN|lra]]|].
  split; [apply (stays_orthogonal vx vy vz p q r _ _ _ x y z s); try assumption; lra|]. split; [apply (stays_orthogonal vx vy vz p q r _ _ _ a b c s); try assumption; lra|].
  apply abs_both in NN. apply (stays_forward vx vy vz p q r _ _ _ s); try assumption; lra.
Qed.

(* the axis up: the product of two orthogonal axes *)
Lemma up_axis : forall d l, unit_11 d -> unit_11 l -> Rabs (dotr l d) <= 3 / 100000 ->
  let n := fv_cross d l in vfin n /\ Rabs (length2 n - 1) <= 3 / 100000 /\ Rabs (dotr n d) <= 2 / 1000000 /\ Rabs (dotr n l) <= 2 / 1000000.
Proof.
  intros d l UD UL O. cbv zeta. destruct (cross_near d l UD UL) as (VF & E1 & E2 & E3). set (v := fv_cross d l) in *. clearbody v.
  destruct UL as (_ & LU). destruct UD as (_ & LD). pose proof (prod_near_one _ _ LU LD) as PQ.
  unfold length2, dotr in *. set (a := val (fx d)) in *. set (b := val (fy d)) in *. set (c := val (fz d)) in *. set (x := val (fx l)) in *. set (y := val (fy l)) in *. set (z := val (fz l)) in *. clearbody a b c x y z.
  pose proof (lagrange x y z a b c) as LG.
  assert (OO : 0 <= (x * a + y * b + z * c) * (x * a + y * b + z * c) <= / 100000000).
  { split; [apply Rle_0_sqr|]. apply Rle_trans with (3 / 100000 * (3 / 100000)); [|lra]. set (o := x * a + y * b + z * c) in *. replace (o * o) with (Rabs o * Rabs o) by (rewrite <- Rabs_mult; apply Rabs_pos_eq, Rle_0_sqr). apply Rmult_le_compat; try apply Rabs_pos; exact O. }
  set (p := b * z - c * y) in *. set (q := c * x - a * z) in *. set (r := a * y - b * x) in *.
  assert (Z1 : p * x + q * y + r * z = 0) by (unfold p, q, r; ring). assert (Z2 : p * a + q * b + r * c = 0) by (unfold p, q, r; ring).
  apply abs_both in PQ. apply abs_both in LU. apply abs_both in LD.
  pose proof (near_length _ _ _ _ _ _ E1 E2 E3 ltac:(lra)) as NL. apply abs_both in NL.
  split; [exact VF|]. split; [apply Rabs_le; lra|].
  set (vx := val (fx v)) in *. set (vy := val (fy v)) in *. set (vz := val (fz v)) in *. clearbody vx vy vz p q r.
  split; [replace (vx * a + vy * b + vz * c) with ((vx - p) * a + (vy - q) * b + (vz - r) * c + (p * a + q * b + r * c)) by ring; rewrite Z2|replace (vx * x + vy * y + vz * z) with ((vx - p) * x + (vy - q) * y + (vz - r) * z + (p * x + q * y + r * z)) by ring; rewrite Z1];
    rewrite Rplus_0_r; (eapply Rle_trans; [apply (small_dot _ _ _ _ _ _ (/ 1000000)); try eassumption; lra|lra]).
Qed.

(* the cosine of two vectors and of what normalising gives *)
Lemma cosine_near : forall ux uy uz dx dy dz ax ay az bx by_ bz su sd,
  0 < su -> 0 < sd -> su * su = ux * ux + uy * uy + uz * uz -> sd * sd = dx * dx + dy * dy + dz * dz ->
  Rabs (ax - ux / su) <= 1e-5 -> Rabs (ay - uy / su) <= 1e-5 -> Rabs (az - uz / su) <= 1e-5 ->
  Rabs (bx - dx / sd) <= 1e-5 -> Rabs (by_ - dy / sd) <= 1e-5 -> Rabs (bz - dz / sd) <= 1e-5 -> ax * ax + ay * ay + az * az <= 1002 / 1000 ->
  (ux * dx + uy * dy + uz * dz) * (ux * dx + uy * dy + uz * dz) <= 8 / 10 * ((ux * ux + uy * uy + uz * uz) * (dx * dx + dy * dy + dz * dz)) ->
  Rabs (ax * bx + ay * by_ + az * bz) <= 9 / 10.
Proof.
  intros ux uy uz dx dy dz ax ay az bx by_ bz su sd SU SD EU ED AX AY AZ BX BY BZ LA O.
  assert (L : (dx / sd) * (dx / sd) + (dy / sd) * (dy / sd) + (dz / sd) * (dz / sd) <= 1002 / 1000).
  { replace ((dx / sd) * (dx / sd) + (dy / sd) * (dy / sd) + (dz / sd) * (dz / sd)) with ((dx * dx + dy * dy + dz * dz) / (sd * sd)) by (field; lra). rewrite <- ED. unfold Rdiv. rewrite Rinv_r; [lra|]. apply Rgt_not_eq, Rmult_lt_0_compat; lra. }
  pose proof (small_dot _ _ _ _ _ _ _ AX AY AZ L) as A. pose proof (small_dot _ _ _ _ _ _ _ BX BY BZ LA) as B.
  set (k := (ux * dx + uy * dy + uz * dz) / (su * sd)).
  assert (K : Rabs k <= 895 / 1000).
  { assert (KK : k * k <= 8 / 10).
    { unfold k. replace ((ux * dx + uy * dy + uz * dz) / (su * sd) * ((ux * dx + uy * dy + uz * dz) / (su * sd))) with ((ux * dx + uy * dy + uz * dz) * (ux * dx + uy * dy + uz * dz) / ((su * su) * (sd * sd))) by (field; lra). rewrite <- EU, <- ED in O.
      assert (P : 0 < su * su * (sd * sd)) by (repeat apply Rmult_lt_0_compat; assumption). apply Rmult_le_reg_r with (1 := P). unfold Rdiv. rewrite Rmult_assoc, Rinv_l by lra. lra. }
    apply Rabs_le. split; apply Rnot_lt_le; intro N; nra. }
  replace (ax * bx + ay * by_ + az * bz) with (((ax - ux / su) * (dx / sd) + (ay - uy / su) * (dy / sd) + (az - uz / su) * (dz / sd)) + ((bx - dx / sd) * ax + (by_ - dy / sd) * ay + (bz - dz / sd) * az) + k) by (unfold k; field; lra).
  apply abs_both in A. apply abs_both in B. apply abs_both in K. apply Rabs_le. lra.
Qed.

(* ----- the frame ----- *)

(* the axes of the camera in the world: the columns of the matrix *)
Definition axis_left (m : fmat) : fvec := mk_fvec (q0 (m_x m)) (q0 (m_y m)) (q0 (m_z m)).
Definition axis_up (m : fmat) : fvec := mk_fvec (q1 (m_x m)) (q1 (m_y m)) (q1 (m_z m)).
Definition axis_forward (m : fmat) : fvec := mk_fvec (q2 (m_x m)) (q2 (m_y m)) (q2 (m_z m)).

Lemma axes : forall l n d p, axis_left (f_columns l n d p) = l /\ axis_up (f_columns l n d p) = n /\ axis_forward (f_columns l n d p) = d.
Proof. intros [] [] [] p. split; [reflexivity|split; reflexivity]. Qed.

(* a vector whose length can be computed *)
Definition measurable (v : fvec) : Prop := vfin v /\ bpow radix2 (-100) <= length2 v <= bpow radix2 100.
(* two vectors whose cosine is, in absolute value, at most the square root of 0.8: 26.6 degrees apart *)
Definition apart (u d : fvec) : Prop := dotr u d * dotr u d <= 8 / 10 * (length2 u * length2 d).

(* the up axis and the normalised up vector *)
Lemma upright : forall U D L N up, Rabs (length2 U - 1) <= 11 / 1000000 ->
  Rabs (val (fx N) - (val (fy D) * val (fz L) - val (fz D) * val (fy L))) <= / 1000000 ->
  Rabs (val (fy N) - (val (fz D) * val (fx L) - val (fx D) * val (fz L))) <= / 1000000 ->
  Rabs (val (fz N) - (val (fx D) * val (fy L) - val (fy D) * val (fx L))) <= / 1000000 ->
  42 / 100 <= val (fx L) * (val (fy U) * val (fz D) - val (fz U) * val (fy D)) + val (fy L) * (val (fz U) * val (fx D) - val (fx U) * val (fz D)) + val (fz L) * (val (fx U) * val (fy D) - val (fy U) * val (fx D)) ->
  Rabs (length2 N - 1) <= 3 / 100000 -> 0 < sqrt (length2 up) ->
  Rabs (val (fx U) - val (fx up) / sqrt (length2 up)) <= 1e-5 -> Rabs (val (fy U) - val (fy up) / sqrt (length2 up)) <= 1e-5 -> Rabs (val (fz U) - val (fz up) / sqrt (length2 up)) <= 1e-5 ->
  0 < dotr N up.
Proof.
  intros U D L N up LUU E1 E2 E3 FW NL PU UX UY UZ. unfold dotr. set (su := sqrt (length2 up)) in *. clearbody su. unfold length2 in *. apply abs_both in LUU.
  set (ux := val (fx U)) in *. set (uy := val (fy U)) in *. set (uz := val (fz U)) in *. set (dx := val (fx D)) in *. set (dy := val (fy D)) in *. set (dz := val (fz D)) in *. set (lx := val (fx L)) in *. set (ly := val (fy L)) in *. set (lz := val (fz L)) in *.
  set (nx := val (fx N)) in *. set (ny := val (fy N)) in *. set (nz := val (fz N)) in *. set (px := val (fx up)) in *. set (py := val (fy up)) in *. set (pz := val (fz up)) in *. clearbody ux uy uz dx dy dz lx ly lz nx ny nz px py pz.
  pose proof (small_dot _ _ _ ux uy uz _ E1 E2 E3 ltac:(lra)) as S. apply abs_both in S. clear E1 E2 E3.
  replace ((nx - (dy * lz - dz * ly)) * ux + (ny - (dz * lx - dx * lz)) * uy + (nz - (dx * ly - dy * lx)) * uz) with ((nx * ux + ny * uy + nz * uz) - (lx * (uy * dz - uz * dy) + ly * (uz * dx - ux * dz) + lz * (ux * dy - uy * dx))) in S by ring.
  set (t := lx * _ + _ + _) in *. clearbody t. clear LUU.
  apply abs_both in NL. pose proof (small_dot _ _ _ nx ny nz _ UX UY UZ ltac:(lra)) as T. apply abs_both in T. clear UX UY UZ NL.
  replace ((ux - px / su) * nx + (uy - py / su) * ny + (uz - pz / su) * nz) with ((nx * ux + ny * uy + nz * uz) - (nx * px + ny * py + nz * pz) / su) in T by (field; lra).
  set (o := nx * ux + _ + _) in *. set (w := nx * px + _ + _) in *. clearbody o w.
  assert (G : 40 / 100 <= w / su) by lra. replace w with (w / su * su) by (field; lra). apply Rmult_lt_0_compat; lra.
Qed.

(* For the rounded difference of target and position neither tiny nor huge, and an up vector at least
   27 degrees away from it or its opposite: all entries are finite, the axes have length 1 up to 3e-5 in
   the square and cosines up to 3e-5, forward is the direction towards the target up to 1e-5 in each
   coordinate, and the up axis makes an acute angle with the up vector. *)
Theorem float_camera_frame : forall pos eye up, measurable (fv_sub eye pos) -> measurable up -> apart up (fv_sub eye pos) ->
  let m := f_look_at pos eye up in let d := fv_sub eye pos in let s := sqrt (length2 d) in
  let l := axis_left m in let n := axis_up m in let f := axis_forward m in
  vfin l /\ vfin n /\ vfin f /\
  Rabs (length2 l - 1) <= 3 / 100000 /\ Rabs (length2 n - 1) <= 3 / 100000 /\ Rabs (length2 f - 1) <= 3 / 100000 /\
  Rabs (dotr l n) <= 3 / 100000 /\ Rabs (dotr n f) <= 3 / 100000 /\ Rabs (dotr l f) <= 3 / 100000 /\
  Rabs (val (fx f) - val (fx d) / s) <= 1e-5 /\ Rabs (val (fy f) - val (fy d) / s) <= 1e-5 /\ Rabs (val (fz f) - val (fz d) / s) <= 1e-5 /\
  0 < dotr n up.
Proof.
  intros pos eye up (DF & DB) (UF & UB) AP. cbv zeta. unfold f_look_at. set (d := fv_sub eye pos) in *. clearbody d. cbv zeta.
  match goal with |- context [f_columns ?l ?n ?f ?p] => destruct (axes l n f p) as (A1 & A2 & A3) end. rewrite A1, A2, A3. clear A1 A2 A3.
  pose proof (normal_unit d DF DB) as UD. pose proof (normal_unit up UF UB) as UU.
  destruct (float_normalize d DF DB) as (_ & _ & DX & DY & DZ). destruct (float_normalize up UF UB) as (_ & _ & UX & UY & UZ).
  set (D := f_normalize d) in *. set (U := f_normalize up) in *. clearbody D U.
  assert (SD : 0 < length2 d) by (apply Rlt_le_trans with (2 := proj1 DB), bpow_gt_0). assert (SU : 0 < length2 up) by (apply Rlt_le_trans with (2 := proj1 UB), bpow_gt_0).
  pose proof (sqrt_lt_R0 _ SD) as PD. pose proof (sqrt_lt_R0 _ SU) as PU. pose proof (sqrt_sqrt _ (Rlt_le _ _ SD)) as QD. pose proof (sqrt_sqrt _ (Rlt_le _ _ SU)) as QU.
  assert (C : Rabs (dotr U D) <= 9 / 10).
  { unfold dotr. destruct UU as (_ & LU). apply abs_both in LU. unfold length2 in LU. unfold apart, dotr in AP. unfold length2 in AP, QD, QU.
    apply (cosine_near _ _ _ _ _ _ _ _ _ _ _ _ _ _ PU PD QU QD UX UY UZ DX DY DZ); [lra|exact AP]. }
  destruct (left_axis U D UU UD C) as (UL & LD & LU & FW). set (L := f_normalize (fv_cross U D)) in *. clearbody L.
  destruct (up_axis D L UD UL LD) as (NF & NL & ND & NLL). destruct (cross_near D L UD UL) as (_ & E1 & E2 & E3). set (N := fv_cross D L) in *. clearbody N.
  split; [exact (proj1 UL)|]. split; [exact NF|]. split; [exact (proj1 UD)|].
  split; [eapply Rle_trans; [exact (proj2 UL)|lra]|]. split; [exact NL|]. split; [eapply Rle_trans; [exact (proj2 UD)|lra]|].
  split; [rewrite dot_flip; eapply Rle_trans; [exact NLL|lra]|]. split; [eapply Rle_trans; [exact ND|lra]|]. split; [exact LD|].
  split; [exact DX|]. split; [exact DY|]. split; [exact DZ|].
  exact (upright U D L N up (proj2 UU) E1 E2 E3 FW NL PU UX UY UZ).
Qed.

(* The matrix holds the position in its last column and (0, 0, 0, 1) in its last row, so the rays of a
   perspective camera with a finite frame start exactly at the position (coordinates up to 2^127). *)
Theorem float_camera_origin : forall pos eye up p, let m := f_look_at pos eye up in
  vfin pos -> Rabs (val (fx pos)) <= bpow radix2 127 -> Rabs (val (fy pos)) <= bpow radix2 127 -> Rabs (val (fz pos)) <= bpow radix2 127 -> vfin (axis_left m) -> vfin (axis_up m) -> vfin (axis_forward m) ->
  let o := fr_o (f_persp_ray m p) in vfin o /\ val (fx o) = val (fx pos) /\ val (fy o) = val (fy pos) /\ val (fz o) = val (fz pos).
Proof.
  intros pos eye up p. cbv zeta. unfold f_look_at. cbv zeta. match goal with |- context [f_columns ?l ?n ?f ?p] => destruct (axes l n f p) as (A1 & A2 & A3); rewrite A1, A2, A3; clear A1 A2 A3; generalize l n f end.
  intros l n f (PX & PY & PZ) BX BY BZ (LX & LY & LZ) (NX & NY & NZ) (FX & FY & FZ). unfold f_persp_ray. cbn [fr_o].
  assert (Z : forall x, fin x -> fin (fmul x fzero) /\ val (fmul x fzero) = 0).
  { intros x F. destruct fzero_val as (FZ0 & VZ). destruct (fmul_val x fzero F FZ0) as (A & E); [rewrite VZ, Rmult_0_r, Rabs_R0; apply bpow_ge_0|]. split; [exact A|]. rewrite E, VZ, Rmult_0_r. apply rnd_0. }
  assert (AD : forall x y, fin x -> fin y -> val x = 0 -> Rabs (val y) <= bpow radix2 127 -> fin (fadd x y) /\ val (fadd x y) = val y).
  { intros x y F G X B. destruct (fadd_val x y F G) as (A & E); [rewrite X, Rplus_0_l; exact B|]. split; [exact A|]. rewrite E, X, Rplus_0_l. apply rnd_fits, fits_val. }
  assert (S0 : forall x, val x = 0 -> Rabs (val x) <= bpow radix2 127) by (intros x E; rewrite E, Rabs_R0; apply bpow_ge_0).
  assert (R : forall a b c q, fin a -> fin b -> fin c -> fin q -> Rabs (val q) <= bpow radix2 127 -> fin (f_rowpoint (mk_frow a b c q) (mk_fvec fzero fzero fzero)) /\ val (f_rowpoint (mk_frow a b c q) (mk_fvec fzero fzero fzero)) = val q).
  { intros a b c q A B C Q QB. unfold f_rowpoint. cbn [q0 q1 q2 q3 fx fy fz]. destruct (Z a A) as (A1 & A2). destruct (Z b B) as (B1 & B2). destruct (Z c C) as (C1 & C2).
    destruct (AD _ _ A1 B1 A2 (S0 _ B2)) as (D1 & D2). rewrite B2 in D2. destruct (AD _ _ D1 C1 D2 (S0 _ C2)) as (G1 & G2). rewrite C2 in G2. exact (AD _ _ G1 Q G2 QB). }
  unfold f_point, f_columns. cbn [m_x m_y m_z m_w].
  destruct fzero_val as (FZ0 & _). destruct fone_val as (FO & VO). destruct (R fzero fzero fzero fone FZ0 FZ0 FZ0 FO) as (W1 & W2); [rewrite VO, Rabs_R1; apply (bpow_le radix2 0 127); lia|].
  rewrite (proj2 (eqb_val _ _ W1 FO)); [|exact W2]. cbn [fx fy fz].
  destruct (R _ _ _ _ LX NX FX PX BX) as (A1 & A2). destruct (R _ _ _ _ LY NY FY PY BY) as (B1 & B2). destruct (R _ _ _ _ LZ NZ FZ PZ BZ) as (C1 & C2).
  split; [split; [exact A1|split; [exact B1|exact C1]]|]. split; [exact A2|split; [exact B2|exact C2]].
Qed.

(* ----- directions ----- *)

(* the length of a combination of the axes *)
Lemma frame_length : forall sx sy sz tx ty tz nx ny nz vx vy vz, let e := 3 / 100000 in
  Rabs (sx * sx + sy * sy + sz * sz - 1) <= e -> Rabs (tx * tx + ty * ty + tz * tz - 1) <= e -> Rabs (nx * nx + ny * ny + nz * nz - 1) <= e -> Rabs (vx * vx + vy * vy + vz * vz - 1) <= 11 / 1000000 ->
  Rabs (sx * tx + sy * ty + sz * tz) <= e -> Rabs (tx * nx + ty * ny + tz * nz) <= e -> Rabs (sx * nx + sy * ny + sz * nz) <= e ->
  let wx := sx * vx + tx * vy + nx * vz in let wy := sy * vx + ty * vy + ny * vz in let wz := sz * vx + tz * vy + nz * vz in
  Rabs (wx * wx + wy * wy + wz * wz - 1) <= 102 / 1000000.
Proof.
  intros sx sy sz tx ty tz nx ny nz vx vy vz e LS LT LN LV TS TN O. cbv zeta. unfold e in *. clear e.
  replace ((sx * vx + tx * vy + nx * vz) * (sx * vx + tx * vy + nx * vz) + (sy * vx + ty * vy + ny * vz) * (sy * vx + ty * vy + ny * vz) + (sz * vx + tz * vy + nz * vz) * (sz * vx + tz * vy + nz * vz) - 1) with
    ((vx * vx + vy * vy + vz * vz - 1) + ((sx * sx + sy * sy + sz * sz - 1) * (vx * vx) + (tx * tx + ty * ty + tz * tz - 1) * (vy * vy) + (nx * nx + ny * ny + nz * nz - 1) * (vz * vz))
        + 2 * ((sx * tx + sy * ty + sz * tz) * (vx * vy) + (tx * nx + ty * ny + tz * nz) * (vy * vz) + (sx * nx + sy * ny + sz * nz) * (vx * vz))) by ring.
  generalize dependent (sx * sx + sy * sy + sz * sz - 1). intros gs LS. generalize dependent (tx * tx + ty * ty + tz * tz - 1). intros gt LT. generalize dependent (nx * nx + ny * ny + nz * nz - 1). intros gn LN.
  generalize dependent (sx * tx + sy * ty + sz * tz). intros ts TS. generalize dependent (tx * nx + ty * ny + tz * nz). intros tn TN. generalize dependent (sx * nx + sy * ny + sz * nz). intros sn O. clear sx sy sz tx ty tz nx ny nz.
  apply abs_both in LS. apply abs_both in LT. apply abs_both in LN. apply abs_both in LV. apply abs_both in TS. apply abs_both in TN. apply abs_both in O.
  assert (B : forall g a e, - e <= g <= e -> 0 <= a -> - (e * a) <= g * a <= e * a).
  { intros g a e G A. split; [rewrite Ropp_mult_distr_l|]; apply Rmult_le_compat_r; lra. }
  assert (C : forall g a b e, - e <= g <= e -> 0 <= e -> - (e * ((a * a + b * b) / 2)) <= g * (a * b) <= e * ((a * a + b * b) / 2)).
  { intros g a b e G E. pose proof (Rle_0_sqr (a - b)) as S1. pose proof (Rle_0_sqr (a + b)) as S2. unfold Rsqr in *. assert (AB : Rabs (a * b) <= (a * a + b * b) / 2) by (apply Rabs_le; lra).
    apply abs_both. rewrite Rabs_mult. apply Rmult_le_compat; try apply Rabs_pos; [apply Rabs_le; lra|exact AB]. }
  pose proof (Rle_0_sqr vx) as X2. pose proof (Rle_0_sqr vy) as Y2. pose proof (Rle_0_sqr vz) as Z2. unfold Rsqr in *.
  pose proof (B gs _ _ LS X2) as B1. pose proof (B gt _ _ LT Y2) as B2. pose proof (B gn _ _ LN Z2) as B3.
  pose proof (C ts vx vy _ TS ltac:(lra)) as C1. pose proof (C tn vy vz _ TN ltac:(lra)) as C2. pose proof (C sn vx vz _ O ltac:(lra)) as C3. clear B C.
  apply Rabs_le. lra.
Qed.

(* the coordinate of such a combination along the first axis *)
Lemma frame_back : forall sx sy sz tx ty tz nx ny nz vx vy vz wx wy wz p, let e := 3 / 100000 in
  Rabs (sx * sx + sy * sy + sz * sz - 1) <= e -> Rabs (sx * tx + sy * ty + sz * tz) <= e -> Rabs (sx * nx + sy * ny + sz * nz) <= e ->
  Rabs vx <= 1001 / 1000 -> Rabs vy <= 1001 / 1000 -> Rabs vz <= 1001 / 1000 ->
  Rabs (wx - (sx * vx + tx * vy + nx * vz)) <= / 1000000 -> Rabs (wy - (sy * vx + ty * vy + ny * vz)) <= / 1000000 -> Rabs (wz - (sz * vx + tz * vy + nz * vz)) <= / 1000000 -> Rabs (vx - p) <= 1e-5 ->
  Rabs (wx * sx + wy * sy + wz * sz - p) <= 11 / 100000.
Proof.
  intros sx sy sz tx ty tz nx ny nz vx vy vz wx wy wz p e LS TS O X Y Z A B C P. unfold e in *. clear e.
  assert (L : sx * sx + sy * sy + sz * sz <= 1002 / 1000) by (apply abs_both in LS; lra). pose proof (small_dot _ _ _ sx sy sz _ A B C L) as D. clear A B C L.
  replace (wx * sx + wy * sy + wz * sz - p) with (((wx - (sx * vx + tx * vy + nx * vz)) * sx + (wy - (sy * vx + ty * vy + ny * vz)) * sy + (wz - (sz * vx + tz * vy + nz * vz)) * sz) + (sx * sx + sy * sy + sz * sz - 1) * vx + (sx * tx + sy * ty + sz * tz) * vy + (sx * nx + sy * ny + sz * nz) * vz + (vx - p)) by ring.
  assert (M : forall a b, Rabs a <= 3 / 100000 -> Rabs b <= 1001 / 1000 -> Rabs (a * b) <= 3 / 100000 * (1001 / 1000)) by (intros a b Ha Hb; rewrite Rabs_mult; apply Rmult_le_compat; try apply Rabs_pos; assumption).
  pose proof (M _ _ LS X) as M1. pose proof (M _ _ TS Y) as M2. pose proof (M _ _ O Z) as M3. clear M. apply abs_both in M1. apply abs_both in M2. apply abs_both in M3. apply abs_both in D. apply abs_both in P. apply Rabs_le. lra.
Qed.

Lemma image_near : forall m v, vfin (axis_left m) -> vfin (axis_up m) -> vfin (axis_forward m) ->
  Rabs (length2 (axis_left m) - 1) <= 3 / 100000 -> Rabs (length2 (axis_up m) - 1) <= 3 / 100000 -> Rabs (length2 (axis_forward m) - 1) <= 3 / 100000 -> unit_11 v ->
  let w := f_vec m v in vfin w /\
  Rabs (val (fx w) - (val (q0 (m_x m)) * val (fx v) + val (q1 (m_x m)) * val (fy v) + val (q2 (m_x m)) * val (fz v))) <= / 1000000 /\
  Rabs (val (fy w) - (val (q0 (m_y m)) * val (fx v) + val (q1 (m_y m)) * val (fy v) + val (q2 (m_y m)) * val (fz v))) <= / 1000000 /\
  Rabs (val (fz w) - (val (q0 (m_z m)) * val (fx v) + val (q1 (m_z m)) * val (fy v) + val (q2 (m_z m)) * val (fz v))) <= / 1000000.
Proof.
  intros [[a b c p] [d e f q] [g h i r] o] v LF NF FF LL LN LFF UV. destruct (unit_le v (unit_11_v v UV)) as ((FVX & FVY & FVZ) & _ & VX & VY & VZ). clear UV. destruct v as [x y z].
  assert (CB : forall t, vfin t -> Rabs (length2 t - 1) <= 3 / 100000 -> Rabs (val (fx t)) <= 1001 / 1000 /\ Rabs (val (fy t)) <= 1001 / 1000 /\ Rabs (val (fz t)) <= 1001 / 1000) by (intros t F L; apply unit_comp; [exact F|apply abs_both in L; lra]).
  destruct (CB _ LF LL) as (SX & SY & SZ). destruct (CB _ NF LN) as (TX & TY & TZ). destruct (CB _ FF LFF) as (NX & NY & NZ). clear CB LL LN LFF.
  destruct LF as (FSX & FSY & FSZ). destruct NF as (FTX & FTY & FTZ). destruct FF as (FNX & FNY & FNZ).
  unfold axis_left, axis_up, axis_forward in *. cbn [m_x m_y m_z q0 q1 q2 fx fy fz] in *.
  assert (R : forall k l n, fin k -> fin l -> fin n -> Rabs (val k) <= 1001 / 1000 -> Rabs (val l) <= 1001 / 1000 -> Rabs (val n) <= 1001 / 1000 ->
            forall w, w = fadd (fadd (fmul k x) (fmul l y)) (fmul n z) -> fin w /\ Rabs (val w - (val k * val x + val l * val y + val n * val z)) <= / 1000000).
  { intros k l n A B C D E F w W. subst w. destruct (dot3_near k l n x y z) as (G & H & _); try assumption. split; [exact G|]. eapply Rle_trans; [exact H|]. unfold u24. lra. }
  destruct (R a b c FSX FTX FNX SX TX NX (fx (f_vec (mk_fmat (mk_frow a b c p) (mk_frow d e f q) (mk_frow g h i r) o) (mk_fvec x y z))) eq_refl) as (W1 & E1).
  destruct (R d e f FSY FTY FNY SY TY NY (fy (f_vec (mk_fmat (mk_frow a b c p) (mk_frow d e f q) (mk_frow g h i r) o) (mk_fvec x y z))) eq_refl) as (W2 & E2).
  destruct (R g h i FSZ FTZ FNZ SZ TZ NZ (fz (f_vec (mk_fmat (mk_frow a b c p) (mk_frow d e f q) (mk_frow g h i r) o) (mk_fvec x y z))) eq_refl) as (W3 & E3).
  cbv zeta. split; [split; [exact W1|split; [exact W2|exact W3]]|]. split; [exact E1|split; [exact E2|exact E3]].
Qed.

Lemma image_frame : forall m v p s, let l := axis_left m in let n := axis_up m in let f := axis_forward m in
  vfin l -> vfin n -> vfin f -> Rabs (length2 l - 1) <= 3 / 100000 -> Rabs (length2 n - 1) <= 3 / 100000 -> Rabs (length2 f - 1) <= 3 / 100000 ->
  Rabs (dotr l n) <= 3 / 100000 -> Rabs (dotr n f) <= 3 / 100000 -> Rabs (dotr l f) <= 3 / 100000 -> unit_11 v ->
  Rabs (val (fx v) - val (fx p) / s) <= 1e-5 -> Rabs (val (fy v) - val (fy p) / s) <= 1e-5 -> Rabs (val (fz v) - val (fz p) / s) <= 1e-5 ->
  let w := f_vec m v in vfin w /\ Rabs (length2 w - 1) <= 11 / 100000 /\
  Rabs (dotr w l - val (fx p) / s) <= 11 / 100000 /\ Rabs (dotr w n - val (fy p) / s) <= 11 / 100000 /\ Rabs (dotr w f - val (fz p) / s) <= 11 / 100000.
Proof.
  intros m v p s. cbv zeta. intros LF NF FF LL LN LFF OLN ONF OLF UP PX PY PZ.
  destruct (image_near m v LF NF FF LL LN LFF UP) as (WF & E1 & E2 & E3). set (w := f_vec m v) in *. clearbody w. split; [exact WF|].
  destruct (unit_le v (unit_11_v v UP)) as (_ & _ & VX & VY & VZ). destruct UP as (_ & LV). unfold axis_left, axis_up, axis_forward, dotr, length2 in *. cbn [fx fy fz] in *.
  set (wx := val (fx w)) in *. set (wy := val (fy w)) in *. set (wz := val (fz w)) in *. clearbody wx wy wz.
  split; [|split; [|split]].
  - pose proof (frame_length _ _ _ _ _ _ _ _ _ _ _ _ LL LN LFF LV OLN ONF OLF) as G. cbv zeta in G.
    assert (LB : forall a b c, Rabs (a * a + b * b + c * c - 1) <= 102 / 1000000 -> a * a + b * b + c * c <= 1002 / 1000) by (intros a b c H; apply abs_both in H; lra).
    pose proof (near_length _ _ _ _ _ _ E1 E2 E3 (LB _ _ _ G)) as N. apply abs_both in N. apply abs_both in G. apply Rabs_le. lra.
  - apply (frame_back _ _ _ _ _ _ _ _ _ _ _ _ wx wy wz (val (fx p) / s) LL OLN OLF VX VY VZ); assumption.
  - apply (frame_back _ _ _ (val (q0 (m_x m))) (val (q0 (m_y m))) (val (q0 (m_z m))) (val (q2 (m_x m))) (val (q2 (m_y m))) (val (q2 (m_z m))) (val (fy v)) (val (fx v)) (val (fz v)) wx wy wz (val (fy p) / s) LN); try assumption;
      try (match goal with |- Rabs (?w - (?a + ?b + ?c)) <= _ => replace (w - (a + b + c)) with (w - (b + a + c)) by ring; assumption end).
    eapply Rle_trans; [|exact OLN]. right. f_equal. ring.
  - apply (frame_back _ _ _ (val (q1 (m_x m))) (val (q1 (m_y m))) (val (q1 (m_z m))) (val (q0 (m_x m))) (val (q0 (m_y m))) (val (q0 (m_z m))) (val (fz v)) (val (fy v)) (val (fx v)) wx wy wz (val (fz p) / s) LFF); try assumption;
      try (match goal with |- Rabs (?w - (?a + ?b + ?c)) <= _ => replace (w - (a + b + c)) with (w - (c + b + a)) by ring; assumption end).
    + eapply Rle_trans; [|exact ONF]. right. f_equal. ring.
    + eapply Rle_trans; [|exact OLF]. right. f_equal. ring.
Qed.

(* Under the same conditions a ray through the point p of the camera space, p neither tiny nor huge, has a
   direction of length 1 up to 1.1e-4 in the square, which the renderer does not normalise again, and its
   coordinates along the axes of the camera are those of the unit vector towards p up to 1.1e-4. *)
Theorem float_camera_direction : forall pos eye up p, measurable (fv_sub eye pos) -> measurable up -> apart up (fv_sub eye pos) -> measurable p ->
  let m := f_look_at pos eye up in let w := fr_d (f_persp_ray m p) in let s := sqrt (length2 p) in
  vfin w /\ Rabs (length2 w - 1) <= 11 / 100000 /\
  Rabs (dotr w (axis_left m) - val (fx p) / s) <= 11 / 100000 /\ Rabs (dotr w (axis_up m) - val (fy p) / s) <= 11 / 100000 /\ Rabs (dotr w (axis_forward m) - val (fz p) / s) <= 11 / 100000.
Proof.
  intros pos eye up p MD MU AP (PF & PB). cbv zeta. destruct (float_camera_frame pos eye up MD MU AP) as (LF & NF & FF & LL & LN & LFF & OLN & ONF & OLF & _).
  destruct (float_normalize p PF PB) as (_ & _ & PX & PY & PZ). pose proof (normal_unit p PF PB) as UP.
  exact (image_frame _ _ p _ LF NF FF LL LN LFF OLN ONF OLF UP PX PY PZ).
Qed.

(* ----- an up vector along the view ----- *)

Lemma self_minor : forall a b, fin a -> fin b -> Rabs (val a) <= 1001 / 1000 -> Rabs (val b) <= 1001 / 1000 -> exists s, fsub (fmul a b) (fmul b a) = B754_zero s.
Proof.
  intros a b FA FB A B. assert (M : forall x y, fin x -> fin y -> Rabs (val x) <= 1001 / 1000 -> Rabs (val y) <= 1001 / 1000 -> fin (fmul x y) /\ val (fmul x y) = rnd (val x * val y)).
  { intros x y FX FY X Y. apply fmul_val; try assumption. rewrite Rabs_mult. apply Rle_trans with (1001 / 1000 * (1001 / 1000)); [apply Rmult_le_compat; try apply Rabs_pos; assumption|].
    apply Rle_trans with (bpow radix2 1); [cbn; lra|apply bpow_le; lia]. }
  destruct (M a b FA FB A B) as (F1 & V1). destruct (M b a FB FA B A) as (F2 & V2). clear M. rewrite (Rmult_comm (val b)) in V2.
  destruct (fsub_val _ _ F1 F2) as (F & V); [rewrite V1, V2; unfold Rminus; rewrite Rplus_opp_r, Rabs_R0; apply bpow_ge_0|].
  rewrite V1, V2 in V. unfold Rminus in V. rewrite Rplus_opp_r, rnd_0 in V. set (z := fsub _ _) in *. clearbody z. clear - F V.
  destruct z as [s| | |s m e H]; [exists s; reflexivity|discriminate F|discriminate F|]. exfalso. unfold val in V. cbn in V. apply eq_0_F2R in V. destruct s; discriminate V.
Qed.

Lemma normal_zero : forall r s t, B2SF (fx (f_normalize (mk_fvec (B754_zero r) (B754_zero s) (B754_zero t)))) = SpecFloat.S754_nan.
Proof. intros [] [] []; vm_compute; reflexivity. Qed.

(* With the up vector equal to the difference of target and position, the axes are not numbers: every ray
   of a camera that looks along its own up vector is lost (a debug build prints a message and keeps zero axes). *)
Theorem float_camera_parallel_refuted : forall pos eye up, measurable (fv_sub eye pos) -> up = fv_sub eye pos ->
  B2SF (fx (axis_left (f_look_at pos eye up))) = SpecFloat.S754_nan.
Proof.
  intros pos eye up (DF & DB) E. unfold f_look_at. rewrite E. cbv zeta. match goal with |- context [f_columns ?l ?n ?f ?p] => rewrite (proj1 (axes l n f p)) end.
  destruct (unit_le _ (unit_11_v _ (normal_unit _ DF DB))) as ((FX & FY & FZ) & _ & BX & BY & BZ). set (D := f_normalize (fv_sub eye pos)) in *. clearbody D.
  unfold fv_cross. destruct (self_minor (fy D) (fz D) FY FZ BY BZ) as (r & R). destruct (self_minor (fz D) (fx D) FZ FX BZ BX) as (s & S). destruct (self_minor (fx D) (fy D) FX FY BX BY) as (t & T).
  rewrite R, S, T. apply normal_zero.
Qed.

(* A camera at (0, 1, -5) that looks at the origin with the up vector (0, 3, 1), not normalised *)
Definition at_ (a b c : Z) : fvec := mk_fvec (of_Z a) (of_Z b) (of_Z c).
Lemma at_val : forall a b c, (Z.abs a <= 100)%Z -> (Z.abs b <= 100)%Z -> (Z.abs c <= 100)%Z -> vfin (at_ a b c) /\ val (fx (at_ a b c)) = IZR a /\ val (fy (at_ a b c)) = IZR b /\ val (fz (at_ a b c)) = IZR c.
Proof.
  intros a b c A B C. destruct (of_Z_exact a) as (FA & VA); [lia|]. destruct (of_Z_exact b) as (FB & VB); [lia|]. destruct (of_Z_exact c) as (FC & VC); [lia|].
  split; [split; [exact FA|split; [exact FB|exact FC]]|]. split; [exact VA|split; [exact VB|exact VC]].
Qed.
Lemma at_measurable : forall a b c, (Z.abs a <= 100)%Z -> (Z.abs b <= 100)%Z -> (Z.abs c <= 100)%Z -> (1 <= a * a + b * b + c * c)%Z -> measurable (at_ a b c).
Proof.
  intros a b c A B C L. destruct (at_val a b c A B C) as (F & X & Y & Z_). split; [exact F|]. unfold length2. rewrite X, Y, Z_, <- !mult_IZR, <- !plus_IZR.
  assert (U : (a * a + b * b + c * c <= 30000)%Z) by nia. apply IZR_le in L. apply IZR_le in U.
  assert (bpow radix2 (-100) <= 1) by (apply (bpow_le radix2 (-100) 0); lia). assert (32768 <= bpow radix2 100) by (apply Rle_trans with (bpow radix2 15); [cbn; lra|apply bpow_le; lia]). lra.
Qed.
Lemma view_case : fv_sub (at_ 0 0 0) (at_ 0 1 (-5)) = at_ 0 (-1) 5.
Proof. unfold fv_sub, at_. cbn [fx fy fz]. f_equal; apply B2SF_inj; vm_compute; reflexivity. Qed.
Example camera_case : let pos := at_ 0 1 (-5) in let eye := at_ 0 0 0 in let up := at_ 0 3 1 in
  measurable (fv_sub eye pos) /\ measurable up /\ apart up (fv_sub eye pos) /\ measurable (at_ 1 (-2) 3).
Proof.
  cbv zeta. rewrite view_case. split; [apply at_measurable; cbn; lia|]. split; [apply at_measurable; cbn; lia|]. split; [|apply at_measurable; cbn; lia].
  unfold apart, dotr, length2. destruct (at_val 0 3 1) as (_ & A & B & C); [cbn; lia..|]. destruct (at_val 0 (-1) 5) as (_ & D & E & F); [cbn; lia..|]. rewrite A, B, C, D, E, F. lra.
Qed.
Example origin_case : let m := f_look_at (at_ 0 1 (-5)) (at_ 0 0 0) (at_ 0 3 1) in
  vfin (at_ 0 1 (-5)) /\ vfin (axis_left m) /\ vfin (axis_up m) /\ vfin (axis_forward m).
Proof.
  destruct camera_case as (D & U & A & _). destruct (float_camera_frame _ _ _ D U A) as (L & N & F & _). cbv zeta. split; [apply at_val; cbn; lia|]. split; [exact L|split; [exact N|exact F]].
Qed.
Example parallel_case : measurable (fv_sub (at_ 0 0 0) (at_ 0 1 (-5))) /\ at_ 0 (-1) 5 = fv_sub (at_ 0 0 0) (at_ 0 1 (-5)).
Proof. rewrite view_case. split; [apply at_measurable; cbn; lia|reflexivity]. Qed.

Print Assumptions float_camera_frame.
Print Assumptions float_camera_origin.
Print Assumptions float_camera_direction.
Print Assumptions float_camera_parallel_refuted.
