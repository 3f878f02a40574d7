(* The normals of sampled triangles in single precision are the exact ones. *)
From Coq Require Import ZArith Reals List Lra Psatz Lia Bool.
From Flocq Require Import Core.Core IEEE754.BinarySingleNaN.
From Verif Require Import Common FltModel FltFacts FltProps FExtFacts FRayModel FSphereProps FBoxMarginProps FMatBoundProps FNearFacts FltVecProps FLookProps FFaceModel.
Local Open Scope R_scope.

Lemma mult_le : forall x y X Y, Rabs x <= X -> Rabs y <= Y -> Rabs (x * y) <= X * Y.
Proof. intros. rewrite Rabs_mult. apply Rmult_le_compat; try apply Rabs_pos; assumption. Qed.

(* one coordinate of an edge *)
Lemma edge_near : forall M x y, 1 <= M <= 256 -> fin x -> fin y -> Rabs (val x) <= M -> Rabs (val y) <= M -> near (fsub x y) (val x - val y) (2 * M) (2 * M + / 2).
Proof.
  intros M x y HM FX FY X Y. eapply near_weaken; [apply (near_sub _ _ _ _ M M 0 0 (2 * M) (near_exact x M FX X) (near_exact y M FY Y))| |]; try lra.
  unfold Rminus. eapply Rle_trans; [apply Rabs_triang|]. rewrite Rabs_Ropp. lra.
Qed.

(* one coordinate of the product *)
Lemma minor_edges : forall M p q r s p0 q0 r0 s0, 1 <= M <= 256 -> near p p0 (2 * M) (2 * M + / 2) -> near q q0 (2 * M) (2 * M + / 2) -> near r r0 (2 * M) (2 * M + / 2) -> near s s0 (2 * M) (2 * M + / 2) ->
  near (fsub (fmul p q) (fmul r s)) (p0 * q0 - r0 * s0) (8 * (M * M)) (38 * (M * M)).
Proof.
  intros M p q r s p0 q0 r0 s0 HM P Q R S. assert (MM : 1 <= M * M <= 65536) by (split; [replace 1 with (1 * 1) by ring|replace 65536 with (256 * 256) by ring]; apply Rmult_le_compat; lra). assert (M1 : M <= M * M) by (rewrite <- (Rmult_1_l M) at 1; apply Rmult_le_compat_r; lra).
  assert (G : forall p q p0 q0, near p p0 (2 * M) (2 * M + / 2) -> near q q0 (2 * M) (2 * M + / 2) -> near (fmul p q) (p0 * q0) (4 * (M * M)) (12 * (M * M) + 2 * M + 3 / 4)).
  { clear - HM MM M1. intros p q p0 q0 P Q. assert (L1 := proj2 (proj2 P)). assert (L2 := proj2 (proj2 Q)). assert (AB : (2 * M + / 2) * (2 * M + / 2) = 4 * (M * M) + 2 * M + / 4) by field. assert (A2 : (2 * M + / 2) * (2 * M) = 4 * (M * M) + M) by field.
    eapply near_weaken; [apply (near_mul _ _ _ _ (2 * M) (2 * M) _ _ (4 * (M * M)) P Q)| |]; try lra. eapply Rle_trans; [apply (mult_le _ _ _ _ L1 L2)|lra]. }
  pose proof (G _ _ _ _ P Q) as N1. pose proof (G _ _ _ _ R S) as N2. assert (L1 := proj2 (proj2 N1)). assert (L2 := proj2 (proj2 N2)).
  eapply near_weaken; [apply (near_sub _ _ _ _ _ _ _ _ (8 * (M * M)) N1 N2)| |]; try lra. unfold Rminus. eapply Rle_trans; [apply Rabs_triang|]. rewrite Rabs_Ropp. lra.
Qed.

(* the lengths of two vectors differ at most by the length of the difference *)
Lemma lengths : forall x y z a b c s k d, 0 <= s -> 0 <= k -> s * s = x * x + y * y + z * z -> k * k = a * a + b * b + c * c ->
  Rabs (x - a) <= d -> Rabs (y - b) <= d -> Rabs (z - c) <= d -> Rabs (s - k) <= 2 * d.
Proof.
  intros x y z a b c s k d S K SS KK X Y Z. assert (D : 0 <= d) by (eapply Rle_trans; [apply Rabs_pos|exact X]).
  assert (C : x * a + y * b + z * c <= s * k).
  { apply Rle_trans with (Rabs (x * a + y * b + z * c)); [apply Rle_abs|]. rewrite <- (Rabs_pos_eq (s * k)) by (apply Rmult_le_pos; assumption). apply Rsqr_le_abs_0. unfold Rsqr.
    replace (s * k * (s * k)) with ((s * s) * (k * k)) by ring. rewrite SS, KK. pose proof (lagrange x y z a b c) as L.
    pose proof (Rle_0_sqr (b * z - c * y)). pose proof (Rle_0_sqr (c * x - a * z)). pose proof (Rle_0_sqr (a * y - b * x)). unfold Rsqr in *. lra. }
  assert (Q : forall e, Rabs e <= d -> e * e <= d * d) by (intros e E; replace (e * e) with (Rabs e * Rabs e) by (rewrite <- Rabs_mult; apply Rabs_pos_eq, Rle_0_sqr); apply Rmult_le_compat; try apply Rabs_pos; assumption).
  pose proof (Q _ X) as QX. pose proof (Q _ Y) as QY. pose proof (Q _ Z) as QZ. rewrite <- (Rabs_pos_eq (2 * d)) by lra. apply Rsqr_le_abs_0. unfold Rsqr. pose proof (Rle_0_sqr d). unfold Rsqr in *.
  replace ((s - k) * (s - k)) with (s * s + k * k - 2 * (s * k)) by ring. rewrite SS, KK. lra.
Qed.

Lemma direction : forall x a n s k d q, 0 < s -> 0 < k -> Rabs x <= s -> Rabs (x - a) <= d -> Rabs (s - k) <= 2 * d -> d <= q * k -> Rabs (n - x / s) <= 1e-5 -> Rabs (n - a / k) <= 1e-5 + 3 * q.
Proof.
  intros x a n s k d q S K X XA SK D N.
  replace (n - a / k) with ((n - x / s) + ((x - a) * / k + x / s * ((k - s) * / k))) by (field; lra).
  assert (KI : 0 < / k) by (apply Rinv_0_lt_compat; exact K). assert (DK : d * / k <= q) by (apply Rmult_le_reg_r with k; [exact K|]; rewrite Rmult_assoc, Rinv_l by lra; lra).
  assert (E1 : Rabs ((x - a) * / k) <= q) by (rewrite Rabs_mult, (Rabs_pos_eq (/ k)) by lra; eapply Rle_trans; [apply Rmult_le_compat_r; [lra|exact XA]|exact DK]).
  assert (E2 : Rabs (x / s * ((k - s) * / k)) <= 2 * q).
  { rewrite Rabs_mult. replace (2 * q) with (1 * (2 * q)) by ring. apply Rmult_le_compat; try apply Rabs_pos.
    - unfold Rdiv. rewrite Rabs_mult, (Rabs_pos_eq (/ s)) by (left; apply Rinv_0_lt_compat; exact S). apply Rmult_le_reg_r with s; [exact S|]. rewrite Rmult_assoc, Rinv_l by lra. lra.
    - rewrite Rabs_mult, (Rabs_pos_eq (/ k)), Rabs_minus_sym by lra. eapply Rle_trans; [apply Rmult_le_compat_r; [lra|exact SK]|lra]. }
  eapply Rle_trans; [apply Rabs_triang|]. apply Rle_trans with (1e-5 + (q + 2 * q)); [|lra]. apply Rplus_le_compat; [exact N|]. eapply Rle_trans; [apply Rabs_triang|]. lra.
Qed.

(* the exact product of the edges from a to b and from a to c *)
Definition edges_x (a b c : fvec) : R := (val (fy b) - val (fy a)) * (val (fz c) - val (fz a)) - (val (fz b) - val (fz a)) * (val (fy c) - val (fy a)).
Definition edges_y (a b c : fvec) : R := (val (fz b) - val (fz a)) * (val (fx c) - val (fx a)) - (val (fx b) - val (fx a)) * (val (fz c) - val (fz a)).
Definition edges_z (a b c : fvec) : R := (val (fx b) - val (fx a)) * (val (fy c) - val (fy a)) - (val (fy b) - val (fy a)) * (val (fx c) - val (fx a)).
(* twice the area *)
Definition area2 (a b c : fvec) : R := sqrt (edges_x a b c * edges_x a b c + edges_y a b c * edges_y a b c + edges_z a b c * edges_z a b c).

(* For all triangles with coordinates up to M, where M is between 1 and 256, and twice the area at least q M^2: the normal has
   length 1 up to 1.1e-5 in the square and is the exact one, on the side the vertices turn to, up to 1e-5 + 7e-6/q in each coordinate. *)
Theorem float_face_normal : forall M q a b c r0 r1, 1 <= M <= 256 -> / 100000 <= q ->
  (forall p, p = a \/ p = b \/ p = c -> vfin p /\ Rabs (val (fx p)) <= M /\ Rabs (val (fy p)) <= M /\ Rabs (val (fz p)) <= M) ->
  q * (M * M) <= area2 a b c ->
  let n := snd (f_face_sample a b c r0 r1) in let k := area2 a b c in let e := 1e-5 + 7e-6 / q in
  unit_11 n /\ Rabs (val (fx n) - edges_x a b c / k) <= e /\ Rabs (val (fy n) - edges_y a b c / k) <= e /\ Rabs (val (fz n) - edges_z a b c / k) <= e.
Proof.
  intros M q a b c r0 r1 HM HQ V A. cbv zeta. unfold f_face_sample. destruct (f_face_weights r0 r1) as ((? & ?) & ?). cbn [snd].
  destruct (V a (or_introl eq_refl)) as ((AX & AY & AZ) & AX' & AY' & AZ'). destruct (V b (or_intror (or_introl eq_refl))) as ((BX & BY & BZ) & BX' & BY' & BZ'). destruct (V c (or_intror (or_intror eq_refl))) as ((CX & CY & CZ) & CX' & CY' & CZ'). clear V.
  pose proof (edge_near M _ _ HM BX AX BX' AX') as UX. pose proof (edge_near M _ _ HM BY AY BY' AY') as UY. pose proof (edge_near M _ _ HM BZ AZ BZ' AZ') as UZ.
  pose proof (edge_near M _ _ HM CX AX CX' AX') as WX. pose proof (edge_near M _ _ HM CY AY CY' AY') as WY. pose proof (edge_near M _ _ HM CZ AZ CZ' AZ') as WZ.
  pose proof (minor_edges M _ _ _ _ _ _ _ _ HM UY WZ UZ WY) as PX. pose proof (minor_edges M _ _ _ _ _ _ _ _ HM UZ WX UX WZ) as PY. pose proof (minor_edges M _ _ _ _ _ _ _ _ HM UX WY UY WX) as PZ.
  clear UX UY UZ WX WY WZ AX AY AZ BX BY BZ CX CY CZ AX' AY' AZ' BX' BY' BZ' CX' CY' CZ'.
  fold (edges_x a b c) in PX. fold (edges_y a b c) in PY. fold (edges_z a b c) in PZ.
  assert (VD : forall w, w = fv_cross (fv_sub b a) (fv_sub c a) -> near (fx w) (edges_x a b c) (8 * (M * M)) (38 * (M * M)) /\ near (fy w) (edges_y a b c) (8 * (M * M)) (38 * (M * M)) /\ near (fz w) (edges_z a b c) (8 * (M * M)) (38 * (M * M))).
  { intros w ->. exact (conj PX (conj PY PZ)). }
  clear PX PY PZ. generalize dependent (fv_cross (fv_sub b a) (fv_sub c a)). intros w VD. specialize (VD w eq_refl). destruct VD as ((FX & EX & LX) & (FY & EY & LY) & (FZ & EZ & LZ)).
  unfold area2 in *. set (ex := edges_x a b c) in *. set (ey := edges_y a b c) in *. set (ez := edges_z a b c) in *. clearbody ex ey ez. clear a b c.
  set (d := 38 * (M * M) * u24) in *. set (k := sqrt (ex * ex + ey * ey + ez * ez)) in *.
  assert (MM : 1 <= M * M <= 65536) by (split; [replace 1 with (1 * 1) by ring|replace 65536 with (256 * 256) by ring]; apply Rmult_le_compat; lra).
  assert (QM : q * 1 <= q * (M * M)) by (apply Rmult_le_compat_l; lra). assert (QM2 : / 100000 * (M * M) <= q * (M * M)) by (apply Rmult_le_compat_r; lra).
  assert (K0 : / 100000 <= k) by lra. assert (KK : k * k = ex * ex + ey * ey + ez * ez).
  { apply sqrt_sqrt. pose proof (Rle_0_sqr ex). pose proof (Rle_0_sqr ey). pose proof (Rle_0_sqr ez). unfold Rsqr in *. lra. }
  clearbody k.
  assert (LW : 0 <= length2 w) by (unfold length2; pose proof (Rle_0_sqr (val (fx w))); pose proof (Rle_0_sqr (val (fy w))); pose proof (Rle_0_sqr (val (fz w))); unfold Rsqr in *; lra).
  pose proof (sqrt_pos (length2 w)) as S0. pose proof (sqrt_sqrt _ LW) as SS.
  assert (SK : Rabs (sqrt (length2 w) - k) <= 2 * d) by (apply (lengths (val (fx w)) (val (fy w)) (val (fz w)) ex ey ez); try assumption; lra).
  assert (DK : d <= 38 * u24 / q * k).
  { unfold d. apply Rmult_le_reg_r with q; [lra|]. replace (38 * u24 / q * k * q) with (38 * u24 * k) by (field; lra). replace (38 * (M * M) * u24 * q) with (38 * u24 * (q * (M * M))) by ring. apply Rmult_le_compat_l; [unfold u24; lra|exact A]. }
  assert (D4 : d <= 23 / 100 * k) by (unfold d, u24; lra).
  assert (D1 : d <= 1) by (unfold d, u24; lra).
  assert (SL : / 1000000 <= sqrt (length2 w)) by (apply abs_both in SK; lra).
  assert (VF : vfin w) by (exact (conj FX (conj FY FZ))).
  assert (B : bpow radix2 (-100) <= length2 w <= bpow radix2 100).
  { split.
    - apply Rle_trans with (bpow radix2 (-40)); [apply bpow_le; lia|]. rewrite <- SS. apply Rle_trans with (/ 1000000 * / 1000000); [cbn; lra|]. apply Rmult_le_compat; lra.
    - apply Rle_trans with (bpow radix2 50); [|apply bpow_le; lia].
      assert (T : forall x e, Rabs (x - e) <= d -> Rabs e <= 8 * (M * M) -> x * x <= 600000 * 600000).
      { clear - MM D1. intros x e E L. replace (x * x) with (Rabs x * Rabs x) by (rewrite <- Rabs_mult; apply Rabs_pos_eq, Rle_0_sqr). assert (Rabs x <= 600000) by (replace x with ((x - e) + e) by ring; eapply Rle_trans; [apply Rabs_triang|]; lra). apply Rmult_le_compat; try apply Rabs_pos; assumption. }
      pose proof (T _ _ EX LX). pose proof (T _ _ EY LY). pose proof (T _ _ EZ LZ). unfold length2. apply Rle_trans with (3 * (600000 * 600000)); [lra|]. cbn. lra. }
  destruct (float_normalize w VF B) as (NF & _ & NX & NY & NZ). pose proof (normal_unit w VF B) as NU. split; [exact NU|]. clear NU NF.
  generalize dependent (f_normalize w). intros n NX NY NZ. set (s := sqrt (length2 w)) in *. clearbody s.
  assert (W : forall x, x * x <= length2 w -> Rabs x <= s).
  { intros x X. rewrite <- (Rabs_pos_eq s S0). apply Rsqr_le_abs_0. unfold Rsqr. lra. }
  assert (WX : Rabs (val (fx w)) <= s) by (apply W; unfold length2; pose proof (Rle_0_sqr (val (fy w))); pose proof (Rle_0_sqr (val (fz w))); unfold Rsqr in *; lra).
  assert (WY : Rabs (val (fy w)) <= s) by (apply W; unfold length2; pose proof (Rle_0_sqr (val (fx w))); pose proof (Rle_0_sqr (val (fz w))); unfold Rsqr in *; lra).
  assert (WZ : Rabs (val (fz w)) <= s) by (apply W; unfold length2; pose proof (Rle_0_sqr (val (fx w))); pose proof (Rle_0_sqr (val (fy w))); unfold Rsqr in *; lra).
  assert (QI : 1e-5 + 3 * (38 * u24 / q) <= 1e-5 + 7e-6 / q).
  { apply Rplus_le_compat_l. replace (3 * (38 * u24 / q)) with (114 * u24 * / q) by (field; lra). unfold Rdiv. apply Rmult_le_compat_r; [left; apply Rinv_0_lt_compat; lra|unfold u24; lra]. }
  split; [eapply Rle_trans; [apply (direction _ _ _ s k d _ ltac:(lra) ltac:(lra) WX EX SK DK NX)|exact QI]|].
  split; [eapply Rle_trans; [apply (direction _ _ _ s k d _ ltac:(lra) ltac:(lra) WY EY SK DK NY)|exact QI]|].
  eapply Rle_trans; [apply (direction _ _ _ s k d _ ltac:(lra) ltac:(lra) WZ EZ SK DK NZ)|exact QI].
Qed.
Example face_normal_case : let a := at_ 0 0 0 in let b := at_ 4 0 0 in let c := at_ 0 3 0 in
  (forall p, p = a \/ p = b \/ p = c -> vfin p /\ Rabs (val (fx p)) <= 4 /\ Rabs (val (fy p)) <= 4 /\ Rabs (val (fz p)) <= 4) /\ / 2 * (4 * 4) <= area2 a b c.
Proof.
  cbv zeta. destruct (at_val 0 0 0) as (F0 & X0 & Y0 & Z0); [lia..|]. destruct (at_val 4 0 0) as (F1 & X1 & Y1 & Z1); [lia..|]. destruct (at_val 0 3 0) as (F2 & X2 & Y2 & Z2); [lia..|]. split.
  - intros p [E|[E|E]]; subst p; [rewrite X0, Y0, Z0|rewrite X1, Y1, Z1|rewrite X2, Y2, Z2]; (split; [assumption|rewrite !Rabs_pos_eq; lra]).
  - unfold area2, edges_x, edges_y, edges_z. rewrite X0, Y0, Z0, X1, Y1, Z1, X2, Y2, Z2. match goal with |- _ <= sqrt ?t => replace t with (12 * 12) by ring end. rewrite sqrt_square; lra.
Qed.
Print Assumptions float_face_normal.
