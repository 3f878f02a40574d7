(* C209-C216: the elliptical texture filter. *)
From Coq Require Import QArith Qround Qminmax Qabs Lqa Qfield.
From Verif Require Import Common Array2DModel ImgModel ImgSpec ImgProofs ImgProps EwaModel EwaSpec EwaProofs.
Local Open Scope Q_scope.

(* -- functions that meet the assumptions -- *)

(* a square root with at least four digits *)
Definition root (x : Q) : Q := (Z.sqrt (Qnum x * Zpos (Qden x) * 10 ^ 8) # (Qden x * 10000)).

Lemma root_close : close_sqrt root.
Proof.
  intros [n d] H. unfold root. cbn [Qnum Qden]. unfold Qle in H. cbn in H.
  assert (N0 : (0 <= n)%Z) by lia. clear H.
  set (N := (n * Z.pos d * 10 ^ 8)%Z). assert (NN : (0 <= N)%Z) by (unfold N; change (10 ^ 8)%Z with 100000000%Z; nia).
  destruct (Z.sqrt_spec N NN) as [S1 S2]. pose proof (Z.sqrt_nonneg N) as S0. set (s := Z.sqrt N) in *. clearbody s.
  split; [unfold Qle; cbn; lia |].
  assert (E : (n # d) == N # (d * 10000 * (d * 10000))).
  { unfold Qeq. cbn [Qnum Qden]. unfold N. rewrite !Pos2Z.inj_mul. change (10 ^ 8)%Z with (10000 * 10000)%Z. ring. }
  assert (SS : (s # (d * 10000)) * (s # (d * 10000)) == (s * s) # (d * 10000 * (d * 10000))) by reflexivity.
  rewrite E, SS.
  assert (L : (s * s <= N)%Z /\ (99 * N <= 100 * (s * s))%Z).
  { split; [lia |]. destruct (Z.eq_dec n 0) as [Z | Z].
    - assert (N = 0)%Z by (unfold N; rewrite Z; reflexivity). nia.
    - assert (100000000 <= N)%Z by (unfold N; change (10 ^ 8)%Z with 100000000%Z; nia). assert (9999 <= s)%Z by nia. nia. }
  destruct L as [L1 L2]. set (D := (d * 10000 * (d * 10000))%positive). clearbody D. unfold Qle, Qmult. cbn [Qnum Qden].
  split; rewrite ?Pos2Z.inj_mul; nia.
Qed.

(* a logarithm that is exact at powers of two, and below the exact one elsewhere *)
Definition log_floor (x : Q) : Q := inject_Z (if (Qnum x <=? 0)%Z then 0 else (Z.log2 (Qnum x) - Z.log2_up (Zpos (Qden x)) - 1))%Z.

Lemma log_floor_pow : forall x k, 0 < x -> (0 <= k)%Z -> x * inject_Z (2 ^ k) <= 1 -> log_floor x <= - inject_Z k - 1.
Proof.
  intros [n d] k P K H. unfold log_floor. cbn [Qnum Qden]. unfold Qlt in P. cbn in P.
  destruct (Z.leb_spec n 0) as [L | L]; [lia |].
  assert (E : (n * 2 ^ k <= Z.pos d)%Z).
  { unfold Qle in H. cbn [Qnum Qden Qmult inject_Z] in H. rewrite ?Pos.mul_1_r in H. lia. }
  assert (LG : (Z.log2 n + k <= Z.log2_up (Z.pos d))%Z).
  { pose proof (Z.log2_spec n L) as [A _].
    assert (B : (2 ^ (Z.log2 n + k) <= Z.pos d)%Z) by (rewrite Z.pow_add_r by (try apply Z.log2_nonneg; exact K); nia).
    pose proof (Z.log2_up_le_mono _ _ B) as C. rewrite Z.log2_up_pow2 in C; [exact C |]. pose proof (Z.log2_nonneg n). lia. }
  assert (X : - inject_Z k - 1 == inject_Z (- k - 1)) by (unfold Z.sub; rewrite inject_Z_plus, inject_Z_opp; reflexivity).
  rewrite X. apply inject_le. lia.
Qed.

Lemma log_floor_half : log_half log_floor.
Proof.
  intros x P H. pose proof (log_floor_pow x 1 P ltac:(lia)) as L. change (inject_Z (2 ^ 1)) with 2 in L.
  change (inject_Z 1) with 1 in L. assert (x * 2 <= 1) by lra. specialize (L H0). lra.
Qed.

Lemma log_floor_side : forall k, log_side log_floor (2 ^ k).
Proof.
  intros k x P H. rewrite N.log2_pow2 by lia.
  assert (E : qN (2 ^ k) = inject_Z (2 ^ Z.of_N k)) by (unfold qN; rewrite N2Z.inj_pow; reflexivity).
  rewrite E in H. pose proof (log_floor_pow x (Z.of_N k) P ltac:(lia) H). lra.
Qed.

(* -- one level -- *)

(* C209.  For footprints along the axes that fit in the level, the elliptical filter reads only texels
   of the map and its result is between the darkest and the brightest texel. *)
Theorem ewa_level_within : forall sq values side m lo hi i l u v dudx dvdx dudy dvdy wide, close_sqrt sq ->
  texture_of values side m -> within (picture_of values side) side lo hi -> (hi < 256)%N ->
  nth_error m i = Some l -> 0 <= u <= 1 -> 0 <= v <= 1 -> along_axes dudx dvdx dudy dvdy wide ->
  (101 # 100) * (wide * qN (l_side l) * (wide * qN (l_side l)) + 1) <= (qN (l_side l) - (1 # 2)) * (qN (l_side l) - (1 # 2)) ->
  exists t, ewa sq m u v dudx dvdx dudy dvdy (Z.of_nat i) = Ok t /\ forall c, channel c -> (lo <= c t <= hi)%N.
Proof.
  intros sq values side m lo hi i l u v dudx dvdx dudy dvdy wide SQ T W H256 NT (U0 & U1) (V0 & V1) AX FT.
  pose proof T as (L & S & _). destruct (texture_levels _ _ _ T) as (pics & Lm & _ & HL & WI).
  assert (I : (i < length m)%nat) by (apply nth_error_Some; congruence).
  destruct (HL i I) as (l' & NT' & SH). assert (l' = l) by congruence; subst l'. pose proof SH as (SL & _).
  destruct (sides side (N.of_nat i) L ltac:(lia)) as [S1 _].
  assert (S15 : (side / 2 ^ N.of_nat i <= 2 ^ 15)%N).
  { apply N.le_trans with side; [| exact S]. apply N.div_le_upper_bound; [apply N.pow_nonzero; lia |].
    assert (1 <= 2 ^ N.of_nat i)%N by (change 1%N with (2 ^ 0)%N; apply N.pow_le_mono_r; lia). nia. }
  rewrite SL in FT.
  apply (ewa_level sq m l (Z.of_nat i) (side / 2 ^ N.of_nat i) (pics i) lo hi u v dudx dvdx dudy dvdy wide); try assumption.
  - apply level_at_nth, NT.
  - apply WI, W.
Qed.
Print Assumptions ewa_level_within.

Example ewa_level_within_ex : (exists m, texture_of stripes 4 m) /\ close_sqrt root /\ along_axes (1 # 2) 0 0 (1 # 4) (1 # 2) /\
  (101 # 100) * ((1 # 2) * qN 4 * ((1 # 2) * qN 4) + 1) <= (qN 4 - (1 # 2)) * (qN 4 - (1 # 2)).
Proof.
  split; [| split; [exact root_close | split; [left; repeat split; reflexivity | vm_compute; discriminate]]].
  destruct (image_map_ok stripes 4 ltac:(lia) ltac:(vm_compute; discriminate) ltac:(vm_compute; discriminate)) as (m & E & _).
  exists m. split; [lia |]. split; [vm_compute; discriminate |]. split; [vm_compute; discriminate | exact E].
Qed.

(* C210.  The height of the footprint is ignored: with a footprint along the axes, two pictures that
   agree on the rows nearer than one texel give the same result, whatever the vertical derivative. *)
Theorem ewa_rows_refuted : forall sq values values' side m m' u v dudx dvdx dudy dvdy wide, close_sqrt sq ->
  texture_of values side m -> texture_of values' side m' -> 0 <= u <= 1 -> 0 <= v <= 1 ->
  along_axes dudx dvdx dudy dvdy wide -> 
  (101 # 100) * (wide * qN side * (wide * qN side) + 1) <= (qN side - (1 # 2)) * (qN side - (1 # 2)) ->
  (forall x y, (x < side)%N -> (y < side)%N -> qN y - place side v < 1 -> - (1) < qN y - place side v ->
    picture_of values side x y = picture_of values' side x y) ->
  ewa sq m u v dudx dvdx dudy dvdy 0 = ewa sq m' u v dudx dvdx dudy dvdy 0.
Proof.
  intros sq values values' side m m' u v dudx dvdx dudy dvdy wide SQ T T' (U0 & U1) (V0 & V1) AX FT AG.
  pose proof T as (L & S & _).
  destruct (texture_levels _ _ _ T) as (pics & Lm & P0 & HL & _). destruct (texture_levels _ _ _ T') as (pics' & Lm' & P0' & HL' & _).
  destruct (HL O ltac:(lia)) as (l & NT & SL & SF). destruct (HL' O ltac:(lia)) as (l' & NT' & SL' & SF').
  change (2 ^ N.of_nat 0)%N with 1%N in *. rewrite N.div_1_r in *.
  apply (ewa_depends sq m m' l l' 0 side u v dudx dvdx dudy dvdy wide); try assumption.
  - exact (level_at_nth m O l NT).
  - exact (level_at_nth m' O l' NT').
  - intros x y X Y _ D.
    assert (EX : x = Z.of_N (Z.to_N x)) by lia. assert (EY : y = Z.of_N (Z.to_N y)) by lia. rewrite EX, EY.
    rewrite SF, SF' by lia. rewrite P0, P0' by lia. f_equal. apply AG; [lia | lia | |].
    + unfold qN. rewrite <- EY. apply Qnot_le_lt. intros G. assert (1 <= (inject_Z y - place side v) * (inject_Z y - place side v)) by nra. lra.
    + unfold qN. rewrite <- EY. apply Qnot_le_lt. intros G. assert (1 <= (inject_Z y - place side v) * (inject_Z y - place side v)) by nra. lra.
Qed.
Print Assumptions ewa_rows_refuted.

(* the hypotheses hold with a footprint three quarters of the picture high, of two pictures that differ
   in half of their rows *)
Example ewa_rows_ex : along_axes (1 # 4) 0 0 (3 # 4) (1 # 4) /\ (101 # 100) * ((1 # 4) * qN 4 * ((1 # 4) * qN 4) + 1) <= (qN 4 - (1 # 2)) * (qN 4 - (1 # 2)) /\
  let black := mk_texel 255 0 0 0 in let white := mk_texel 255 255 255 255 in
  forall x y, (x < 4)%N -> (y < 4)%N -> qN y - place 4 (1 # 4) < 1 -> - (1) < qN y - place 4 (1 # 4) ->
    picture_of (repeat black 16) 4 x y = picture_of (repeat black 8 ++ repeat white 8) 4 x y.
Proof.
  split; [left; repeat split; reflexivity |]. split; [vm_compute; discriminate |]. cbv zeta.
  intros x y X Y H1 H2.
  assert (EX : (x = 0 \/ x = 1 \/ x = 2 \/ x = 3)%N) by lia. assert (EY : (y = 0 \/ y = 1 \/ y = 2 \/ y = 3)%N) by lia.
  destruct EY as [-> | [-> | [-> | ->]]]; try (exfalso; revert H1; vm_compute; discriminate).
  all: destruct EX as [-> | [-> | [-> | ->]]]; reflexivity.
Qed.

(* C211.  The filter does not wrap around the border: within the first column of texels, the
   texels of the last column do not matter, although the picture is repeated. *)
Theorem ewa_seam_refuted : forall sq values values' side m m' u v dudx dvdx dudy dvdy wide, close_sqrt sq ->
  texture_of values side m -> texture_of values' side m' -> 0 <= u <= 1 -> 0 <= v <= 1 -> place side u <= 1 # 2 ->
  along_axes dudx dvdx dudy dvdy wide ->
  (101 # 100) * (wide * qN side * (wide * qN side) + 1) <= (qN side - (3 # 2)) * (qN side - (3 # 2)) -> 2 <= qN side ->
  (forall x y, (x < side - 1)%N -> (y < side)%N -> picture_of values side x y = picture_of values' side x y) ->
  ewa sq m u v dudx dvdx dudy dvdy 0 = ewa sq m' u v dudx dvdx dudy dvdy 0.
Proof.
  intros sq values values' side m m' u v dudx dvdx dudy dvdy wide SQ T T' (U0 & U1) (V0 & V1) UP AX FT S2 AG.
  pose proof T as (L & S & _).
  destruct (texture_levels _ _ _ T) as (pics & Lm & P0 & HL & _). destruct (texture_levels _ _ _ T') as (pics' & Lm' & P0' & HL' & _).
  destruct (HL O ltac:(lia)) as (l & NT & SL & SF). destruct (HL' O ltac:(lia)) as (l' & NT' & SL' & SF').
  change (2 ^ N.of_nat 0)%N with 1%N in *. rewrite N.div_1_r in *.
  apply (ewa_depends sq m m' l l' 0 side u v dudx dvdx dudy dvdy wide); try assumption.
  - exact (level_at_nth m O l NT).
  - exact (level_at_nth m' O l' NT').
  - unfold fits. nra.
  - intros x y X Y D _.
    assert (EX : x = Z.of_N (Z.to_N x)) by lia. assert (EY : y = Z.of_N (Z.to_N y)) by lia. rewrite EX, EY.
    rewrite SF, SF' by lia. rewrite P0, P0' by lia. f_equal. apply AG; [| lia].
    destruct (Z.eq_dec x (Z.of_N side - 1)) as [G | G]; [exfalso | lia].
    assert (IX : inject_Z x == qN side - 1) by (rewrite G; unfold qN, Z.sub; rewrite inject_Z_plus; reflexivity).
    rewrite IX in D. pose proof (proj1 (place_range side u L U0 U1)).
    set (C := wide * qN side * (wide * qN side) + 1) in *. assert (1 <= C) by (unfold C; pose proof (sqr_nonneg (wide * qN side)); lra). clearbody C.
    set (p := place side u) in *. clearbody p. set (n := qN side) in *. clearbody n.
    assert ((n - (3 # 2)) * (n - (3 # 2)) <= (n - 1 - p) * (n - 1 - p)) by nra. lra.
Qed.
Print Assumptions ewa_seam_refuted.

Example ewa_seam_ex : place 4 (1 # 8) <= 1 # 2 /\ along_axes (1 # 8) 0 0 (1 # 8) (1 # 8) /\
  (101 # 100) * ((1 # 8) * qN 4 * ((1 # 8) * qN 4) + 1) <= (qN 4 - (3 # 2)) * (qN 4 - (3 # 2)) /\ 2 <= qN 4.
Proof. split; [vm_compute; discriminate |]. split; [left; repeat split; reflexivity |]. split; vm_compute; discriminate. Qed.

Lemma empty_box : forall u0 u1 v0 v1, (u1 < u0)%Z -> box u0 u1 v0 v1 = [].
Proof.
  intros u0 u1 v0 v1 H. unfold box. assert (E : upto u0 u1 = []) by (unfold upto; replace (Z.to_nat (u1 - u0 + 1)) with O by lia; reflexivity).
  rewrite E. cbn [map]. induction (upto v0 v1) as [| y ys IH]; [reflexivity | exact IH].
Qed.

(* C212.  Diagonal footprints: because the first coefficient of the ellipse is computed with a product
   instead of a sum, the "ellipse" has no inside whenever the determinant is negative, and the filter
   divides 0 by 0 and converts the result to a byte. *)
Theorem ewa_diagonal_level_refuted : forall sq m l lev u v dudx dvdx dudy dvdy, close_sqrt sq -> level_at m lev = Ok l ->
  let s := qN (l_side l) in
  (dvdx * s * (dvdx * s) * (dvdy * s * (dvdy * s)) + 1) * (dudx * s * (dudx * s) + dudy * s * (dudy * s) + 1) <
    (dudx * s * (dvdx * s) + dudy * s * (dvdy * s)) * (dudx * s * (dvdx * s) + dudy * s * (dvdy * s)) ->
  ewa sq m u v dudx dvdx dudy dvdy lev = UB.
Proof.
  intros sq m l lev u v dudx dvdx dudy dvdy SQ LA s H. unfold ewa. rewrite LA. cbn [bind]. fold s.
  set (a0 := ellipse_a (dvdx * s) (dvdy * s)). set (b0 := ellipse_b (dudx * s) (dvdx * s) (dudy * s) (dvdy * s)).
  set (c0 := ellipse_c (dudx * s) (dudy * s)). set (f := a0 * c0 - b0 * b0 * (1 # 4)).
  assert (FN : f < 0).
  { assert (E : f == (dvdx * s * (dvdx * s) * (dvdy * s * (dvdy * s)) + 1) * (dudx * s * (dudx * s) + dudy * s * (dudy * s) + 1) -
      (dudx * s * (dvdx * s) + dudy * s * (dvdy * s)) * (dudx * s * (dvdx * s) + dudy * s * (dvdy * s)))
      by (unfold f, a0, b0, c0, ellipse_a, ellipse_b, ellipse_c; field).
    rewrite E. lra. }
  assert (C1 : 1 <= c0) by (unfold c0, ellipse_c; pose proof (sqr_nonneg (dudx * s)); pose proof (sqr_nonneg (dudy * s)); lra).
  assert (NZ : ~ f == 0) by lra.
  replace (Qeq_bool f 0) with false.
  2: { symmetry. destruct (Qeq_bool f 0) eqn:E; [| reflexivity]. apply Qeq_bool_iff in E. contradiction. }
  destruct (half_width sq a0 b0 c0 f c0 SQ ltac:(reflexivity) NZ ltac:(lra)) as (X1 & _ & _ & X2). specialize (X2 FN). cbv zeta in X1, X2. cbv zeta.
  set (h := 2 * _ * sq (_ * (c0 * (1 / f)))) in *. set (hy := 2 * _ * sq (_ * (a0 * (1 / f)))). clearbody h hy.
  assert (HN : h < 0).
  { destruct (Qlt_le_dec h 0) as [G | G]; [exact G | exfalso]. assert (Z : h == 0) by lra. rewrite Z in X1. lra. }
  destruct (to_int_or (Qceiling (u * s - (1 # 2) - h))) as [-> | ->]; cbn [bind]; [| reflexivity].
  destruct (to_int_or (Qfloor (u * s - (1 # 2) + h))) as [-> | ->]; cbn [bind]; [| reflexivity].
  destruct (to_int_or (Qceiling (v * s - (1 # 2) - hy))) as [-> | ->]; cbn [bind]; [| reflexivity].
  destruct (to_int_or (Qfloor (v * s - (1 # 2) + hy))) as [-> | ->]; cbn [bind]; [| reflexivity].
  rewrite empty_box; [reflexivity |].
  pose proof (ceil_ge (u * s - (1 # 2) - h)). pose proof (floor_le (u * s - (1 # 2) + h)). apply inject_lt. lra.
Qed.
Print Assumptions ewa_diagonal_level_refuted.

(* at full resolution: every footprint along the diagonal at least two texels long and at most a
   quarter of a texel wide, unless it is so thin that it is widened *)
Theorem ewa_diagonal_refuted : forall lg sq values side m u v p q, close_sqrt sq -> log_side lg side -> texture_of values side m ->
  0 < q -> 2 <= p * qN side -> q * qN side <= 1 # 4 -> p <= 29 * q ->
  ewa_filter lg sq m u v p p (- q) q = UB.
Proof.
  intros lg sq values side m u v p q SQ LS T Q0 PS QS PQ. pose proof T as (L & S & _).
  assert (SQ1 : 1 <= qN side) by (change 1 with (qN 1); apply qN_le, L).
  destruct (texture_levels _ _ _ T) as (pics & Lm & _ & HL & _). destruct (HL O ltac:(lia)) as (l & NT & SL & _).
  change (2 ^ N.of_nat 0)%N with 1%N in SL. rewrite N.div_1_r in SL.
  assert (PQ2 : 8 * q <= p) by nra.
  destruct (SQ (p * p + p * p)) as (A0 & A1 & A2); [pose proof (sqr_nonneg p); lra |].
  destruct (SQ (- q * - q + q * q)) as (B0 & B1 & B2); [pose proof (sqr_nonneg q); pose proof (sqr_nonneg (- q)); lra |].
  unfold ewa_filter. set (l1 := sq (p * p + p * p)) in *. set (l2 := sq (- q * - q + q * q)) in *. clearbody l1 l2.
  assert (EQ : - q * - q + q * q == 2 * (q * q)) by ring. rewrite EQ in B1, B2. clear EQ.
  assert (QQ : 0 < q * q) by nra. assert (PP : 64 * (q * q) <= p * p) by nra. assert (PP2 : p * p <= 841 * (q * q)) by nra.
  assert (L2 : 0 < l2). { destruct (Qlt_le_dec 0 l2) as [G | G]; [exact G | exfalso]. assert (Z : l2 == 0) by lra. rewrite Z in B1. lra. }
  assert (L21 : l2 <= l1) by (apply sqr_le; lra).
  assert (L12 : l1 <= l2 * 30) by (apply sqr_le; [lra |]; assert (X : l2 * 30 * (l2 * 30) == 900 * (l2 * l2)) by ring; rewrite X; lra).
  rewrite (proj2 (Qle_bool_iff _ _) L21). cbn [negb].
  replace (Qeq_bool l2 0) with false.
  2: { symmetry. destruct (Qeq_bool l2 0) eqn:E; [| reflexivity]. apply Qeq_bool_iff in E. lra. }
  rewrite (proj2 (Qle_bool_iff _ _) L12). cbn [negb]. cbv zeta.
  assert (LG : lg l2 <= - inject_Z (Z.of_N (N.log2 side))).
  { apply LS; [exact L2 |]. apply sqr_le; [lra |].
    assert (X : l2 * qN side * (l2 * qN side) == l2 * l2 * (qN side * qN side)) by ring. rewrite X.
    assert (Y : l2 * l2 * (qN side * qN side) <= (101 # 100) * (2 * (q * q)) * (qN side * qN side)) by (apply Qmult_le_compat_r; [exact B2 | apply sqr_nonneg]).
    assert (Z : q * q * (qN side * qN side) <= 1 # 16).
    { assert (Z1 : q * q * (qN side * qN side) == q * qN side * (q * qN side)) by ring. rewrite Z1. assert (0 <= q * qN side) by nra. nra. }
    lra. }
  set (last := (Z.of_nat (length m) - 1)%Z).
  assert (EL : inject_Z last == inject_Z (Z.of_N (N.log2 side))) by (replace last with (Z.of_N (N.log2 side)) by (unfold last; lia); reflexivity).
  assert (CH : Qmax 0 (inject_Z last + lg l2) == 0) by (rewrite Q.max_l; [reflexivity | lra]).
  assert (LP : 0 <= inject_Z last) by (rewrite EL; change 0 with (inject_Z 0); apply inject_le; lia).
  set (ch := Qmax 0 (inject_Z last + lg l2)) in *. clearbody ch.
  replace (Qle_bool ch (inject_Z last)) with true by (symmetry; apply Qle_bool_iff; lra). cbn [negb].
  assert (FC : Qfloor ch = 0%Z) by (rewrite CH; reflexivity).
  unfold to_range. rewrite trunc_pos by lra. rewrite FC. cbn [Z.leb Z.ltb Z.compare andb bind].
  rewrite (ewa_diagonal_level_refuted sq m l 0 u v p p (- q) q SQ (level_at_nth m O l NT)); [reflexivity |].
  rewrite SL. set (s := qN side) in *.
  assert (X1 : p * s * (p * s) * (q * s * (q * s)) <= p * s * (p * s) * (1 # 16)).
  { assert (0 <= q * s) by nra. assert (q * s * (q * s) <= 1 # 16) by nra. pose proof (sqr_nonneg (p * s)).
    rewrite !(Qmult_comm (p * s * (p * s))). apply Qmult_le_compat_r; assumption. }
  set (P := p * s * (p * s)) in *. assert (P4 : 4 <= P) by (unfold P; nra).
  set (W := q * s * (q * s)) in *. assert (W0 : 0 <= W) by apply sqr_nonneg. assert (W1 : W <= 1 # 16) by (unfold W; assert (0 <= q * s) by nra; nra).
  assert (E2 : - q * s * (- q * s) == W) by (unfold W; ring). rewrite E2.
  assert (E3 : P + - q * s * (q * s) == P - W) by (unfold W; ring). rewrite E3.
  clearbody P W. nra.
Qed.
Print Assumptions ewa_diagonal_refuted.

Example ewa_diagonal_ex : close_sqrt root /\ log_side log_floor (2 ^ 6) /\
  0 < 1 # 256 /\ 2 <= (1 # 16) * qN (2 ^ 6) /\ (1 # 256) * qN (2 ^ 6) <= 1 # 4 /\ 1 # 16 <= 29 * (1 # 256).
Proof. split; [exact root_close |]. split; [apply log_floor_side |]. repeat split; vm_compute; discriminate. Qed.

(* C213.  A wide footprint makes the filter read outside the map: whenever the picture is repeated three
   times or more across a pixel. *)
Theorem ewa_wide_refuted : forall lg sq values side m u v p q, close_sqrt sq -> texture_of values side m ->
  0 <= u <= 1 -> 0 <= v <= 1 -> 3 <= p -> 0 < q -> p <= 29 * q -> q <= 29 * p ->
  (forall x, 0 < x -> x * x <= (101 # 100) * (q * q) -> lg x <= 0) ->
  ewa_filter lg sq m u v p 0 0 q = UB.
Proof.
  intros lg sq values side m u v p q SQ T (U0 & U1) (V0 & V1) P3 Q0 PQ QP LG. pose proof T as (L & S & _).
  destruct (texture_levels _ _ _ T) as (pics & Lm & _ & HL & _).
  destruct (filter_axes sq p q SQ ltac:(lra) Q0 PQ QP) as (d1 & d2 & d3 & d4 & sh & AX & SH0 & _ & _ & SH2 & EF). rewrite EF.
  unfold ewa_core. set (last := (Z.of_nat (length m) - 1)%Z).
  assert (LP : 0 <= inject_Z last) by (change 0 with (inject_Z 0); apply inject_le; unfold last; lia).
  specialize (LG sh SH0 SH2).
  set (ch := Qmax 0 (inject_Z last + lg sh)).
  assert (C0 : 0 <= ch) by apply Q.le_max_l.
  assert (C1 : ch <= inject_Z last) by (apply Q.max_lub; lra).
  clearbody ch. cbv zeta. rewrite (proj2 (Qle_bool_iff _ _) C1). cbn [negb].
  unfold to_range. rewrite trunc_pos by exact C0.
  pose proof (floor_ge ch 0 C0) as F0.
  assert (F1 : (Qfloor ch <= last)%Z) by (rewrite <- (Qfloor_Z last); apply Qfloor_resp_le; exact C1).
  destruct (_ && _)%bool; cbn [bind]; [| reflexivity].
  destruct (HL (Z.to_nat (Qfloor ch)) ltac:(lia)) as (l & NT & SL & _).
  pose proof (level_at_nth m _ l NT) as LA. rewrite Z2Nat.id in LA by lia.
  destruct (sides side (N.of_nat (Z.to_nat (Qfloor ch))) L ltac:(lia)) as [S1 _]. rewrite <- SL in S1.
  assert (UB' : ewa sq m u v d1 d2 d3 d4 (Qfloor ch) = UB); [| rewrite UB'; reflexivity].
  clear - SQ AX LA S1 U0 U1 V0 V1 P3. set (s := l_side l) in *.
  destruct (ewa_axes sq s u v d1 d2 d3 d4 p SQ AX) as (a & b & c & hx & hy & EA & EB & EC & X0 & X1 & X2 & Y0 & Y1 & Y2 & E).
  destruct (E m l (Qfloor ch) LA eq_refl) as [[-> | ->] _]; [reflexivity |]. clear E.
  set (C := p * qN s * (p * qN s) + 1) in *.
  assert (SQ1 : 1 <= qN s) by (change 1 with (qN 1); apply qN_le, S1).
  assert (CB : 9 * (qN s * qN s) + 1 <= C).
  { unfold C. assert (3 * qN s <= p * qN s) by (apply Qmult_le_compat_r; lra). nra. }
  assert (CP : 0 < C) by (pose proof (sqr_nonneg (qN s)); lra).
  destruct (place_range s u S1 U0 U1) as [PU0 PU1]. destruct (nearest s v S1 V0 V1) as (ny & NY & NY1 & NY2).
  set (pu := place s u) in *. set (pv := place s v) in *.
  assert (HX : 2 * qN s + 1 <= hx).
  { apply sqr_le; [exact X0 |]. nra. }
  assert (HY : 1 # 2 <= hy) by (apply sqr_le; [exact Y0 | nra]).
  unfold ewa_tail.
  assert (WX : wrap (Z.of_N s) (- Z.of_N s - 1) = (-1)%Z).
  { unfold wrap. destruct (Z.ltb_spec (- Z.of_N s - 1) 0); lia. }
  rewrite (gather_ub l a b c pu pv _ (- Z.of_N s - 1)%Z ny); [reflexivity | | | fold s; rewrite WX; lia].
  - apply in_box. assert (EX : inject_Z (- Z.of_N s - 1) == - qN s - 1) by (unfold qN, Z.sub; rewrite inject_Z_plus, inject_Z_opp; reflexivity).
    split; split.
    + apply ceil_le. rewrite EX. lra.
    + apply floor_ge. rewrite EX. lra.
    + apply ceil_le. lra.
    + apply floor_ge. lra.
  - fold s. cbv zeta. rewrite WX, (wrap_id _ ny) by lia. assert (RE := r2_axes C a b c pu pv (-1) ny CP EA EB EC). rewrite RE.
    change (inject_Z (-1)) with (- (1)).
    assert (D1 : (- (1) - pu) * (- (1) - pu) / C <= 1 # 4) by (apply Qle_shift_div_r; [lra | nra]).
    assert (D2 : (inject_Z ny - pv) * (inject_Z ny - pv) <= 1 # 4) by nra. lra.
Qed.
Print Assumptions ewa_wide_refuted.

Example ewa_wide_ex : 3 <= 3 /\ 0 < 1 # 2 /\ 3 <= 29 * (1 # 2) /\ 1 # 2 <= 29 * 3 /\
  forall x, 0 < x -> x * x <= (101 # 100) * ((1 # 2) * (1 # 2)) -> log_floor x <= 0.
Proof.
  split; [lra |]. split; [reflexivity |]. split; [lra |]. split; [lra |]. intros x X H.
  assert (x <= 1) by (apply sqr_le; lra). pose proof (log_floor_pow x 0 X ltac:(lia)) as G. change (inject_Z (2 ^ 0)) with 1 in G.
  change (inject_Z 0) with 0 in G. assert (x * 1 <= 1) by lra. specialize (G H1). lra.
Qed.

(* C214.  A footprint as high or as wide as the picture, and any footprint on a picture of one texel,
   make the filter use a level after the last one. *)
Theorem ewa_last_level_refuted : forall lg sq values side m u v p q, close_sqrt sq -> texture_of values side m ->
  0 < p -> 0 < q -> p <= 29 * q -> q <= 29 * p ->
  (forall x, x = sq (p * p + 0 * 0) \/ x = sq (0 * 0 + q * q) -> lg x == 0 \/ (side = 1%N /\ lg x <= 0)) ->
  ewa_filter lg sq m u v p 0 0 q = UB.
Proof.
  intros lg sq values side m u v p q SQ T P0 Q0 PQ QP LG. pose proof T as (L & S & _).
  destruct (texture_levels _ _ _ T) as (pics & Lm & _ & HL & _).
  destruct (filter_axes sq p q SQ P0 Q0 PQ QP) as (d1 & d2 & d3 & d4 & sh & AX & SH0 & SHE & _ & _ & EF). rewrite EF.
  unfold ewa_core. set (last := (Z.of_nat (length m) - 1)%Z). specialize (LG sh SHE).
  assert (LP : 0 <= inject_Z last) by (change 0 with (inject_Z 0); apply inject_le; unfold last; lia).
  assert (CE : Qmax 0 (inject_Z last + lg sh) == inject_Z last).
  { destruct LG as [LG | [-> LG]].
    - rewrite Q.max_r; lra.
    - assert (E : last = 0%Z) by (unfold last; rewrite Lm; reflexivity). rewrite E in *. change (inject_Z 0) with 0 in *.
      rewrite Q.max_l; lra. }
  set (ch := Qmax 0 (inject_Z last + lg sh)) in *. clearbody ch. cbv zeta.
  replace (Qle_bool ch (inject_Z last)) with true by (symmetry; apply Qle_bool_iff; lra). cbn [negb].
  unfold to_range. rewrite trunc_pos by lra.
  assert (FE : Qfloor ch = last) by (rewrite CE; apply Qfloor_Z). rewrite FE.
  destruct (_ && _)%bool; cbn [bind]; [| reflexivity].
  assert (NF : forall i, ewa sq m u v d1 d2 d3 d4 i <> OutOfFuel).
  { intros i. unfold ewa. unfold level_at. destruct (i <? 0)%Z; [discriminate |]. destruct (nth_error m _); cbn [bind]; [| discriminate].
    destruct (Qeq_bool _ 0); [discriminate |]. cbv zeta.
    repeat match goal with |- context[to_int (inject_Z ?z)] => destruct (to_int_or z) as [-> | ->]; cbn [bind]; [| discriminate] end.
    match goal with |- context[gather ?a ?b ?c ?d ?e ?f ?g] => destruct (gather a b c d e f g) eqn:EG end; cbn [bind];
      [| discriminate | exfalso; exact (gather_fuel _ _ _ _ _ _ _ EG)].
    destruct (Qeq_bool _ 0); [discriminate |].
    repeat match goal with |- context[to_u8 ?z] => destruct (to_u8 z) eqn:?; cbn [bind]; [| discriminate | exfalso] end; try discriminate.
    all: match goal with H : to_u8 ?z = OutOfFuel |- _ => unfold to_u8, to_range in H; destruct (_ && _)%bool; cbn [bind] in H; discriminate H end. }
  destruct (ewa sq m u v d1 d2 d3 d4 last) eqn:E1; cbn [bind]; [| reflexivity | exfalso; exact (NF _ E1)].
  assert (E2 : ewa sq m u v d1 d2 d3 d4 (last + 1) = UB); [| rewrite E2; reflexivity].
  unfold ewa, level_at. replace (last + 1 <? 0)%Z with false by (symmetry; apply Z.ltb_ge; unfold last; lia).
  replace (nth_error m (Z.to_nat (last + 1))) with (@None level); [reflexivity |].
  symmetry. apply nth_error_None. unfold last. lia.
Qed.
Print Assumptions ewa_last_level_refuted.

(* a footprint as large as the picture, with an exact root and logarithm at one; and any smaller one on
   a picture of one texel *)
Example ewa_last_level_ex : (exists m, texture_of [mk_texel 255 1 2 3] 1 m) /\
  (forall x, x = root (1 * 1 + 0 * 0) \/ x = root (0 * 0 + 1 * 1) -> (fun x => log_floor x + 2) x == 0 \/ (4%N = 1%N /\ (fun x => log_floor x + 2) x <= 0)) /\
  (forall x, x = root ((1 # 4) * (1 # 4) + 0 * 0) \/ x = root (0 * 0 + (1 # 8) * (1 # 8)) -> log_floor x == 0 \/ (1%N = 1%N /\ log_floor x <= 0)).
Proof.
  split; [| split].
  - destruct (image_map_ok [mk_texel 255 1 2 3] 1 ltac:(lia) ltac:(vm_compute; discriminate) ltac:(vm_compute; discriminate)) as (m & E & _).
    exists m. split; [lia |]. split; [vm_compute; discriminate |]. split; [vm_compute; discriminate | exact E].
  - intros x [-> | ->]; left; vm_compute; reflexivity.
  - intros x [-> | ->]; right; (split; [reflexivity | vm_compute; discriminate]).
Qed.

(* C215.  Footprints along the axes, less than half of the picture wide and of eccentricity at most 29, of
   pictures with a side of at least four texels: the filter is defined and its result is between the
   darkest and the brightest texel, up to one step below because both levels are rounded down. *)
Theorem ewa_filter_safe : forall lg sq values side m lo hi u v p q, close_sqrt sq -> log_half lg -> texture_of values side m ->
  within (picture_of values side) side lo hi -> (hi < 256)%N -> (4 <= side)%N ->
  0 <= u <= 1 -> 0 <= v <= 1 -> 0 < p -> p < 49 # 100 -> 0 < q -> p <= 29 * q -> q <= 29 * p ->
  exists t, ewa_filter lg sq m u v p 0 0 q = Ok t /\ forall c, channel c -> (lo <= c t + 1)%N /\ (c t <= hi)%N.
Proof.
  intros lg sq values side m lo hi u v p q SQ LH T W H256 S4 (U0 & U1) (V0 & V1) P0 P1 Q0 PQ QP. pose proof T as (L & S & _).
  destruct (texture_levels _ _ _ T) as (pics & Lm & _ & HL & WI).
  destruct (filter_axes sq p q SQ P0 Q0 PQ QP) as (d1 & d2 & d3 & d4 & sh & AX & SH0 & _ & SH1 & _ & EF). rewrite EF.
  assert (SHH : sh < 1 # 2) by (apply sqr_lt; [lra | nra]).
  specialize (LH sh SH0 SHH).
  assert (L2 : (2 <= N.log2 side)%N) by (change 2%N with (N.log2 4); apply N.log2_le_mono, S4).
  assert (L15 : (N.log2 side <= 15)%N) by (rewrite <- (N.log2_pow2 15) by lia; apply N.log2_le_mono, S).
  unfold ewa_core. set (last := (Z.of_nat (length m) - 1)%Z).
  assert (LL : last = Z.of_N (N.log2 side)) by (unfold last; lia).
  set (ch := Qmax 0 (inject_Z last + lg sh)).
  assert (C0 : 0 <= ch) by apply Q.le_max_l.
  assert (LQ : 2 <= inject_Z last) by (change 2 with (inject_Z 2); apply inject_le; lia).
  assert (C1 : ch < inject_Z (last - 1)).
  { assert (E : inject_Z (last - 1) == inject_Z last - 1) by (unfold Z.sub; rewrite inject_Z_plus; reflexivity). rewrite E.
    apply Q.max_lub_lt; lra. }
  clearbody ch. cbv zeta.
  assert (C2 : inject_Z (last - 1) <= inject_Z last) by (apply inject_le; lia).
  replace (Qle_bool ch (inject_Z last)) with true by (symmetry; apply Qle_bool_iff; lra). cbn [negb].
  pose proof (floor_ge ch 0 C0) as F0. pose proof (floor_below ch _ C1) as F1.
  unfold to_range. rewrite trunc_pos by exact C0.
  replace ((0 <=? Qfloor ch) && (Qfloor ch <? 256))%Z with true by (symmetry; apply andb_true_intro; split; [apply Z.leb_le | apply Z.ltb_lt]; lia).
  cbn [bind].
  assert (LV : forall i, (Z.of_nat i < last)%Z -> exists t, ewa sq m u v d1 d2 d3 d4 (Z.of_nat i) = Ok t /\ forall c, channel c -> (lo <= c t <= hi)%N).
  { intros i I. destruct (HL i ltac:(lia)) as (l & NT & SH). pose proof SH as (SL & _).
    destruct (sides side (N.of_nat i) L ltac:(lia)) as [_ S2]. specialize (S2 ltac:(lia)).
    apply (ewa_level_within sq values side m lo hi i l u v d1 d2 d3 d4 p); try assumption; try (split; assumption).
    rewrite SL. apply fits_half; [exact S2 | lra | lra]. }
  destruct (LV (Z.to_nat (Qfloor ch)) ltac:(lia)) as (t0 & E0 & B0).
  destruct (LV (Datatypes.S (Z.to_nat (Qfloor ch))) ltac:(lia)) as (t1 & E1 & B1).
  rewrite Z2Nat.id in E0 by lia. rewrite Nat2Z.inj_succ, Z2Nat.id in E1 by lia. unfold Z.succ in E1.
  rewrite E0, E1. cbn [bind]. pose proof (floor_le ch). pose proof (floor_lt ch).
  destruct (blend_texel_ok t0 t1 (ch - inject_Z (Qfloor ch)) lo hi) as (t & Et & Ct); [lra | lra | exact H256 | |].
  - intros c Cc. split; [apply B0, Cc | apply B1, Cc].
  - exists t. split; [exact Et |]. intros c Cc. exact (proj2 (Ct c Cc)).
Qed.
Print Assumptions ewa_filter_safe.

Example ewa_filter_safe_ex : (exists m, texture_of stripes 4 m) /\ close_sqrt root /\ log_half log_floor /\
  0 < 1 # 4 /\ 1 # 4 < 49 # 100 /\ 0 < 2 # 1 /\ 1 # 4 <= 29 * (2 # 1) /\ 2 # 1 <= 29 * (1 # 4).
Proof.
  split; [exact (proj1 ewa_level_within_ex) |]. split; [exact root_close |]. split; [exact log_floor_half |].
  repeat split; vm_compute; discriminate.
Qed.

(* C216.  A footprint without extent in one direction is not filtered in the other one, however long:
   the full resolution is used. *)
Theorem ewa_streak_refuted : forall lg sq m u v dudx dvdx, close_sqrt sq ->
  ewa_filter lg sq m u v dudx dvdx 0 0 = bilinear m u v 0 /\ ewa_filter lg sq m u v 0 0 dudx dvdx = bilinear m u v 0.
Proof.
  intros lg sq m u v dudx dvdx SQ.
  destruct (SQ (0 * 0 + 0 * 0)) as (Z0 & _ & Z1); [vm_compute; discriminate |].
  destruct (SQ (dudx * dudx + dvdx * dvdx)) as (L0 & _ & _); [pose proof (sqr_nonneg dudx); pose proof (sqr_nonneg dvdx); lra |].
  unfold ewa_filter. set (z := sq (0 * 0 + 0 * 0)) in *. set (l := sq (dudx * dudx + dvdx * dvdx)) in *. clearbody z l.
  assert (ZE : z == 0).
  { assert (X : (101 # 100) * (0 * 0 + 0 * 0) == 0) by reflexivity. rewrite X in Z1.
    destruct (Qlt_le_dec 0 z) as [G | G]; [exfalso; nra | lra]. }
  assert (QZ : Qeq_bool z 0 = true) by (apply Qeq_bool_iff; exact ZE).
  split.
  - replace (Qle_bool z l) with true by (symmetry; apply Qle_bool_iff; lra). cbn [negb]. rewrite QZ. reflexivity.
  - destruct (Qle_bool l z) eqn:E; cbn [negb].
    + apply Qle_bool_iff in E. assert (X : Qeq_bool l 0 = true) by (apply Qeq_bool_iff; lra). rewrite X. reflexivity.
    + rewrite QZ. reflexivity.
Qed.
Print Assumptions ewa_streak_refuted.

Example ewa_streak_ex : forall m u v, ewa_filter log_floor root m u v 20 0 0 0 = bilinear m u v 0.
Proof. intros. apply (ewa_streak_refuted log_floor root m u v 20 0 root_close). Qed.
