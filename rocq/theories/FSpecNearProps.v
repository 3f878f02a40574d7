(* Refraction by smooth glass in single precision: the direction obeys the law of refraction and
   has unit length up to rounding. *)
From Coq Require Import ZArith Reals List Lra Lia Bool.
From Flocq Require Import Core.Core IEEE754.BinarySingleNaN.
From Verif Require Import Common FltModel FltFacts FltProps FExtFacts FRayModel FRayFacts FSphereProps FBoxMarginProps FMatProps FMatBoundProps FFilmProps FQuadProps FQuadRootProps FFresModel FFresProps FFresNearProps FTexModel FTexProps FSpecModel FSpecProps.
Local Open Scope R_scope.

Lemma mult_abs : forall a b x y, Rabs a <= x -> Rabs b <= y -> Rabs (a * b) <= x * y.
Proof. intros a b x y A B. rewrite Rabs_mult. apply Rmult_le_compat; try apply Rabs_pos; assumption. Qed.

(* (1 + a)(1 + b) - 1 for two small errors *)
Lemma two_rel : forall a b x y, Rabs a <= x -> Rabs b <= y -> x <= 4 * u24 -> y <= 4 * u24 -> Rabs ((1 + a) * (1 + b) - 1) <= x + y + u24 / 100.
Proof.
  intros a b x y A B X Y. pose proof (mult_abs _ _ _ _ A B) as P. pose proof (Rabs_pos a). pose proof (Rabs_pos b).
  assert (x * y <= 4 * u24 * (4 * u24)) by (apply Rmult_le_compat; lra). assert (4 * u24 * (4 * u24) <= u24 / 100) by (unfold u24; lra).
  apply abs_both in A. apply abs_both in B. apply abs_both in P. replace ((1 + a) * (1 + b) - 1) with (a + b + a * b) by ring. apply Rabs_le. lra.
Qed.

Lemma ratio_pos : forall ei et, index ei -> index et -> 0 < val ei / val et /\ bpow radix2 (-80) <= val ei / val et * (val ei / val et) /\ h150 <= / 1000000 * (u24 * u24) * (val ei / val et) /\ h150 <= u24 / 1000 * (val ei / val et * (val ei / val et)).
Proof.
  intros ei et IE IT. pose proof (index_ratio ei et IE IT) as Q. pose proof (bpow_gt_0 radix2 (-40)). set (q := val ei / val et) in *. clearbody q.
  assert (QQ : bpow radix2 (-80) <= q * q) by (change (-80)%Z with (-40 + -40)%Z; rewrite bpow_plus; apply Rmult_le_compat; lra).
  split; [lra|]. split; [exact QQ|]. split.
  - apply Rle_trans with (bpow radix2 (-70) * bpow radix2 (-40)); [rewrite <- bpow_plus; apply bpow_le; lia|]. apply Rmult_le_compat; try apply bpow_ge_0; [|lra].
    unfold u24. change (-70)%Z with (-22 + (-24 + -24))%Z. rewrite bpow_plus, bpow_plus. cbn; lra.
  - apply Rle_trans with (bpow radix2 (-34) * bpow radix2 (-80)); [rewrite <- bpow_plus; apply bpow_le; lia|]. apply Rmult_le_compat; try apply bpow_ge_0; [|exact QQ].
    unfold u24. cbn; lra.
Qed.

(* the squared sine on the other side *)
Lemma refract_sine : forall ei et z, index ei -> index et -> fin z -> Rabs (val z) <= 1 + bpow radix2 (-10) ->
  let q := val ei / val et in let s := fmul (fmul (fdiv ei et) (fdiv ei et)) (fsub fone (fmul z z)) in
  Rabs (val s - q * q * (1 - val z * val z)) <= 7 * u24 * (q * q).
Proof.
  intros ei et z IE IT FZ Z. cbv zeta. pose proof (refract_numbers ei et z IE IT FZ Z) as N. cbv zeta in N.
  destruct N as (_ & _ & _ & _ & VE & E & V2 & E2 & VG & G & VS & _). destruct (ratio_pos ei et IE IT) as (QP & QQ & _ & HQ). pose proof (index_ratio ei et IE IT) as QB.
  set (eta := fdiv ei et) in *. set (e2 := fmul eta eta) in *. set (g := fsub fone (fmul z z)) in *. set (s := fmul e2 g) in *. set (q := val ei / val et) in *. clearbody s g e2 eta q.
  pose proof (bpow_gt_0 radix2 (-40)) as P40. pose proof (bpow_gt_0 radix2 (-80)) as P80.
  destruct (rel_error q) as (a & A & EA). { rewrite Rabs_pos_eq by lra. apply Rle_trans with (bpow radix2 (-40)); [apply bpow_le; lia|lra]. }
  rewrite <- VE in EA.
  assert (EE : 0 <= val eta * val eta) by apply Rle_0_sqr.
  destruct (rel_error (val eta * val eta)) as (b & B & EB).
  { rewrite Rabs_pos_eq by lra. apply Rle_trans with (bpow radix2 (-80)); [apply bpow_le; lia|]. change (-80)%Z with (-40 + -40)%Z. rewrite bpow_plus. apply Rmult_le_compat; lra. }
  rewrite <- V2 in EB.
  set (f := (1 + a) * (1 + a) * (1 + b) - 1).
  assert (F : val e2 = q * q * (1 + f)) by (rewrite EB, EA; unfold f; ring).
  assert (FB : Rabs f <= 31 / 10 * u24).
  { pose proof (two_rel a a _ _ A A ltac:(unfold u24; lra) ltac:(unfold u24; lra)) as T. set (c := (1 + a) * (1 + a) - 1) in *.
    pose proof (two_rel c b _ _ T B ltac:(unfold u24; lra) ltac:(unfold u24; lra)) as T2. replace ((1 + c) * (1 + b) - 1) with f in T2 by (unfold f, c; ring).
    unfold u24 in *; lra. }
  clearbody f. clear EA EB EE A B a b.
  pose proof (rerr (val z * val z)) as EM. pose proof (rerr (1 - rnd (val z * val z))) as EG. rewrite <- VG in EG. pose proof (rerr (val e2 * val g)) as ES. rewrite <- VS in ES.
  assert (ZZ : 0 <= val z * val z <= 1 + bpow radix2 (-8)).
  { split; [apply Rle_0_sqr|]. replace (val z * val z) with (Rabs (val z) * Rabs (val z)) by (rewrite <- Rabs_mult; apply Rabs_pos_eq, Rle_0_sqr).
    apply Rle_trans with ((1 + bpow radix2 (-10)) * (1 + bpow radix2 (-10))); [apply Rmult_le_compat; try apply Rabs_pos; exact Z|]. cbn; lra. }
  change (bpow radix2 (-8)) with (/ 256) in *. destruct h150_u24 as (H0 & H1). set (zz := val z * val z) in *. clearbody zz. set (m := rnd zz) in *. clearbody m. set (gv := val g) in *. set (sv := val s) in *. set (ev := val e2) in *. clearbody gv sv ev. set (qq := q * q) in *. clearbody qq. set (h := h150) in *. clearbody h. clear - F FB EM EG ES ZZ H0 H1 G HQ QQ P80.
  assert (DG : Rabs (gv - (1 - zz)) <= 21 / 10 * u24).
  { rewrite (Rabs_pos_eq zz) in EM by lra. apply abs_both in EM. apply abs_both in EG.
    assert (Rabs (1 - m) <= 1 + / 100). { unfold u24 in *. apply Rabs_le. lra. }
    unfold u24 in *. apply Rabs_le. lra. }
  assert (T1 : Rabs (f * gv) <= 31 / 10 * u24 * 1) by (apply mult_abs; [exact FB|apply Rabs_le; lra]).
  assert (EVG : Rabs (ev * gv) <= qq * (11 / 10)).
  { rewrite F, Rmult_assoc. rewrite Rabs_mult, (Rabs_pos_eq qq) by lra. apply Rmult_le_compat_l; [lra|]. apply abs_both in T1. apply Rabs_le. unfold u24 in *. lra. }
  assert (T2 : Rabs (qq * (f * gv + (gv - (1 - zz)))) <= qq * (52 / 10 * u24)).
  { rewrite Rabs_mult, (Rabs_pos_eq qq) by lra. apply Rmult_le_compat_l; [lra|]. apply abs_both in T1. apply abs_both in DG. apply Rabs_le. lra. }
  replace (sv - qq * (1 - zz)) with ((sv - ev * gv) + qq * (f * gv + (gv - (1 - zz)))) by (rewrite F; ring).
  eapply Rle_trans; [apply Rabs_triang|].
  assert (u24 * Rabs (ev * gv) <= u24 * (qq * (11 / 10))) by (apply Rmult_le_compat_l; [unfold u24; lra|exact EVG]).
  clear - H T2 ES HQ QQ P80 H0. unfold u24 in *. lra.
Qed.

(* the squared cosine on the other side *)
Lemma refract_cos_square : forall s, fin s -> - bpow radix2 72 <= val s < 1 ->
  let k := fsqrt (fsub fone s) in Rabs (val k * val k - (1 - val s)) <= 31 / 10 * u24 * (1 - val s).
Proof.
  intros s FS S. destruct (refract_cosine s FS S) as (_ & _ & VD & D & VK & K). cbv zeta in *. set (k := fsqrt (fsub fone s)) in *. set (d := fsub fone s) in *. clearbody k d.
  pose proof (below_one s ltac:(lra)) as B. rewrite <- u24_bpow in B. pose proof (bpow_gt_0 radix2 (-24)) as P24. pose proof (bpow_gt_0 radix2 (-12)) as P12.
  assert (SQ : sqrt (val d) * sqrt (val d) = val d) by (apply sqrt_sqrt; lra).
  assert (S12 : bpow radix2 (-12) <= sqrt (val d)). { replace (bpow radix2 (-12)) with (sqrt (bpow radix2 (-12) * bpow radix2 (-12))) by (apply sqrt_square; lra). rewrite <- bpow_plus. apply sqrt_le_1_alt, D. }
  destruct (rel_error (sqrt (val d))) as (b & Bb & EB). { rewrite Rabs_pos_eq by lra. apply Rle_trans with (bpow radix2 (-12)); [apply bpow_le; lia|exact S12]. }
  destruct (rel_error (1 - val s)) as (a & A & EA). { rewrite Rabs_pos_eq by lra. apply Rle_trans with (bpow radix2 (-24)); [apply bpow_le; lia|lra]. }
  rewrite <- VK in EB. rewrite <- VD in EA.
  pose proof (two_rel b b _ _ Bb Bb ltac:(unfold u24; lra) ltac:(unfold u24; lra)) as T. set (c := (1 + b) * (1 + b) - 1) in *.
  pose proof (two_rel c a _ _ T A ltac:(unfold u24; lra) ltac:(unfold u24; lra)) as T2. set (f := (1 + c) * (1 + a) - 1) in *.
  replace (val k * val k - (1 - val s)) with ((1 - val s) * f).
  - rewrite Rabs_mult, (Rabs_pos_eq (1 - val s)) by lra. rewrite (Rmult_comm _ (1 - val s)). apply Rmult_le_compat_l; [lra|]. unfold u24 in *; lra.
  - unfold f, c. rewrite EB. replace (sqrt (val d) * (1 + b) * (sqrt (val d) * (1 + b))) with (sqrt (val d) * sqrt (val d) * ((1 + b) * (1 + b))) by ring. rewrite SQ, EA. ring.
Qed.

(* the coordinates along the surface *)
Lemma refract_along : forall ei et x, index ei -> index et -> fin x -> Rabs (val x) <= 11 / 10 ->
  let q := val ei / val et in let w := val (fmul (fdiv ei et) (fneg x)) in
  Rabs (w + q * val x) <= 4 * u24 * q /\ Rabs (w * w - q * q * (val x * val x)) <= 5 * u24 * (q * q) * (val x * val x) + u24 / 100 * (q * q).
Proof.
  intros ei et x IE IT FX X. cbv zeta. destruct (ratio_pos ei et IE IT) as (QP & _ & HQ & _). pose proof (index_ratio ei et IE IT) as QB.
  pose proof (refract_numbers ei et fzero IE IT (proj1 fzero_val)) as N. cbv zeta in N. rewrite (proj2 fzero_val), Rabs_R0 in N. specialize (N ltac:(pose proof (bpow_gt_0 radix2 (-10)); lra)).
  destruct N as (FE & _ & _ & _ & VE & E & _).
  set (eta := fdiv ei et) in *. set (q := val ei / val et) in *. clearbody eta q. pose proof (bpow_gt_0 radix2 (-40)) as P40.
  destruct (rel_error q) as (a & A & EA). { rewrite Rabs_pos_eq by lra. apply Rle_trans with (bpow radix2 (-40)); [apply bpow_le; lia|lra]. }
  rewrite <- VE in EA. destruct (neg_val x FX) as (FN & VN).
  destruct (fmul_val eta (fneg x) FE FN) as (_ & VW).
  { rewrite VN. apply (small_127 _ 41); [lia|]. rewrite Rabs_mult, Rabs_Ropp. change 41%Z with (40 + 1)%Z. rewrite bpow_plus. change (bpow radix2 1) with 2.
    apply Rmult_le_compat; try apply Rabs_pos; [rewrite Rabs_pos_eq; lra|lra]. }
  rewrite VN in VW. pose proof (rerr (val eta * - val x)) as ER. rewrite <- VW in ER. set (w := val (fmul eta (fneg x))) in *. clearbody w. clear VW. rewrite EA in ER. clear EA VE FE E.
  set (t := Rabs (val x)) in *. assert (T0 : 0 <= t) by apply Rabs_pos. assert (TT : val x * val x = t * t) by (unfold t; rewrite <- Rabs_mult; symmetry; apply Rabs_pos_eq, Rle_0_sqr). rewrite TT.
  assert (QX : Rabs (q * val x) = q * t) by (rewrite Rabs_mult, (Rabs_pos_eq q) by lra; reflexivity).
  assert (A1 : Rabs (q * (1 + a) * - val x) <= q * t * (1001 / 1000)).
  { replace (q * (1 + a) * - val x) with (- ((q * val x) * (1 + a))) by ring. rewrite Rabs_Ropp, Rabs_mult, QX. apply Rmult_le_compat_l; [apply Rmult_le_pos; lra|].
    apply abs_both in A. apply Rabs_le. unfold u24 in *. lra. }
  assert (A2 : Rabs (q * val x * a) <= q * t * (1001 / 1000 * u24)).
  { rewrite Rabs_mult, QX. apply Rmult_le_compat_l; [apply Rmult_le_pos; lra|exact A]. }
  assert (QT : 0 <= q * t) by (apply Rmult_le_pos; lra). pose proof h150_small as (H0 & _).
  assert (D : Rabs (w + q * val x) <= 201 / 100 * u24 * (q * t) + h150).
  { replace (w + q * val x) with ((w - q * (1 + a) * - val x) - q * val x * a) by ring. eapply Rle_trans; [apply Rabs_triang|]. rewrite Rabs_Ropp.
    assert (u24 * Rabs (q * (1 + a) * - val x) <= u24 * (q * t * (1001 / 1000))) by (apply Rmult_le_compat_l; [unfold u24; lra|exact A1]).
    clear - H ER A2 QT. unfold u24 in *. lra. }
  assert (QT' : q * t <= q * (11 / 10)) by (apply Rmult_le_compat_l; lra).
  split.
  - clear - D QT' HQ QP. unfold u24 in *. lra.
  - set (d := w + q * val x) in *. replace (w * w - q * q * (t * t)) with (d * d - 2 * (q * val x) * d) by (rewrite <- TT; unfold d; ring). clearbody d.
    assert (DD : Rabs (d * d) <= (201 / 100 * u24 * (q * t) + h150) * (201 / 100 * u24 * (q * t) + h150)) by (apply mult_abs; exact D).
    assert (QD : Rabs (q * val x * d) <= q * t * (201 / 100 * u24 * (q * t) + h150)) by (apply mult_abs; [lra|exact D]).
    apply Rle_trans with ((201 / 100 * u24 * (q * t) + h150) * (201 / 100 * u24 * (q * t) + h150) + 2 * (q * t * (201 / 100 * u24 * (q * t) + h150))).
    { replace (2 * (q * val x) * d) with (2 * (q * val x * d)) by ring. apply abs_both in DD. apply abs_both in QD. apply Rabs_le. lra. }
    set (r := / 1000000 * (u24 * u24) * q) in *. assert (R0 : 0 <= r) by (unfold r; apply Rmult_le_pos; [unfold u24|]; lra).
    apply Rle_trans with ((201 / 100 * u24 * (q * t) + r) * (201 / 100 * u24 * (q * t) + r) + 2 * (q * t * (201 / 100 * u24 * (q * t) + r))).
    { assert (U : 0 <= 201 / 100 * u24 * (q * t)) by (apply Rmult_le_pos; [unfold u24; lra|exact QT]).
      apply Rplus_le_compat; [apply Rmult_le_compat; lra|]. apply Rmult_le_compat_l; [lra|]. apply Rmult_le_compat_l; lra. }
    replace ((201 / 100 * u24 * (q * t) + r) * (201 / 100 * u24 * (q * t) + r) + 2 * (q * t * (201 / 100 * u24 * (q * t) + r)))
      with (q * q * ((201 / 100 * u24 * t + / 1000000 * (u24 * u24)) * (201 / 100 * u24 * t + / 1000000 * (u24 * u24)) + 2 * (t * (201 / 100 * u24 * t + / 1000000 * (u24 * u24))))) by (unfold r; ring).
    replace (5 * u24 * (q * q) * (t * t) + u24 / 100 * (q * q)) with (q * q * (5 * u24 * (t * t) + u24 / 100)) by ring.
    apply Rmult_le_compat_l; [apply Rle_0_sqr|]. assert (TT0 : 0 <= t * t) by apply Rle_0_sqr. clear - T0 X TT0.
    replace ((201 / 100 * u24 * t + / 1000000 * (u24 * u24)) * (201 / 100 * u24 * t + / 1000000 * (u24 * u24)) + 2 * (t * (201 / 100 * u24 * t + / 1000000 * (u24 * u24))))
      with ((201 / 100 * u24 * (201 / 100 * u24) + 2 * (201 / 100 * u24)) * (t * t) + (2 * (201 / 100 * u24) * (/ 1000000 * (u24 * u24)) + 2 * (/ 1000000 * (u24 * u24))) * t + / 1000000 * (u24 * u24) * (/ 1000000 * (u24 * u24))) by ring.
    unfold u24 in *. lra.
Qed.

Definition length2 (v : fvec) : R := val (fx v) * val (fx v) + val (fy v) * val (fy v) + val (fz v) * val (fz v).

Lemma unit_coords : forall v, Rabs (length2 v - 1) <= bpow radix2 (-10) ->
  Rabs (val (fx v)) <= 11 / 10 /\ Rabs (val (fy v)) <= 11 / 10 /\ Rabs (val (fz v)) <= 1 + bpow radix2 (-10) /\
  val (fx v) * val (fx v) + val (fy v) * val (fy v) <= 1 + bpow radix2 (-10).
Proof.
  intros v H. unfold length2 in H. set (x := val (fx v)) in *. set (y := val (fy v)) in *. set (z := val (fz v)) in *. clearbody x y z.
  pose proof (Rle_0_sqr x) as X. pose proof (Rle_0_sqr y) as Y. pose proof (Rle_0_sqr z) as Z. unfold Rsqr in *. apply abs_both in H.
  assert (S : forall a b, 0 <= b -> a * a <= b * b -> Rabs a <= b). { intros a b B L. rewrite <- (Rabs_pos_eq b B). apply Rsqr_le_abs_0. exact L. }
  change (bpow radix2 (-10)) with (/ 1024) in *. repeat split; try (apply S; lra). lra.
Qed.

(* Let q be the ratio of the indices in the order of the light and s2 = q^2 (1 - z^2) the squared
   exact sine on the other side, for a direction whose squared length is within 2^-10 of 1.
   Where s2 exceeds 1 by 2^-20 q^2 there is total reflection; where it is below 1 by as much, there
   is none. A returned direction is opposite along the surface and q times as long up to
   2^-22 q, its squared cosine is 1 - s2 up to 2^-20 (1 + q^2), and its length is 1 up to
   that and q^2 times what the given direction misses. *)
Theorem float_refract_near : forall eta_i eta_t wo, index eta_i -> index eta_t -> finite_vec wo -> Rabs (length2 wo - 1) <= bpow radix2 (-10) ->
  let q := if Rlt_dec 0 (val (fz wo)) then val eta_i / val eta_t else val eta_t / val eta_i in
  let s2 := q * q * (1 - val (fz wo) * val (fz wo)) in
  let r := f_refract eta_i eta_t wo in
  (1 + bpow radix2 (-20) * (q * q) <= s2 -> fb_wi r = None) /\
  (s2 + bpow radix2 (-20) * (q * q) <= 1 -> fb_wi r <> None) /\
  (forall wi, fb_wi r = Some wi ->
    Rabs (val (fx wi) + q * val (fx wo)) <= bpow radix2 (-22) * q /\
    Rabs (val (fy wi) + q * val (fy wo)) <= bpow radix2 (-22) * q /\
    Rabs (val (fz wi) * val (fz wi) - (1 - s2)) <= bpow radix2 (-20) * (1 + q * q) /\
    Rabs (length2 wi - 1) <= bpow radix2 (-20) * (1 + q * q) + q * q * Rabs (length2 wo - 1)).
Proof.
  assert (G : forall b ei et wo, index ei -> index et -> finite_vec wo -> Rabs (length2 wo - 1) <= bpow radix2 (-10) ->
    let q := val ei / val et in let s2 := q * q * (1 - val (fz wo) * val (fz wo)) in let r := f_refract_from b ei et wo in
    (1 + bpow radix2 (-20) * (q * q) <= s2 -> fb_wi r = None) /\
    (s2 + bpow radix2 (-20) * (q * q) <= 1 -> fb_wi r <> None) /\
    (forall wi, fb_wi r = Some wi ->
      Rabs (val (fx wi) + q * val (fx wo)) <= bpow radix2 (-22) * q /\
      Rabs (val (fy wi) + q * val (fy wo)) <= bpow radix2 (-22) * q /\
      Rabs (val (fz wi) * val (fz wi) - (1 - s2)) <= bpow radix2 (-20) * (1 + q * q) /\
      Rabs (length2 wi - 1) <= bpow radix2 (-20) * (1 + q * q) + q * q * Rabs (length2 wo - 1))).
  { intros b ei et wo IE IT (FX & FY & FZ) L. cbv zeta. destruct (unit_coords wo L) as (X & Y & Z & XY).
    pose proof (refract_sine ei et (fz wo) IE IT FZ Z) as SN. pose proof (refract_numbers ei et (fz wo) IE IT FZ Z) as N. cbv zeta in *.
    destruct N as (_ & _ & _ & FS & _ & _ & _ & _ & _ & _ & _ & S). destruct (ratio_pos ei et IE IT) as (QP & QQ & _ & _). pose proof (bpow_gt_0 radix2 (-80)) as P80.
    destruct (refract_along ei et (fx wo) IE IT FX X) as (X1 & X2). destruct (refract_along ei et (fy wo) IE IT FY Y) as (Y1 & Y2).
    unfold f_refract_from. cbv zeta. set (s := fmul (fmul (fdiv ei et) (fdiv ei et)) (fsub fone (fmul (fz wo) (fz wo)))) in *. clearbody s.
    assert (B20 : bpow radix2 (-20) = 16 * u24) by (unfold u24; cbn; lra). assert (B22 : bpow radix2 (-22) = 4 * u24) by (unfold u24; cbn; lra). rewrite B20, B22.
    destruct fone_val as (FO & VO). set (q := val ei / val et) in *. set (s2 := q * q * (1 - val (fz wo) * val (fz wo))) in *.
    apply abs_both in SN. pose proof u24_pos as UP.
    assert (UQ : 0 < u24 * (q * q)) by (apply Rmult_lt_0_compat; lra).
    destruct (fle fone s) eqn:E; cbn [fb_wi].
    - apply (fle_val _ _ FO FS) in E. rewrite VO in E. split; [reflexivity|]. split; [|discriminate]. intro H. exfalso. lra.
    - assert (S1 : val s < 1). { apply Rnot_le_lt. intro G. rewrite <- VO in G. apply (fle_val _ _ FO FS) in G. congruence. }
      split; [intro H; exfalso; lra|]. split; [discriminate|].
      pose proof (refract_cos_square s FS (conj (proj1 S) S1)) as KK. cbv zeta in KK. destruct (refract_cosine s FS (conj (proj1 S) S1)) as (_ & FK & _). set (k := fsqrt (fsub fone s)) in *. clearbody k.
      set (ex := fdiv ei et) in *. clearbody ex.
      intros wi W. apply (f_equal (fun o => match o with Some v => v | None => wi end)) in W. cbv beta iota in W. subst wi. cbn [fx fy fz]. split; [lra|]. split; [lra|].
      assert (WZ : val (if b then fneg k else k) * val (if b then fneg k else k) = val k * val k).
      { destruct b; [|reflexivity]. destruct (neg_val k FK) as (_ & V). rewrite V. ring. }
      unfold length2. cbn [fx fy fz]. rewrite WZ.
      assert (ZZ : val (fz wo) * val (fz wo) <= 1 + / 256).
      { replace (val (fz wo) * val (fz wo)) with (Rabs (val (fz wo)) * Rabs (val (fz wo))) by (rewrite <- Rabs_mult; apply Rabs_pos_eq, Rle_0_sqr).
        apply Rle_trans with ((1 + bpow radix2 (-10)) * (1 + bpow radix2 (-10))); [apply Rmult_le_compat; try apply Rabs_pos; exact Z|]. cbn; lra. }
      assert (NS : 1 - s2 <= 1 + q * q * / 256).
      { unfold s2. assert (q * q * (val (fz wo) * val (fz wo) - 1) <= q * q * / 256) by (apply Rmult_le_compat_l; lra). lra. }
      assert (US : u24 * (1 - val s) <= u24 * (1 + q * q * / 128)).
      { apply Rmult_le_compat_l; [lra|]. assert (7 * u24 * (q * q) <= q * q * / 256) by (clear - QQ P80; unfold u24; lra). lra. }
      assert (KB : Rabs (val k * val k - (1 - s2)) <= 108 / 10 * u24 * (q * q) + 32 / 10 * u24).
      { apply abs_both in KK. apply Rabs_le. clear - KK US SN UQ UP. unfold u24 in *. lra. }
      split; [eapply Rle_trans; [exact KB|]; clear - UQ UP; lra|].
      set (wx := val (fmul ex (fneg (fx wo)))) in *. set (wy := val (fmul ex (fneg (fy wo)))) in *. clearbody wx wy.
      set (x := val (fx wo)) in *. set (y := val (fy wo)) in *. set (z := val (fz wo)) in *. set (len := x * x + y * y + z * z - 1).
      replace (wx * wx + wy * wy + val k * val k - 1) with ((wx * wx - q * q * (x * x)) + (wy * wy - q * q * (y * y)) + (val k * val k - (1 - s2)) + q * q * len) by (unfold s2, len; ring).
      assert (QL : Rabs (q * q * len) <= q * q * Rabs len) by (rewrite Rabs_mult, (Rabs_pos_eq (q * q)) by lra; lra).
      replace (length2 wo - 1) with len in * by reflexivity. clearbody len.
      assert (XB : u24 * (q * q) * (x * x + y * y) <= u24 * (q * q) * (1 + / 1024)) by (apply Rmult_le_compat_l; [lra|exact XY]).
      apply abs_both in X2. apply abs_both in Y2. apply abs_both in KB. apply abs_both in QL.
      set (a := wx * wx - q * q * (x * x)) in *. set (c := wy * wy - q * q * (y * y)) in *. set (e := val k * val k - (1 - s2)) in *. set (l := q * q * len) in *. clearbody a c e l.
      assert (XS : 5 * u24 * (q * q) * (x * x) + 5 * u24 * (q * q) * (y * y) = 5 * (u24 * (q * q) * (x * x + y * y))) by ring.
      clear - XS XB X2 Y2 KB QL UQ UP. apply Rabs_le. lra. }
  intros i t wo II IT F L. cbv zeta. unfold f_refract, fgt. fold (flt fzero (fz wo)). destruct fzero_val as (FZ & VZ). pose proof F as (_ & _ & FW).
  destruct (Rlt_dec 0 (val (fz wo))) as [P|P].
  - assert (E : flt fzero (fz wo) = true) by (apply (flt_val _ _ FZ FW); lra). rewrite E. apply G; assumption.
  - assert (E : flt fzero (fz wo) = false). { destruct (flt fzero (fz wo)) eqn:E; [|reflexivity]. apply (flt_val _ _ FZ FW) in E. lra. } rewrite E. apply G; assumption.
Qed.
Print Assumptions float_refract_near.

(* the same direction as in refract_case meets the hypothesis on the length *)
Example near_case : let wo := mk_fvec (fnum 10066330 (-24)) fzero (fnum 13421773 (-24)) in finite_vec wo /\ Rabs (length2 wo - 1) <= bpow radix2 (-10).
Proof.
  cbv zeta. split; [repeat split|]. unfold length2. cbn [fx fy fz]. rewrite (proj2 fzero_val).
  assert (A : val (fnum 10066330 (-24)) = 10066330 / 16777216) by (erewrite lit_val by (vm_compute; reflexivity); cbn; lra).
  assert (B : val (fnum 13421773 (-24)) = 13421773 / 16777216) by (erewrite lit_val by (vm_compute; reflexivity); cbn; lra).
  rewrite A, B. apply Rabs_le. cbn; lra.
Qed.
