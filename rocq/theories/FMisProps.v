(* Weights of combined light and material samples in single precision. *)
From Coq Require Import ZArith Reals List Lra Lia Bool.
From Flocq Require Import Core.Core IEEE754.BinarySingleNaN.
From Verif Require Import Common FltModel FltFacts FltProps FExtFacts FRayModel FSphereProps FBoxMarginProps FMatBoundProps FFilmProps FFresProps FFresNearProps FTexModel FTexProps FltVecProps FSpecProps FMisModel.
Local Open Scope R_scope.

(* the balance of squares *)
Definition share (p q : R) : R := p * p / (p * p + q * q).

Lemma square_val : forall p, fin p -> 0 <= val p <= bpow radix2 62 -> fin (fmul p p) /\ val (fmul p p) = rnd (val p * val p) /\ 0 <= val (fmul p p) <= bpow radix2 124.
Proof.
  intros p F P. assert (S : 0 <= val p * val p <= bpow radix2 124).
  { split; [apply Rmult_le_pos; lra|]. change 124%Z with (62 + 62)%Z. rewrite bpow_plus. apply Rmult_le_compat; lra. }
  destruct (fmul_val p p F F) as (G & V); [rewrite Rabs_pos_eq by lra; apply Rle_trans with (bpow radix2 124); [lra|apply bpow_le; lia]|].
  split; [exact G|]. split; [exact V|]. rewrite V. apply rnd_between; [apply fits_0|apply fits_bpow; lia|exact S].
Qed.

(* P and Q are the rounded squares, s the rounded sum *)
Lemma weight_val : forall p q, fin p -> fin q -> bpow radix2 (-50) <= val p <= bpow radix2 62 -> 0 <= val q <= bpow radix2 62 ->
  let P := rnd (val p * val p) in let Q := rnd (val q * val q) in let s := rnd (P + Q) in
  bpow radix2 (-100) <= P /\ 0 <= Q /\ P <= s /\ Q <= s /\ fin (f_weight p q) /\ val (f_weight p q) = rnd (P / s) /\ fin (f_weight q p) /\ val (f_weight q p) = rnd (Q / s).
Proof.
  intros p q FP FQ P Q. cbv zeta. pose proof (bpow_gt_0 radix2 (-50)) as P50. pose proof (bpow_gt_0 radix2 (-100)) as P100.
  destruct (square_val p FP ltac:(lra)) as (F1 & V1 & B1). destruct (square_val q FQ Q) as (F2 & V2 & B2).
  assert (L : bpow radix2 (-100) <= val (fmul p p)).
  { rewrite V1. rewrite <- (rnd_fits (bpow radix2 (-100))) by (apply fits_bpow; lia). apply rnd_le. change (-100)%Z with (-50 + -50)%Z. rewrite bpow_plus. apply Rmult_le_compat; lra. }
  rewrite <- V1, <- V2. unfold f_weight. set (a := fmul p p) in *. set (b := fmul q q) in *. clearbody a b.
  assert (T : bpow radix2 124 + bpow radix2 124 <= bpow radix2 127) by (cbn; lra).
  destruct (fadd_val a b F1 F2) as (FS & VS); [rewrite Rabs_pos_eq by lra; lra|].
  destruct (fadd_val b a F2 F1) as (FT & VT); [rewrite Rabs_pos_eq by lra; lra|]. rewrite (Rplus_comm (val b)) in VT.
  assert (A : val a <= rnd (val a + val b)) by (rewrite <- (rnd_fits (val a) (fits_val a)) at 1; apply rnd_le; lra).
  assert (B : val b <= rnd (val a + val b)) by (rewrite <- (rnd_fits (val b) (fits_val b)) at 1; apply rnd_le; lra).
  assert (U : forall x, 0 <= x <= rnd (val a + val b) -> 0 <= x / rnd (val a + val b) <= 1).
  { intros x X. split; [apply Rmult_le_pos; [lra|left; apply Rinv_0_lt_compat; lra]|]. apply (Rmult_le_reg_r (rnd (val a + val b))); [lra|]. unfold Rdiv. rewrite Rmult_assoc, Rinv_l by lra. lra. }
  destruct (fdiv_val a (fadd a b) F1) as (FD & VD); [rewrite VS; lra|rewrite VS; apply one_127; rewrite Rabs_pos_eq; apply U; lra|]. rewrite VS in VD.
  destruct (fdiv_val b (fadd b a) F2) as (FE & VE); [rewrite VT; lra|rewrite VT; apply one_127; rewrite Rabs_pos_eq; apply U; lra|]. rewrite VT in VE.
  repeat split; try assumption; lra.
Qed.

Lemma div_le_one : forall x s, 0 < s -> 0 <= x <= s -> 0 <= x / s <= 1.
Proof.
  intros x s S X. split; [apply Rmult_le_pos; [lra|left; apply Rinv_0_lt_compat; lra]|]. apply (Rmult_le_reg_r s); [lra|]. unfold Rdiv. rewrite Rmult_assoc, Rinv_l by lra. lra.
Qed.

Lemma quotient_error : forall x s c e, 0 < s -> Rabs (x - c * s) <= e * s -> Rabs (x / s - c) <= e.
Proof.
  intros x s c e S H. replace (x / s - c) with ((x - c * s) / s) by (field; lra). unfold Rdiv. rewrite Rabs_mult, (Rabs_pos_eq (/ s)) by (left; apply Rinv_0_lt_compat; lra).
  apply (Rmult_le_reg_r s); [lra|]. rewrite Rmult_assoc, Rinv_l by lra. lra.
Qed.

(* For a density p between 2^-50 and 2^62 and any other density q up to 2^62 both weights are
   fractions, they add up to 1 up to 2^-22, each is within 2^-21 of the exact one, and the larger
   density has the larger weight. *)
Theorem float_mis_weights : forall p q, fin p -> fin q -> bpow radix2 (-50) <= val p <= bpow radix2 62 -> 0 <= val q <= bpow radix2 62 ->
  fin (f_weight p q) /\ fin (f_weight q p) /\ 0 <= val (f_weight p q) <= 1 /\ 0 <= val (f_weight q p) <= 1 /\
  Rabs (val (f_weight p q) + val (f_weight q p) - 1) <= bpow radix2 (-22) /\
  Rabs (val (f_weight p q) - share (val p) (val q)) <= bpow radix2 (-21) /\
  Rabs (val (f_weight q p) - share (val q) (val p)) <= bpow radix2 (-21) /\
  (val q <= val p -> val (f_weight q p) <= val (f_weight p q)) /\ (val p <= val q -> val (f_weight p q) <= val (f_weight q p)).
Proof.
  intros p q FP FQ P Q. pose proof (weight_val p q FP FQ P Q) as W. cbv zeta in W. pose proof (bpow_gt_0 radix2 (-50)) as P50. pose proof (bpow_gt_0 radix2 (-100)) as P100.
  destruct W as (LA & LB & AS & BS & F1 & V1 & F2 & V2). rewrite V1, V2. clear V1 V2.
  assert (PP : bpow radix2 (-100) <= val p * val p) by (change (-100)%Z with (-50 + -50)%Z; rewrite bpow_plus; apply Rmult_le_compat; lra).
  assert (QQ : 0 <= val q * val q) by (apply Rmult_le_pos; lra).
  assert (MO : (val q <= val p -> rnd (val q * val q) <= rnd (val p * val p)) /\ (val p <= val q -> rnd (val p * val p) <= rnd (val q * val q))).
  { split; intro L; apply rnd_le, Rmult_le_compat; lra. }
  unfold share. destruct (rel_error (val p * val p)) as (ea & EA & VA); [rewrite Rabs_pos_eq; lra|].
  assert (QE : Rabs (rnd (val q * val q) - val q * val q) <= u24 * (val q * val q) + h150) by (rewrite <- (Rabs_pos_eq (val q * val q)) at 3 by exact QQ; apply rerr).
  destruct (rel_error (rnd (val p * val p) + rnd (val q * val q))) as (es & ES & VS); [rewrite Rabs_pos_eq; lra|].
  set (s := rnd (rnd (val p * val p) + rnd (val q * val q))) in *. set (A := rnd (val p * val p)) in *. set (B := rnd (val q * val q)) in *.
  assert (HH : h150 <= u24 * (/ 1000 * (val p * val p))).
  { apply Rle_trans with (u24 * (/ 1000 * bpow radix2 (-100))); [|unfold u24; lra]. unfold h150, u24. replace (-150)%Z with (-50 + -100)%Z by lia. rewrite bpow_plus.
    replace (bpow radix2 (-50)) with (/ 1125899906842624) by (cbn; lra). lra. }
  set (a := val p * val p) in *. set (b := val q * val q) in *. clearbody s A B a b. clear FP FQ P Q P50.
  assert (S0 : 0 < s) by lra. pose proof (div_le_one A s S0 ltac:(lra)) as UA. pose proof (div_le_one B s S0 ltac:(lra)) as UB.
  split; [exact F1|]. split; [exact F2|]. clear F1 F2.
  assert (f1 : fits 1) by (change 1 with (bpow radix2 0); apply fits_bpow; lia).
  split; [apply rnd_between; [apply fits_0|exact f1|exact UA]|]. split; [apply rnd_between; [apply fits_0|exact f1|exact UB]|].
  pose proof (rerr (A / s)) as RA. rewrite (Rabs_pos_eq (A / s)) in RA by lra. pose proof (rerr (B / s)) as RB. rewrite (Rabs_pos_eq (B / s)) in RB by lra.
  destruct h150_u24 as (H0 & H1). apply abs_both in EA. apply abs_both in ES. apply abs_both in QE.
  (* the sum of the exact quotients *)
  assert (SM : Rabs ((A + B) / s - 1) <= 1002 / 1000 * u24).
  { apply quotient_error; [exact S0|]. rewrite VS. replace (A + B - 1 * ((A + B) * (1 + es))) with ((A + B) * - es) by ring.
    rewrite Rabs_mult, (Rabs_pos_eq (A + B)), Rabs_Ropp by lra. apply Rle_trans with ((A + B) * (1001 / 1000 * u24)); [apply Rmult_le_compat_l; [lra|apply Rabs_le; exact ES]|].
    replace (1002 / 1000 * u24 * ((A + B) * (1 + es))) with ((A + B) * (1002 / 1000 * u24 * (1 + es))) by ring. apply Rmult_le_compat_l; [lra|]. unfold u24 in *. lra. }
  replace ((A + B) / s) with (A / s + B / s) in SM by (field; lra). apply abs_both in SM. apply abs_both in RA. apply abs_both in RB.
  (* the exact errors of the squares *)
  assert (DA : Rabs (A - a) <= 1002 / 1000 * u24 * a).
  { rewrite VA. replace (a * (1 + ea) - a) with (ea * a) by ring. rewrite Rabs_mult, (Rabs_pos_eq a) by lra. apply Rmult_le_compat_r; [lra|]. apply Rabs_le. unfold u24 in *. lra. }
  assert (DB : Rabs (B - b) <= u24 * (1002 / 1000 * (a + b))) by (apply Rabs_le; unfold u24 in *; lra). apply abs_both in DA. apply abs_both in DB.
  assert (DS : Rabs (s - (a + b)) <= 3 * u24 * (a + b)).
  { assert (E : Rabs (s - (A + B)) <= u24 * (1002 / 1000 * (a + b))).
    { rewrite VS. replace ((A + B) * (1 + es) - (A + B)) with ((A + B) * es) by ring. rewrite Rabs_mult, (Rabs_pos_eq (A + B)) by lra.
      apply Rle_trans with ((A + B) * (1001 / 1000 * u24)); [apply Rmult_le_compat_l; [lra|apply Rabs_le; exact ES]|]. unfold u24 in *. lra. }
    apply abs_both in E. apply Rabs_le. unfold u24 in *. lra. }
  assert (QT : forall X x, Rabs (X - x) <= u24 * (1002 / 1000 * (a + b)) -> 0 <= x <= a + b -> Rabs (X / s - x / (a + b)) <= 5 * u24).
  { intros X x DX HX. pose proof (div_le_one x (a + b) ltac:(lra) HX) as UX. set (c := x / (a + b)) in *. assert (XC : x = c * (a + b)) by (unfold c; field; lra). clearbody c.
    apply quotient_error; [exact S0|]. replace (X - c * s) with ((X - x) - c * (s - (a + b))) by (rewrite XC; ring).
    assert (CD : Rabs (c * (s - (a + b))) <= 1 * (3 * u24 * (a + b))) by (rewrite Rabs_mult; apply Rmult_le_compat; [apply Rabs_pos|apply Rabs_pos|rewrite Rabs_pos_eq; lra|exact DS]).
    apply abs_both in CD. apply abs_both in DX. apply abs_both in DS. apply Rabs_le. unfold u24 in *. lra. }
  pose proof (QT A a ltac:(apply Rabs_le; unfold u24 in *; lra) ltac:(lra)) as EAQ. pose proof (QT B b ltac:(apply Rabs_le; unfold u24 in *; lra) ltac:(lra)) as EBQ.
  apply abs_both in EAQ. apply abs_both in EBQ. rewrite (Rplus_comm b a).
  replace (bpow radix2 (-22)) with (4 * u24) by (unfold u24; cbn; lra). replace (bpow radix2 (-21)) with (8 * u24) by (unfold u24; cbn; lra).
  clear DA DB DS QT VA VS HH QE EA ES.
  split; [apply Rabs_le; unfold u24 in *; lra|]. split; [apply Rabs_le; unfold u24 in *; lra|]. split; [apply Rabs_le; unfold u24 in *; lra|].
  assert (Mon : forall x y, x <= y -> rnd (x / s) <= rnd (y / s)) by (intros x y L; apply rnd_le; apply Rmult_le_compat_r; [left; apply Rinv_0_lt_compat; exact S0|exact L]).
  split; intro L; apply Mon; apply MO; exact L.
Qed.
Print Assumptions float_mis_weights.

(* densities 1 and 3: the exact weights are 1/10 and 9/10 *)
Example mis_case : B2SF (f_weight fone (of_Z 3)) = SpecFloat.S754_finite false 13421773 (-27) /\ B2SF (f_weight (of_Z 3) fone) = SpecFloat.S754_finite false 15099494 (-24).
Proof. split; vm_compute; reflexivity. Qed.

Lemma square_over : forall p, fin p -> bpow radix2 64 <= val p -> fmul p p = B754_infinity false.
Proof.
  intros p F P. pose proof (Bmult_correct 24 128 prec24 emax128 mode_NE p p) as C. cbn [round_mode] in C.
  change (round radix2 (SpecFloat.fexp 24 128) ZnearestE (B2R p * B2R p)) with (rnd (val p * val p)) in C.
  assert (L : bpow radix2 128 <= rnd (val p * val p)).
  { rewrite <- (rnd_fits (bpow radix2 128)) by (apply fits_bpow; lia). apply rnd_le. change 128%Z with (64 + 64)%Z. rewrite bpow_plus. pose proof (bpow_gt_0 radix2 64). apply Rmult_le_compat; lra. }
  pose proof (bpow_gt_0 radix2 128) as G. rewrite Rlt_bool_false in C by (rewrite Rabs_pos_eq; lra). rewrite xorb_nilpotent in C.
  unfold fmul. destruct (@Bmult 24 128 prec24 emax128 mode_NE p p) as [s|s| |s m e h]; cbn in C; try discriminate. destruct s; [discriminate|reflexivity].
Qed.

(* the sum with an infinite square is infinite or no number, and so the weight is no number *)
Lemma weight_over : forall p q, fmul p p = B754_infinity false -> f_weight p q = B754_nan.
Proof. intros p q H. unfold f_weight. rewrite H. destruct q as [[|]|[|]| |[|] m e h]; try reflexivity; set (y := fmul _ _); destruct y as [[|]|[|]| |[|] ? ? ?]; reflexivity. Qed.

Lemma zero_form : forall x : f32, fin x -> val x = 0 -> exists s, x = B754_zero s.
Proof.
  intros [s|s| |s m e h] F V; try discriminate; [exists s; reflexivity|]. exfalso. unfold val, B2R in V. apply eq_0_F2R in V. destruct s; discriminate.
Qed.

Lemma power_val : forall k, (-120 <= k <= 120)%Z -> fin (fnum 1 k) /\ val (fnum 1 k) = bpow radix2 k.
Proof.
  intros k K. assert (E : 1 * bpow radix2 k = bpow radix2 k) by ring. destruct (fnum_val 1 k) as (F & V).
  - rewrite E, Rabs_pos_eq by apply bpow_ge_0. apply bpow_le; lia.
  - split; [exact F|]. rewrite V, E. apply rnd_fits, fits_bpow; lia.
Qed.

(* A light sample whose density is a finite number of at least 2^64 is not dropped, its weight is
   no number, and so is what every channel receives, whatever the material, the light and the
   cosine. Such densities come from points near the plane of the light: at distance 1 from a light
   of area 1, when the cosine at the light is 2^-k with 64 <= k <= 120. The test for an infinite density does
   not see them. Densities below 2^-75 have no weight either. *)
Theorem float_mis_overflow_refuted :
  (forall p q, fin p -> bpow radix2 64 <= val p -> f_weight p q = B754_nan /\ forall f l c, f_light_term f l c p q = B754_nan) /\
  (forall k, (64 <= k <= 120)%Z -> let p := f_light_density fone (fnum 1 (- k)) fone in fin p /\ val p = bpow radix2 k) /\
  (forall p q, fin p -> fin q -> 0 < val p < bpow radix2 (-75) -> 0 < val q < bpow radix2 (-75) -> f_weight p q = B754_nan).
Proof.
  split; [|split].
  - intros p q F P. pose proof (weight_over p q (square_over p F P)) as W. split; [exact W|]. intros f l c. unfold f_light_term. rewrite W.
    assert (M : forall x, fmul x B754_nan = B754_nan) by (intros [ | | | ]; reflexivity). rewrite M. destruct p; reflexivity.
  - intros k K. cbv zeta. destruct (power_val (- k) ltac:(lia)) as (FK & VK). destruct fone_val as (F1 & V1).
    assert (B : 0 < bpow radix2 (- k) <= 1) by (split; [apply bpow_gt_0|change 1 with (bpow radix2 0); apply bpow_le; lia]).
    destruct (fmul_val (fnum 1 (- k)) fone FK F1) as (FM & VM); [rewrite VK, V1, Rmult_1_r; apply one_127; rewrite Rabs_pos_eq; lra|]. rewrite VK, V1, Rmult_1_r, rnd_fits in VM by (apply fits_bpow; lia).
    assert (Q : 1 / bpow radix2 (- k) = bpow radix2 k) by (rewrite bpow_opp; pose proof (bpow_gt_0 radix2 k); field; lra).
    destruct (fdiv_val fone (fmul (fnum 1 (- k)) fone) F1) as (FD & VD); [rewrite VM; lra|rewrite VM, V1, Q, Rabs_pos_eq by apply bpow_ge_0; apply bpow_le; lia|].
    rewrite VM, V1, Q, rnd_fits in VD by (apply fits_bpow; lia). unfold f_light_density. cbv zeta.
    destruct (fdiv fone (fmul (fnum 1 (- k)) fone)); try discriminate; split; assumption.
  - intros p q FP FQ P Q.
    assert (Z : forall x, fin x -> 0 < val x < bpow radix2 (-75) -> exists s, fmul x x = B754_zero s).
    { intros x F X. assert (S : 0 <= val x * val x < bpow radix2 (-150)) by (split; [apply Rmult_le_pos; lra|change (-150)%Z with (-75 + -75)%Z; rewrite bpow_plus; apply Rmult_le_0_lt_compat; lra]).
      destruct (fmul_val x x F F) as (G & V); [rewrite Rabs_pos_eq by lra; apply Rle_trans with (bpow radix2 (-150)); [lra|apply bpow_le; lia]|].
      rewrite (tiny_zero _ S) in V. exact (zero_form _ G V). }
    destruct (Z p FP P) as (s & HS). destruct (Z q FQ Q) as (t & HT). unfold f_weight. rewrite HS, HT. destruct s, t; reflexivity.
Qed.
Print Assumptions float_mis_overflow_refuted.

(* a white diffuse surface at distance 1 and nearly in the plane of the light *)
Example mis_over_case : B2SF (f_light_term fone fone fone (f_light_density fone (fnum 1 (-66)) fone) (fnum 1 (-2))) = SpecFloat.S754_nan.
Proof. vm_compute. reflexivity. Qed.

Lemma rnd_up : forall x, 0 <= x -> 0 <= rnd x <= x * (1 + u24) + h150.
Proof.
  intros x X. split; [apply rnd_nonneg; exact X|]. pose proof (rerr x) as E. rewrite (Rabs_pos_eq x X) in E. apply abs_both in E. lra.
Qed.

(* For values f, l and c up to 2^20 and a density p between 2^-50 and 2^62 what a sample adds is a
   number that is not negative and at most f l c / p, up to 2^-21 of it and 2^-50: neither strategy
   adds more than it would alone. Where the other density is infinite a sample of the material adds exactly 0. *)
Theorem float_mis_terms : forall f l c p q, fin f -> fin l -> fin c -> fin p ->
  0 <= val f <= bpow radix2 20 -> 0 <= val l <= bpow radix2 20 -> 0 <= val c <= 2 -> bpow radix2 (-50) <= val p <= bpow radix2 62 ->
  (fin q -> 0 <= val q <= bpow radix2 62 ->
   fin (f_light_term f l c p q) /\ 0 <= val (f_light_term f l c p q) <= val f * val l * val c / val p * (1 + bpow radix2 (-21)) + bpow radix2 (-50) /\
   fin (f_bsdf_term f l c p q) /\ 0 <= val (f_bsdf_term f l c p q) <= val f * val l * val c / val p * (1 + bpow radix2 (-21)) + bpow radix2 (-50)) /\
  (q = B754_infinity false -> fin (f_bsdf_term f l c p q) /\ val (f_bsdf_term f l c p q) = 0).
Proof.
  intros f l c p q Ff Fl Fc Fp Bf Bl Bc Bp. unfold f_bsdf_term, f_light_term.
  pose proof (bpow_gt_0 radix2 (-50)) as P50. destruct h150_u24 as (H0 & _). assert (HP : 0 <= h150) by lra.
  assert (S1 : 0 <= val f * val l <= bpow radix2 40) by (split; [apply Rmult_le_pos; lra|change 40%Z with (20 + 20)%Z; rewrite bpow_plus; apply Rmult_le_compat; lra]).
  destruct (fmul_val f l Ff Fl) as (F1 & V1); [rewrite Rabs_pos_eq by lra; apply Rle_trans with (bpow radix2 40); [lra|apply bpow_le; lia]|].
  assert (B1 : 0 <= val (fmul f l) <= bpow radix2 40) by (rewrite V1; apply rnd_between; [apply fits_0|apply fits_bpow; lia|exact S1]).
  pose proof (rnd_up _ (proj1 S1)) as U1. rewrite <- V1 in U1. set (g := fmul f l) in *. clearbody g.
  assert (S2 : 0 <= val g * val c <= bpow radix2 41) by (split; [apply Rmult_le_pos; lra|change 41%Z with (40 + 1)%Z; rewrite bpow_plus; change (bpow radix2 1) with 2; apply Rmult_le_compat; lra]).
  destruct (fmul_val g c F1 Fc) as (F2 & V2); [rewrite Rabs_pos_eq by lra; apply Rle_trans with (bpow radix2 41); [lra|apply bpow_le; lia]|].
  assert (B2 : 0 <= val (fmul g c) <= bpow radix2 41) by (rewrite V2; apply rnd_between; [apply fits_0|apply fits_bpow; lia|exact S2]).
  pose proof (rnd_up _ (proj1 S2)) as U2. rewrite <- V2 in U2. set (k := fmul g c) in *. clearbody k.
  assert (IP : 0 < / val p <= bpow radix2 50).
  { split; [apply Rinv_0_lt_compat; lra|]. change 50%Z with (- -50)%Z. rewrite bpow_opp. apply Rinv_le_contravar; lra. }
  assert (T : forall w, fin w -> 0 <= val w <= 1 -> fin (fdiv (fmul k w) p) /\ 0 <= val (fdiv (fmul k w) p) <= rnd (val k / val p) /\ (val w = 0 -> val (fdiv (fmul k w) p) = 0)).
  { intros w Fw Bw. assert (S3 : 0 <= val k * val w <= val k) by (split; [apply Rmult_le_pos; lra|rewrite <- (Rmult_1_r (val k)) at 2; apply Rmult_le_compat_l; lra]).
    destruct (fmul_val k w F2 Fw) as (F3 & V3); [rewrite Rabs_pos_eq by lra; apply Rle_trans with (bpow radix2 41); [lra|apply bpow_le; lia]|].
    assert (B3 : 0 <= val (fmul k w) <= val k) by (rewrite V3; apply rnd_between; [apply fits_0|apply fits_val|exact S3]).
    assert (Z3 : val w = 0 -> val (fmul k w) = 0) by (intro Z; rewrite V3, Z, Rmult_0_r; apply rnd_0). set (m := fmul k w) in *. clearbody m.
    assert (S4 : 0 <= val m / val p <= val k / val p) by (unfold Rdiv; split; [apply Rmult_le_pos; lra|apply Rmult_le_compat_r; lra]).
    assert (S5 : val k / val p <= bpow radix2 91) by (change 91%Z with (41 + 50)%Z; rewrite bpow_plus; unfold Rdiv; apply Rmult_le_compat; lra).
    destruct (fdiv_val m p F3) as (F4 & V4); [lra|rewrite Rabs_pos_eq by lra; apply Rle_trans with (bpow radix2 91); [lra|apply bpow_le; lia]|].
    split; [exact F4|]. rewrite V4. split; [split; [apply rnd_nonneg; lra|apply rnd_le; lra]|]. intro Z. rewrite (Z3 Z). unfold Rdiv. rewrite Rmult_0_l. apply rnd_0. }
  assert (S4 : 0 <= val k / val p) by (unfold Rdiv; apply Rmult_le_pos; lra). pose proof (rnd_up _ S4) as U4.
  assert (UP : rnd (val k / val p) <= val f * val l * val c / val p * (1 + bpow radix2 (-21)) + bpow radix2 (-50)).
  { eapply Rle_trans; [apply U4|]. set (i := / val p) in *. unfold Rdiv in *. fold i in U4, S4 |- *. clearbody i.
    set (x := val f * val l) in *. clearbody x. replace (bpow radix2 (-21)) with (8 * u24) by (unfold u24; cbn; lra).
    assert (K : val k <= x * val c * (1 + 3 * u24) + 4 * h150).
    { assert (G : val g * val c <= (x * (1 + u24) + h150) * val c) by (apply Rmult_le_compat_r; lra).
      assert (XC : 0 <= x * val c) by (apply Rmult_le_pos; lra). assert (HC : h150 * val c <= h150 * 2) by (apply Rmult_le_compat_l; lra).
      replace ((x * (1 + u24) + h150) * val c) with (x * val c * (1 + u24) + h150 * val c) in G by ring. set (y := x * val c) in *. clearbody y. set (gc := val g * val c) in *. clearbody gc.
      unfold u24 in *. lra. }
    assert (KI : val k * i <= (x * val c * (1 + 3 * u24) + 4 * h150) * i) by (apply Rmult_le_compat_r; lra).
    assert (XI : 0 <= x * val c * i) by (apply Rmult_le_pos; [apply Rmult_le_pos; lra|lra]).
    assert (HI : h150 * i <= bpow radix2 (-100)) by (unfold h150; change (-100)%Z with (-150 + 50)%Z; rewrite bpow_plus; apply Rmult_le_compat_l; [apply bpow_ge_0|lra]).
    assert (E100 : bpow radix2 (-100) <= / 1000 * bpow radix2 (-50)).
    { change (-100)%Z with (-50 + -50)%Z. rewrite bpow_plus. apply Rmult_le_compat_r; [lra|]. cbn; lra. }
    assert (E150 : h150 <= bpow radix2 (-100)) by (unfold h150; apply bpow_le; lia).
    replace ((x * val c * (1 + 3 * u24) + 4 * h150) * i) with (x * val c * i * (1 + 3 * u24) + 4 * (h150 * i)) in KI by ring.
    set (y := x * val c * i) in *. set (z := val k * i) in *. set (hi := h150 * i) in *. clearbody y z hi.
    assert (Z1 : z * (1 + u24) <= (y * (1 + 3 * u24) + 4 * hi) * (1 + u24)) by (apply Rmult_le_compat_r; [unfold u24; lra|lra]). set (e := bpow radix2 (-50)) in *. clearbody e. set (e1 := bpow radix2 (-100)) in *. clearbody e1.
    clear - Z1 XI HI E100 E150 P50. unfold u24 in *. lra. }
  split.
  - intros Fq Bq. destruct (float_mis_weights p q Fp Fq Bp Bq) as (Fw & _ & Bw & _). destruct (T _ Fw Bw) as (A1 & A2 & _).
    split; [exact A1|]. split; [lra|]. split; [exact A1|]. lra.
  - intro E. subst q. assert (W : exists s, f_weight p (B754_infinity false) = B754_zero s).
    { unfold f_weight. destruct (square_val p Fp ltac:(lra)) as (F & _). set (a := fmul p p) in *. clearbody a. destruct a as [s|s| |s m e h]; try discriminate; eexists; reflexivity. }
    destruct W as (s & W). rewrite W. destruct (T (B754_zero s)) as (A1 & _ & A2); [reflexivity|cbn; lra|]. split; [exact A1|]. apply A2. reflexivity.
Qed.
Print Assumptions float_mis_terms.

(* f = 1/4, light 8, cosine 1/2, densities 1/2 and 1/4: 1 * 4/5 / (1/2) *)
Example mis_terms_case : B2SF (f_light_term (fnum 1 (-2)) (of_Z 8) (fnum 1 (-1)) (fnum 1 (-1)) (fnum 1 (-2))) = SpecFloat.S754_finite false 13421773 (-23).
Proof. vm_compute. reflexivity. Qed.
