(* The fraction of light reflected by dielectrics in single precision: how far it is from the
   exact one. *)
From Coq Require Import ZArith Reals List Lra Lia Bool.
From Flocq Require Import Core.Core IEEE754.BinarySingleNaN.
From Verif Require Import Common FltModel FltFacts FltProps FExtFacts FRayModel FRayFacts FSphereProps FBoxMarginProps FMatProps FMatBoundProps FFilmProps FQuadProps FQuadRootProps FFresModel FFresProps SpecularModel.
Import ListNotations.
Local Open Scope R_scope.

Lemma u24_pos : 0 < u24.
Proof. unfold u24; lra. Qed.

Lemma h150_u24 : 0 < h150 <= / 1000000 * (u24 * u24).
Proof.
  split; [apply h150_small|]. apply Rle_trans with (bpow radix2 (-70)); [apply bpow_le; lia|].
  change (-70)%Z with (-22 + (-24 + -24))%Z. rewrite bpow_plus, bpow_plus, u24_bpow. change (bpow radix2 (-22)) with (/ 4194304).
  apply Rmult_le_compat_r; [apply Rmult_le_pos; unfold u24; lra|lra].
Qed.

(* the square of a rounded root *)
Lemma root_square : forall x, 0 <= x <= 1 -> Rabs (rnd (sqrt x) * rnd (sqrt x) - x) <= 21 / 10 * u24 * x + u24 / 1000.
Proof.
  intros x X. pose proof (rerr (sqrt x)) as E. rewrite (Rabs_pos_eq (sqrt x)) in E by apply sqrt_pos.
  assert (S1 : 0 <= sqrt x <= 1). { split; [apply sqrt_pos|]. rewrite <- sqrt_1. apply sqrt_le_1_alt; lra. }
  assert (SS : sqrt x * sqrt x = x) by (apply sqrt_sqrt; lra). destruct h150_u24 as (H0 & H1).
  set (r := sqrt x) in *. set (g := rnd r) in *. set (d := g - r) in *. replace g with (r + d) by (unfold d; ring). clearbody d. clear g.
  replace ((r + d) * (r + d) - x) with (2 * (r * d) + d * d) by (rewrite <- SS; ring).
  assert (RD : Rabs (r * d) <= u24 * x + h150).
  { rewrite Rabs_mult, (Rabs_pos_eq r) by lra. apply Rle_trans with (r * (u24 * r + h150)); [apply Rmult_le_compat_l; lra|].
    replace (r * (u24 * r + h150)) with (u24 * (r * r) + r * h150) by ring. rewrite SS. assert (r * h150 <= 1 * h150) by (apply Rmult_le_compat_r; lra). lra. }
  assert (DD : Rabs (d * d) <= 2 * (u24 * u24) * 2).
  { rewrite Rabs_mult. apply Rle_trans with ((2 * u24) * (2 * u24)); [|lra]. assert (Rabs d <= 2 * u24).
    { eapply Rle_trans; [exact E|]. assert (u24 * r <= u24 * 1) by (apply Rmult_le_compat_l; [unfold u24; lra|lra]). unfold u24 in *; lra. }
    apply Rmult_le_compat; try apply Rabs_pos; assumption. }
  apply abs_both in RD. apply abs_both in DD. apply Rabs_le. assert (0 <= u24 * x) by (apply Rmult_le_pos; unfold u24; lra). unfold u24 in *. lra.
Qed.

(* the computed cosine of a sine, or sine of a cosine *)
Lemma cosine_near : forall t, fin t -> 0 <= val t <= 1 ->
  let k := fsqrt (fmax fzero (fsub fone (fmul t t))) in fin k /\ 0 <= val k <= 1 /\ Rabs (val k * val k - (1 - val t * val t)) <= 43 / 10 * u24.
Proof.
  intros t F T. destruct (cosine_of t F) as (FK & VK & K); [rewrite Rabs_pos_eq; lra|]. cbv zeta in *. split; [exact FK|]. split; [exact K|].
  set (k := fsqrt (fmax fzero (fsub fone (fmul t t)))) in *. clearbody k.
  assert (TT : 0 <= val t * val t <= 1). { split; [apply Rle_0_sqr|]. replace 1 with (1 * 1) by ring. apply Rmult_le_compat; lra. }
  assert (Q : 0 <= rnd (val t * val t) <= 1) by (split; [apply rnd_nonneg; lra|apply Rle_trans with (rnd 1); [apply rnd_le; lra|rewrite rnd_one; lra]]).
  assert (D : 0 <= rnd (1 - rnd (val t * val t)) <= 1) by (split; [apply rnd_nonneg; lra|apply Rle_trans with (rnd 1); [apply rnd_le; lra|rewrite rnd_one; lra]]).
  rewrite Rmax_right in VK by lra. pose proof (root_square _ D) as E1. rewrite <- VK in E1.
  pose proof (rerr (val t * val t)) as E2. pose proof (rerr (1 - rnd (val t * val t))) as E3.
  rewrite (Rabs_pos_eq (val t * val t)) in E2 by lra. rewrite (Rabs_pos_eq (1 - rnd (val t * val t))) in E3 by lra. destruct h150_u24 as (H0 & H1).
  apply abs_both in E1. apply abs_both in E2. apply abs_both in E3. apply Rabs_le. clear VK.
  set (a := rnd (1 - rnd (val t * val t))) in *. set (b := rnd (val t * val t)) in *. clearbody a b.
  assert (u24 * (val t * val t) <= u24 * 1) by (apply Rmult_le_compat_l; [unfold u24; lra|lra]).
  assert (u24 * (1 - b) <= u24 * 1) by (apply Rmult_le_compat_l; [unfold u24; lra|lra]).
  assert (21 / 10 * u24 * a <= 21 / 10 * u24 * 1) by (apply Rmult_le_compat_l; [unfold u24; lra|lra]). unfold u24 in *. lra.
Qed.

Definition ratio2 (ei et : f32) : R := (val ei / val et) * (val ei / val et).
(* the square of the exact sine on the other side *)
Definition sine2 (ei et c : f32) : R := ratio2 ei et * (1 - val c * val c).

Lemma snell_near : forall ei et c, index ei -> index et -> fin c -> 0 <= val c <= 1 ->
  fin (f_snell ei et c) /\ 0 <= val (f_snell ei et c) /\ Rabs (val (f_snell ei et c) * val (f_snell ei et c) - sine2 ei et c) <= 10 * u24 * ratio2 ei et.
Proof.
  intros ei et c EI ET FC C. destruct (snell_val ei et c EI ET FC) as (FS & S); [rewrite Rabs_pos_eq; lra|]. split; [exact FS|]. split; [lra|]. clear FS S.
  destruct EI as (FI & I). destruct ET as (FT & T). unfold f_snell, sine2, ratio2. destruct (cosine_near c FC C) as (FK & K & E). cbv zeta in *.
  set (g := fsqrt (fmax fzero (fsub fone (fmul c c)))) in *. clearbody g.
  assert (P20 : 0 < bpow radix2 (-20)) by apply bpow_gt_0.
  assert (IT : bpow radix2 (-20) <= / val et <= bpow radix2 20).
  { split; [|change 20%Z with (- - 20)%Z; rewrite bpow_opp; apply Rinv_le; lra]. change (-20)%Z with (- (20))%Z. rewrite bpow_opp. apply Rinv_le; lra. }
  assert (Q : bpow radix2 (-40) <= val ei / val et <= bpow radix2 40).
  { unfold Rdiv. change (-40)%Z with (-20 + -20)%Z. change 40%Z with (20 + 20)%Z. rewrite !bpow_plus. split; apply Rmult_le_compat; lra. }
  pose proof (bpow_gt_0 radix2 (-40)) as P40.
  destruct (fdiv_val ei et FI) as (FD & VD); [lra|apply (small_127 _ 40); [lia|rewrite Rabs_pos_eq; lra]|].
  assert (D : 0 <= val (fdiv ei et) <= bpow radix2 40).
  { rewrite VD. split; [apply rnd_nonneg; lra|]. rewrite <- (rnd_fits (bpow radix2 40)) by (apply fits_bpow; lia). apply rnd_le; lra. }
  assert (M : 0 <= val (fdiv ei et) * val g <= bpow radix2 40).
  { split; [apply Rmult_le_pos; lra|]. rewrite <- (Rmult_1_r (bpow radix2 40)). apply Rmult_le_compat; lra. }
  destruct (fmul_val (fdiv ei et) g FD FK) as (FM & VM). { apply (small_127 _ 40); [lia|rewrite Rabs_pos_eq; lra]. }
  pose proof (rerr (val ei / val et)) as E1. rewrite <- VD, (Rabs_pos_eq (val ei / val et)) in E1 by lra.
  pose proof (rerr (val (fdiv ei et) * val g)) as E2. rewrite <- VM, (Rabs_pos_eq (val (fdiv ei et) * val g)) in E2 by lra.
  set (s := val (fmul (fdiv ei et) g)) in *. set (q := val ei / val et) in *. set (d := val (fdiv ei et)) in *. set (k := val g) in *. clearbody s q d k.
  assert (HQ : 0 < h150 <= / 1000000 * u24 * q).
  { split; [apply h150_small|]. apply Rle_trans with (bpow radix2 (-90)); [apply bpow_le; lia|]. change (-90)%Z with (-50 + -40)%Z. rewrite bpow_plus.
    apply Rmult_le_compat; try apply bpow_ge_0; [|lra]. change (bpow radix2 (-50)) with (/ 1125899906842624). unfold u24. lra. }
  clear - K E E1 E2 HQ Q P40. apply abs_both in E1. apply abs_both in E2.
  assert (Q0 : 0 < q) by lra. clear Q P40. set (h := h150) in *. clearbody h.
  (* s - q k *)
  assert (DK : Rabs (d * k - q * k) <= 1001 / 1000 * u24 * q).
  { replace (d * k - q * k) with (k * (d - q)) by ring. rewrite Rabs_mult, (Rabs_pos_eq k) by lra.
    apply Rle_trans with (1 * Rabs (d - q)); [apply Rmult_le_compat_r; [apply Rabs_pos|lra]|]. rewrite Rmult_1_l. apply Rabs_le. unfold u24 in *. lra. }
  apply abs_both in DK. assert (QK : 0 <= q * k <= q) by (split; [apply Rmult_le_pos; lra|rewrite <- (Rmult_1_r q) at 2; apply Rmult_le_compat_l; lra]).
  assert (SQ : Rabs (s - q * k) <= 201 / 100 * u24 * q) by (apply Rabs_le; unfold u24 in *; lra).
  assert (S2 : Rabs (s + q * k) <= 201 / 100 * q) by (apply abs_both in SQ; apply Rabs_le; unfold u24 in *; lra).
  assert (SS : Rabs (s * s - q * q * (k * k)) <= 41 / 10 * u24 * (q * q)).
  { replace (s * s - q * q * (k * k)) with ((s - q * k) * (s + q * k)) by ring. rewrite Rabs_mult.
    apply Rle_trans with (201 / 100 * u24 * q * (201 / 100 * q)); [apply Rmult_le_compat; try apply Rabs_pos; assumption|].
    replace (201 / 100 * u24 * q * (201 / 100 * q)) with (201 / 100 * (201 / 100) * u24 * (q * q)) by ring. apply Rmult_le_compat_r; [apply Rle_0_sqr|unfold u24; lra]. }
  assert (QE : Rabs (q * q * (k * k) - q * q * (1 - val c * val c)) <= 43 / 10 * u24 * (q * q)).
  { rewrite <- Rmult_minus_distr_l, Rabs_mult, (Rabs_pos_eq (q * q)) by apply Rle_0_sqr. rewrite (Rmult_comm (43 / 10 * u24)). apply Rmult_le_compat_l; [apply Rle_0_sqr|exact E]. }
  apply abs_both in SS. apply abs_both in QE. assert (0 <= u24 * (q * q)) by (apply Rmult_le_pos; [unfold u24; lra|apply Rle_0_sqr]). apply Rabs_le. lra.
Qed.

Definition amp (a b : R) : R := (a - b) / (a + b).

Lemma amp_range : forall a b, 0 <= a -> 0 < b -> Rabs (amp a b) <= 1.
Proof. intros a b A B. unfold amp. apply unit_ratio; [apply Rabs_le; lra|lra]. Qed.

(* the computed amplitude, from products that were rounded *)
Lemma amplitude_near : forall x y a b, fin x -> fin y -> 0 <= val x <= bpow radix2 60 -> 0 < val y <= bpow radix2 60 -> 0 <= a -> bpow radix2 (-40) <= b ->
  Rabs (val x - a) <= u24 * a + h150 -> Rabs (val y - b) <= u24 * b + h150 ->
  let r := fdiv (fsub x y) (fadd x y) in fin r /\ Rabs (val r) <= 1 /\ Rabs (val r - amp a b) <= 6 * u24.
Proof.
  intros x y a b FX FY X Y A B EX EY. cbv zeta. destruct (amplitude x y FX FY X Y) as (FR & R1). split; [exact FR|]. split; [exact R1|].
  pose proof (bpow_gt_0 radix2 (-40)) as P40.
  assert (D : Rabs (val x - val y) <= val x + val y) by (apply Rabs_le; lra).
  assert (BB : Rabs (val x + val y) <= bpow radix2 127).
  { apply (small_127 _ 61); [lia|]. rewrite Rabs_pos_eq by lra. change 61%Z with (60 + 1)%Z. rewrite bpow_plus. change (bpow radix2 1) with 2. lra. }
  destruct (fadd_val x y FX FY BB) as (FS & VS).
  destruct (fsub_val x y FX FY) as (FD & VD). { eapply Rle_trans; [exact D|]. rewrite Rabs_pos_eq in BB by lra. exact BB. }
  assert (P : 0 < val (fadd x y)).
  { rewrite VS. apply Rlt_le_trans with (val y); [lra|]. rewrite <- (rnd_fits (val y)) at 1 by apply fits_val. apply rnd_le; lra. }
  assert (Q : Rabs (val (fsub x y) / val (fadd x y)) <= 1).
  { apply unit_ratio; [|exact P]. rewrite VD, VS. apply rnd_abs_le; exact D. }
  destruct (fdiv_val (fsub x y) (fadd x y) FD) as (_ & VQ); [lra|apply one_127; exact Q|].
  rewrite VQ. pose proof (rerr (val (fsub x y) / val (fadd x y))) as EQ.
  pose proof (rerr (val x - val y)) as ED. pose proof (rerr (val x + val y)) as ES. rewrite <- VD in ED. rewrite <- VS in ES. rewrite (Rabs_pos_eq (val x + val y)) in ES by lra.
  assert (HB : 0 < h150 <= / 1000 * u24 * b).
  { split; [apply h150_small|]. apply Rle_trans with (bpow radix2 (-76)); [apply bpow_le; lia|]. change (-76)%Z with (-36 + -40)%Z. rewrite bpow_plus.
    change (bpow radix2 (-36)) with (/ 68719476736). unfold u24. apply Rmult_le_compat; try lra. }
  assert (HU : h150 <= / 1000 * u24) by (destruct h150_u24; unfold u24 in *; lra).
  assert (B0 : 0 < b) by lra.
  assert (NUM : Rabs (val (fsub x y) - (a - b)) <= 21 / 10 * u24 * (a + b)).
  { assert (u24 * Rabs (val x - val y) <= u24 * (val x + val y)) by (apply Rmult_le_compat_l; [unfold u24; lra|exact D]).
    apply abs_both in EX. apply abs_both in EY. apply abs_both in ED. apply Rabs_le. clear - EX EY ED HB B0 A H. unfold u24 in *. lra. }
  assert (DEN : Rabs (val (fadd x y) - (a + b)) <= 21 / 10 * u24 * (a + b)).
  { apply abs_both in EX. apply abs_both in EY. apply abs_both in ES. apply Rabs_le. clear - EX EY ES HB B0 A. unfold u24 in *. lra. }
  clear - A B0 P Q EQ NUM DEN HU. set (n := val (fsub x y)) in *. set (d := val (fadd x y)) in *. clearbody n d.
  pose proof (amp_range a b A B0) as AR. unfold amp in *. set (r := (a - b) / (a + b)) in *.
  assert (RE : r * (a + b) = a - b) by (unfold r; field; lra). clearbody r.
  assert (X3 : Rabs (n - (a - b) - r * (d - (a + b))) <= 42 / 10 * u24 * (a + b)).
  { unfold Rminus at 1. eapply Rle_trans; [apply Rabs_triang|]. rewrite Rabs_Ropp, Rabs_mult.
    assert (Rabs r * Rabs (d - (a + b)) <= 1 * (21 / 10 * u24 * (a + b))) by (apply Rmult_le_compat; try apply Rabs_pos; assumption). lra. }
  assert (DL : 999 / 1000 * (a + b) <= d) by (apply abs_both in DEN; unfold u24 in *; lra).
  assert (X4 : Rabs (n / d - r) <= 45 / 10 * u24).
  { replace (n / d - r) with ((n - (a - b) - r * (d - (a + b))) / d) by (rewrite <- RE; field; lra). unfold Rdiv at 1. rewrite Rabs_mult, (Rabs_pos_eq (/ d)) by (left; apply Rinv_0_lt_compat; exact P).
    apply (Rmult_le_reg_r d); [exact P|]. rewrite Rmult_assoc, Rinv_l, Rmult_1_r by lra. eapply Rle_trans; [exact X3|].
    apply Rle_trans with (45 / 10 * u24 * (999 / 1000 * (a + b))); [unfold u24; lra|]. apply Rmult_le_compat_l; [unfold u24; lra|exact DL]. }
  assert (u24 * Rabs (n / d) <= u24 * 1) by (apply Rmult_le_compat_l; [unfold u24; lra|exact Q]).
  apply abs_both in EQ. apply abs_both in X4. apply Rabs_le. unfold u24 in *. lra.
Qed.

(* the exact amplitude moves little with the cosine *)
Lemma amp_move : forall a e k j, 0 <= a -> 0 < e -> 0 < k -> 0 < j -> Rabs (amp a (e * k) - amp a (e * j)) <= 2 * Rabs (j * j - k * k) / (j * j).
Proof.
  intros a e k j A E K J. unfold amp. pose proof (Rmult_lt_0_compat _ _ E K) as EK. pose proof (Rmult_lt_0_compat _ _ E J) as EJ.
  assert (JJ : 0 < j * j) by (apply Rmult_lt_0_compat; lra).
  assert (P : 0 < (a + e * k) * (a + e * j)) by (apply Rmult_lt_0_compat; lra).
  replace ((a - e * k) / (a + e * k) - (a - e * j) / (a + e * j)) with (2 * (j - k) * (a * e / ((a + e * k) * (a + e * j)))) by (field; lra).
  rewrite Rabs_mult.
  assert (F : 0 <= a * e / ((a + e * k) * (a + e * j)) <= / (j + k)).
  { split; [apply Rmult_le_pos; [apply Rmult_le_pos; lra|left; apply Rinv_0_lt_compat; exact P]|].
    apply (Rmult_le_reg_r ((a + e * k) * (a + e * j))); [exact P|]. unfold Rdiv. rewrite Rmult_assoc, Rinv_l, Rmult_1_r by lra.
    apply (Rmult_le_reg_l (j + k)); [lra|]. rewrite <- (Rmult_assoc (j + k) (/ (j + k))), Rinv_r, Rmult_1_l by lra.
    assert (0 <= a * a) by apply Rle_0_sqr. assert (0 <= e * k * (e * j)) by (apply Rmult_le_pos; lra).
    replace ((a + e * k) * (a + e * j)) with (a * a + (j + k) * (a * e) + e * k * (e * j)) by ring. lra. }
  rewrite (Rabs_pos_eq (_ / _)) by lra.
  apply Rle_trans with (Rabs (2 * (j - k)) * / (j + k)); [apply Rmult_le_compat_l; [apply Rabs_pos|lra]|].
  assert (JK : 0 < (j + k) * (j + k)) by (apply Rmult_lt_0_compat; lra).
  replace (Rabs (2 * (j - k)) * / (j + k)) with (2 * Rabs (j * j - k * k) * / ((j + k) * (j + k))).
  - unfold Rdiv. apply Rmult_le_compat_l; [assert (0 <= Rabs (j * j - k * k)) by apply Rabs_pos; lra|]. apply Rinv_le; [exact JJ|]. apply Rmult_le_compat; lra.
  - replace (j * j - k * k) with ((j - k) * (j + k)) by ring. rewrite !Rabs_mult, (Rabs_pos_eq 2), (Rabs_pos_eq (j + k)) by lra. field. lra.
Qed.

Lemma mean_near : forall a b a0 b0 e, fin a -> fin b -> Rabs (val a) <= 1 -> Rabs (val b) <= 1 -> Rabs a0 <= 1 -> Rabs b0 <= 1 ->
  Rabs (val a - a0) <= e -> Rabs (val b - b0) <= e ->
  Rabs (val (fdiv (fadd (fmul a a) (fmul b b)) (of_Z 2)) - (a0 * a0 + b0 * b0) / 2) <= 2 * e + 4 * u24.
Proof.
  intros a b a0 b0 e FA FB A B A0 B0 EA EB.
  assert (SQ : forall a a0, fin a -> Rabs (val a) <= 1 -> Rabs a0 <= 1 -> Rabs (val a - a0) <= e ->
    fin (fmul a a) /\ 0 <= val (fmul a a) <= 1 /\ Rabs (val (fmul a a) - a0 * a0) <= 2 * e + 1001 / 1000 * u24).
  { clear. intros a a0 FA A A0 EA. assert (S : Rabs (val a * val a) <= 1).
    { rewrite Rabs_mult. replace 1 with (1 * 1) by ring. apply Rmult_le_compat; try apply Rabs_pos; exact A. }
    destruct (fmul_val a a FA FA) as (F & V); [apply one_127; exact S|]. split; [exact F|]. pose proof (rerr (val a * val a)) as E. rewrite <- V in E.
    split; [rewrite V; split; [apply rnd_nonneg; apply Rle_0_sqr|apply Rle_trans with (rnd 1); [apply rnd_le; apply abs_both in S; lra|rewrite rnd_one; lra]]|].
    assert (D : Rabs (val a * val a - a0 * a0) <= e * 2).
    { replace (val a * val a - a0 * a0) with ((val a - a0) * (val a + a0)) by ring. rewrite Rabs_mult. apply Rmult_le_compat; try apply Rabs_pos; [exact EA|].
      eapply Rle_trans; [apply Rabs_triang|]. lra. }
    assert (u24 * Rabs (val a * val a) <= u24 * 1) by (apply Rmult_le_compat_l; [unfold u24; lra|exact S]). destruct h150_u24.
    apply abs_both in E. apply abs_both in D. apply Rabs_le. unfold u24 in *. lra. }
  destruct (SQ a a0 FA A A0 EA) as (FA2 & A2 & DA). destruct (SQ b b0 FB B B0 EB) as (FB2 & B2 & DB).
  destruct (fadd_val _ _ FA2 FB2) as (FS & VS). { apply (small_127 _ 1); [lia|]. change (bpow radix2 1) with 2. rewrite Rabs_pos_eq; lra. }
  assert (S2 : 0 <= val (fadd (fmul a a) (fmul b b)) <= 2).
  { rewrite VS. split; [apply rnd_nonneg; lra|]. rewrite <- (rnd_fits 2) by (change 2 with (IZR 2); apply fits_Z; cbn; lia). apply rnd_le; lra. }
  destruct (of_Z_exact 2) as (F2 & V2); [cbn; lia|].
  destruct (fdiv_val (fadd (fmul a a) (fmul b b)) (of_Z 2) FS) as (FD & VD).
  { rewrite V2; lra. } { rewrite V2. apply one_127. rewrite Rabs_pos_eq; lra. }
  rewrite VD, V2. pose proof (rerr (val (fmul a a) + val (fmul b b))) as E1. rewrite <- VS in E1. pose proof (rerr (val (fadd (fmul a a) (fmul b b)) / 2)) as E2.
  rewrite (Rabs_pos_eq (val (fmul a a) + val (fmul b b))) in E1 by lra. rewrite (Rabs_pos_eq (_ / 2)) in E2 by lra. destruct h150_u24.
  apply abs_both in E1. apply abs_both in E2. apply abs_both in DA. apply abs_both in DB. apply Rabs_le. unfold u24 in *. lra.
Qed.

Lemma rounded_product : forall e c, index e -> fin c -> 0 <= val c <= 1 ->
  fin (fmul e c) /\ 0 <= val (fmul e c) <= bpow radix2 60 /\ Rabs (val (fmul e c) - val e * val c) <= u24 * (val e * val c) + h150.
Proof.
  intros e c (FE & E) FC C. assert (0 < bpow radix2 (-20)) by apply bpow_gt_0.
  assert (P : 0 <= val e * val c <= bpow radix2 20).
  { split; [apply Rmult_le_pos; lra|]. rewrite <- (Rmult_1_r (bpow radix2 20)). apply Rmult_le_compat; lra. }
  destruct (fmul_val e c FE FC) as (F & V). { apply (small_127 _ 20); [lia|]. rewrite Rabs_pos_eq; lra. }
  split; [exact F|]. rewrite V. split; [split; [apply rnd_nonneg; lra|]|].
  - apply Rle_trans with (bpow radix2 20); [|apply bpow_le; lia]. rewrite <- (rnd_fits (bpow radix2 20)) by (apply fits_bpow; lia). apply rnd_le; lra.
  - rewrite <- (Rabs_pos_eq (val e * val c)) at 3 by lra. apply rerr.
Qed.

Lemma terms_near : forall ei et c k j w, index ei -> index et -> fin c -> fin k -> 0 <= val c <= 1 -> bpow radix2 (-12) <= val k <= 1 -> 0 < j ->
  2 * Rabs (j * j - val k * val k) / (j * j) <= w ->
  Rabs (val (f_fresnel_terms ei et c k) - dielectric_terms (val ei) (val et) (val c) j) <= 2 * w + 16 * u24.
Proof.
  intros ei et c k j w EI ET FC FK C K J W. pose proof (bpow_gt_0 radix2 (-12)) as P12. pose proof (bpow_gt_0 radix2 (-20)) as P20.
  destruct (rounded_product ei c EI FC C) as (F1 & B1 & E1). destruct (rounded_product et c ET FC C) as (F2 & B2 & E2).
  destruct (rounded_product ei k EI FK) as (F3 & B3 & E3); [lra|]. destruct (rounded_product et k ET FK) as (F4 & B4 & E4); [lra|].
  assert (PK : forall e, index e -> bpow radix2 (-40) <= val e * val k).
  { intros e (_ & E). apply Rle_trans with (bpow radix2 (-32)); [apply bpow_le; lia|]. change (-32)%Z with (-20 + -12)%Z. rewrite bpow_plus. apply Rmult_le_compat; lra. }
  assert (PP : forall e, index e -> Rabs (val (fmul e k) - val e * val k) <= u24 * (val e * val k) + h150 -> 0 < val (fmul e k)).
  { intros e IE E. pose proof (PK e IE) as L. assert (h150 <= / 1000 * (val e * val k)).
    { apply Rle_trans with (bpow radix2 (-50)); [apply bpow_le; lia|]. change (-50)%Z with (-10 + -40)%Z. rewrite bpow_plus. change (bpow radix2 (-10)) with (/ 1024).
      apply Rmult_le_compat; try lra. apply bpow_ge_0. }
    pose proof (bpow_gt_0 radix2 (-40)). apply abs_both in E. unfold u24 in *. lra. }
  pose proof (PP ei EI E3) as P3. pose proof (PP et ET E4) as P4.
  assert (NC : forall e, index e -> 0 < val e /\ 0 <= val e * val c). { intros e (_ & E). split; [lra|]. apply Rmult_le_pos; lra. }
  destruct (NC ei EI) as (I0 & I1). destruct (NC et ET) as (T0 & T1).
  destruct (amplitude_near (fmul ei c) (fmul et k) (val ei * val c) (val et * val k) F1 F4 B1 (conj P4 (proj2 B4)) I1 (PK et ET) E1 E4) as (FA & A & DA).
  destruct (amplitude_near (fmul et c) (fmul ei k) (val et * val c) (val ei * val k) F2 F3 B2 (conj P3 (proj2 B3)) T1 (PK ei EI) E2 E3) as (FB & B & DB).
  pose proof (amp_move (val ei * val c) (val et) (val k) j I1 T0 ltac:(lra) J) as MA.
  pose proof (amp_move (val et * val c) (val ei) (val k) j T1 I0 ltac:(lra) J) as MB.
  assert (RA : Rabs (amp (val ei * val c) (val et * j)) <= 1) by (apply amp_range; [exact I1|apply Rmult_lt_0_compat; assumption]).
  assert (RB : Rabs (amp (val et * val c) (val ei * j)) <= 1) by (apply amp_range; [exact T1|apply Rmult_lt_0_compat; assumption]).
  unfold f_fresnel_terms, dielectric_terms. cbv zeta. fold (amp (val ei * val c) (val et * j)) (amp (val et * val c) (val ei * j)).
  assert (TA : Rabs (val (fdiv (fsub (fmul ei c) (fmul et k)) (fadd (fmul ei c) (fmul et k))) - amp (val ei * val c) (val et * j)) <= w + 6 * u24).
  { apply abs_both in DA. apply abs_both in MA. apply Rabs_le. lra. }
  assert (TB : Rabs (val (fdiv (fsub (fmul et c) (fmul ei k)) (fadd (fmul et c) (fmul ei k))) - amp (val et * val c) (val ei * j)) <= w + 6 * u24).
  { apply abs_both in DB. apply abs_both in MB. apply Rabs_le. lra. }
  eapply Rle_trans; [apply (mean_near _ _ _ _ _ FB FA B A RB RA TB TA)|]. lra.
Qed.

Lemma fresnel_near : forall ei et c, index ei -> index et -> fin c -> 0 <= val c <= 1 ->
  (1 + bpow radix2 (-19) * (1 + ratio2 ei et) <= sine2 ei et c -> f_fresnel ei et c = fone) /\
  (sine2 ei et c + bpow radix2 (-19) * (1 + ratio2 ei et) <= 1 ->
   Rabs (val (f_fresnel ei et c) - dielectric_terms (val ei) (val et) (val c) (sqrt (1 - sine2 ei et c))) <= bpow radix2 (-17) * (1 + ratio2 ei et) / (1 - sine2 ei et c)).
Proof.
  intros ei et c EI ET FC C. destruct (snell_near ei et c EI ET FC C) as (FS & S0 & SE). destruct fone_val as (FO & VO).
  assert (B19 : bpow radix2 (-19) = 32 * u24) by (unfold u24; cbn; lra). assert (B17 : bpow radix2 (-17) = 128 * u24) by (unfold u24; cbn; lra). rewrite B19, B17.
  assert (Q0 : 0 <= ratio2 ei et) by apply Rle_0_sqr.
  assert (CC : 0 <= val c * val c <= 1). { split; [apply Rle_0_sqr|]. replace 1 with (1 * 1) by ring. apply Rmult_le_compat; lra. }
  assert (S1 : 0 <= sine2 ei et c) by (apply Rmult_le_pos; lra).
  unfold f_fresnel. cbv zeta. set (s := f_snell ei et c) in *. clearbody s. set (S := sine2 ei et c) in *. clearbody S. set (Q := ratio2 ei et) in *. clearbody Q.
  apply abs_both in SE. pose proof u24_pos as U. assert (UQ : 0 <= u24 * Q) by (apply Rmult_le_pos; lra). split; intro H.
  - assert (L : 1 <= val s). { apply Rnot_lt_le. intro L. assert (val s * val s <= 1 * 1) by (apply Rmult_le_compat; lra). lra. }
    rewrite <- VO in L. apply (fle_val _ _ FO FS) in L. rewrite L. reflexivity.
  - assert (L : val s < 1). { apply Rnot_le_lt. intro L. assert (1 * 1 <= val s * val s) by (apply Rmult_le_compat; lra). lra. }
    assert (G : fle fone s = false). { destruct (fle fone s) eqn:G; [|reflexivity]. apply (fle_val _ _ FO FS) in G. lra. }
    rewrite G. destruct (sine_below_one s FS (conj S0 L)) as (FK & K). destruct (cosine_near s FS) as (_ & _ & KE); [lra|]. cbv zeta in *.
    set (k := fsqrt (fmax fzero (fsub fone (fmul s s)))) in *. clearbody k. apply abs_both in KE.
    assert (PS : 0 < 1 - S) by lra. assert (J2 : sqrt (1 - S) * sqrt (1 - S) = 1 - S) by (apply sqrt_sqrt; lra).
    set (W := (1 + Q) / (1 - S)). assert (WS : W * (1 - S) = 1 + Q) by (unfold W; field; lra).
    assert (W1 : 1 <= W). { apply (Rmult_le_reg_r (1 - S)); [exact PS|]. rewrite WS. lra. }
    replace (128 * u24 * (1 + Q) / (1 - S)) with (128 * u24 * W) by (unfold W, Rdiv; ring).
    eapply Rle_trans; [apply (terms_near ei et c k (sqrt (1 - S)) (20 * u24 * W) EI ET FC FK C K); [apply sqrt_lt_R0; exact PS|]|].
    + rewrite J2. apply (Rmult_le_reg_r (1 - S)); [exact PS|]. unfold Rdiv. rewrite Rmult_assoc, Rinv_l, Rmult_1_r by lra. rewrite Rmult_assoc, WS.
      assert (Rabs (1 - S - val k * val k) <= 10 * u24 * (1 + Q)) by (apply Rabs_le; lra). lra.
    + assert (u24 * 1 <= u24 * W) by (apply Rmult_le_compat_l; lra). lra.
Qed.

(* The exact fraction for the two indices in the order of the light, from the square of the sine
   on the other side; with no total reflection. *)
Definition glass_exact (ei et c s2 : R) : R :=
  let k := sqrt (1 - s2) in
  ((et * c - ei * k) / (et * c + ei * k) * ((et * c - ei * k) / (et * c + ei * k)) +
   (ei * c - et * k) / (ei * c + et * k) * ((ei * c - et * k) / (ei * c + et * k))) / 2.

(* For any two indices between 2^-20 and 2^20 and cosine between -1 and 1 let q be the square of
   their ratio and s2 the square of the exact sine of refraction. Where s2 is above 1 by 2^-19 (1 + q)
   everything is reflected; where it is below 1 by as much, the result differs from the exact
   fraction by at most 2^-17 (1 + q) / (1 - s2). *)
Theorem float_dielectric_near : forall eta_i eta_t cosin, index eta_i -> index eta_t -> fin cosin -> Rabs (val cosin) <= 1 ->
  let ei := if Rlt_dec (val cosin) 0 then val eta_t else val eta_i in
  let et := if Rlt_dec (val cosin) 0 then val eta_i else val eta_t in
  let q := ei / et * (ei / et) in
  let s2 := q * (1 - val cosin * val cosin) in
  (1 + bpow radix2 (-19) * (1 + q) <= s2 -> val (f_dielectric eta_i eta_t cosin) = 1) /\
  (s2 + bpow radix2 (-19) * (1 + q) <= 1 ->
   Rabs (val (f_dielectric eta_i eta_t cosin) - glass_exact ei et (Rabs (val cosin)) s2) <= bpow radix2 (-17) * (1 + q) / (1 - s2)).
Proof.
  intros i t c EI ET FC C. cbv zeta. unfold f_dielectric. destruct fzero_val as (FZ & VZ). destruct fone_val as (_ & VO). apply abs_both in C. destruct (Rlt_dec (val c) 0) as [N|N].
  - assert (E : flt c fzero = true) by (apply (flt_val _ _ FC FZ); rewrite VZ; exact N). rewrite E. destruct (neg_val c FC) as (FN & VN).
    destruct (fresnel_near t i (fneg c) ET EI FN) as (H1 & H2); [rewrite VN; lra|]. unfold sine2, ratio2 in H1, H2. rewrite VN in H1, H2.
    replace (- val c * - val c) with (val c * val c) in H1, H2 by ring. rewrite (Rabs_left (val c)) by exact N. split; [intro G; rewrite (H1 G); exact VO|exact H2].
  - assert (E : flt c fzero = false). { destruct (flt c fzero) eqn:G; [|reflexivity]. apply (flt_val _ _ FC FZ) in G. rewrite VZ in G. contradiction. } rewrite E.
    destruct (fresnel_near i t c EI ET FC) as (H1 & H2); [lra|]. unfold sine2, ratio2 in H1, H2. rewrite (Rabs_pos_eq (val c)) by lra.
    split; [intro G; rewrite (H1 G); exact VO|exact H2].
Qed.
Print Assumptions float_dielectric_near.

(* glass from air at an angle, and from inside beyond the critical angle *)
Example float_dielectric_near_case : let glass := fnum 3 (-1) in let c := fnum 1 (-2) in
  index fone /\ index glass /\ fin c /\ fin (fneg c) /\ val c = 1 / 4 /\ val glass = 3 / 2 /\
  val (f_dielectric fone glass c) = 8864757 / 33554432 /\ f_dielectric fone glass (fneg c) = fone.
Proof.
  cbv zeta. destruct fone_val as (FO & VO).
  assert (N : val (fnum 3 (-1)) = 3 / 2) by (erewrite lit_val by (vm_compute; reflexivity); cbn; lra).
  assert (C : val (fnum 1 (-2)) = 1 / 4) by (erewrite lit_val by (vm_compute; reflexivity); cbn; lra).
  assert (V : val (f_dielectric fone (fnum 3 (-1)) (fnum 1 (-2))) = 8864757 / 33554432) by (erewrite lit_val by (vm_compute; reflexivity); cbn; lra).
  unfold index. rewrite N, C, V, VO. assert (B : bpow radix2 20 = 1048576) by reflexivity. assert (B' : bpow radix2 (-20) = / 1048576) by reflexivity. rewrite B, B'.
  repeat split; try lra; try reflexivity.
Qed.

(* With the same medium on both sides nothing should be reflected. In single precision all the
   light is reflected when the cosine is at most 2^-13: the square of the sine rounds to one. *)
Theorem float_dielectric_matched_refuted : forall eta cosin, index eta -> fin cosin -> 0 < val cosin <= bpow radix2 (-13) ->
  val (f_dielectric eta eta cosin) = 1 /\ glass_exact (val eta) (val eta) (val cosin) (1 - val cosin * val cosin) = 0.
Proof.
  intros e c IE FC C. pose proof IE as (FE & E). destruct fone_val as (FO & VO). destruct fzero_val as (FZ & VZ). pose proof (bpow_gt_0 radix2 (-20)) as P20. split.
  - unfold f_dielectric. assert (N : flt c fzero = false). { destruct (flt c fzero) eqn:G; [|reflexivity]. apply (flt_val _ _ FC FZ) in G. rewrite VZ in G. lra. } rewrite N.
    unfold f_fresnel. cbv zeta.
    assert (CC : 0 <= val c * val c <= bpow radix2 (-26)). { split; [apply Rle_0_sqr|]. change (-26)%Z with (-13 + -13)%Z. rewrite bpow_plus. apply Rmult_le_compat; lra. }
    assert (RC : 0 <= rnd (val c * val c) <= bpow radix2 (-26)).
    { split; [apply rnd_nonneg; lra|]. rewrite <- (rnd_fits (bpow radix2 (-26))) by (apply fits_bpow; lia). apply rnd_le; lra. }
    assert (F1 : fits 1) by (change 1 with (bpow radix2 0); apply fits_bpow; lia).
    assert (ONE : rnd (1 - rnd (val c * val c)) = 1).
    { apply (absorb_below 1 _ (-1) F1); [lia|change (bpow radix2 (-1)) with (/ 2); lra|lra|]. apply Rle_lt_trans with (bpow radix2 (-26)); [lra|apply bpow_lt; lia]. }
    destruct (cosine_of c FC) as (FK & VK & _). { rewrite Rabs_pos_eq by lra. assert (bpow radix2 (-13) <= bpow radix2 0) by (apply bpow_le; lia). change (bpow radix2 0) with 1 in H. lra. }
    cbv zeta in *. rewrite ONE, Rmax_right, sqrt_1, rnd_one in VK by lra.
    destruct (fdiv_val e e FE) as (FD & VD); [lra|unfold Rdiv; rewrite Rinv_r by lra; apply one_127; rewrite Rabs_R1; lra|].
    unfold Rdiv in VD. rewrite Rinv_r, rnd_one in VD by lra.
    assert (S1 : fin (f_snell e e c) /\ val (f_snell e e c) = 1).
    { unfold f_snell. destruct (fmul_val (fdiv e e) (fsqrt (fmax fzero (fsub fone (fmul c c)))) FD FK) as (FM & VM); [rewrite VD, VK, Rmult_1_l; apply one_127; rewrite Rabs_R1; lra|].
      split; [exact FM|]. rewrite VM, VD, VK, Rmult_1_l. apply rnd_one. }
    destruct S1 as (FS & VS). assert (G : fle fone (f_snell e e c) = true) by (apply (fle_val _ _ FO FS); rewrite VO, VS; lra). rewrite G. exact VO.
  - unfold glass_exact. cbv zeta. replace (1 - (1 - val c * val c)) with (val c * val c) by ring. rewrite sqrt_square by lra.
    unfold Rminus. rewrite Rplus_opp_r. unfold Rdiv. rewrite !Rmult_0_l. ring.
Qed.
Print Assumptions float_dielectric_matched_refuted.

Example float_dielectric_matched_case : index fone /\ fin (fnum 1 (-14)) /\ 0 < val (fnum 1 (-14)) <= bpow radix2 (-13) /\ f_dielectric fone fone (fnum 1 (-14)) = fone.
Proof.
  destruct fone_val as (FO & VO). assert (C : val (fnum 1 (-14)) = / 16384) by (erewrite lit_val by (vm_compute; reflexivity); cbn; lra). unfold index. rewrite VO, C.
  assert (B : bpow radix2 20 = 1048576) by reflexivity. assert (B' : bpow radix2 (-20) = / 1048576) by reflexivity. assert (B3 : bpow radix2 (-13) = / 8192) by reflexivity. rewrite B, B', B3.
  repeat split; try lra; try reflexivity.
Qed.
