(* Theorems about FltModel: normalised vectors. *)
From Coq Require Import ZArith Reals Lra Psatz Lia List Bool.
From Flocq Require Import Core.Core IEEE754.BinarySingleNaN.
From Flocq Require Relative.
From Verif Require Import Common FltModel FltFacts FltProps.
Import ListNotations.
Local Open Scope R_scope.

Definition vfin (v : fvec) : Prop := fin (fx v) /\ fin (fy v) /\ fin (fz v).
(* the squared length, exactly *)
Definition length2 (v : fvec) : R := val (fx v) * val (fx v) + val (fy v) * val (fy v) + val (fz v) * val (fz v).

Lemma err150 : forall x, Rabs (rnd x - x) <= u24 * Rabs x + bpow radix2 (-150).
Proof. intro x; pose proof (rnd_err x) as E; rewrite u24_bpow in E; exact E. Qed.

Lemma sq_le : forall a b c, a * a + b * b + c * c <= bpow radix2 100 -> Rabs a <= bpow radix2 50.
Proof.
  intros a b c H; assert (a * a <= bpow radix2 50 * bpow radix2 50).
  { rewrite <- bpow_plus; change (50 + 50)%Z with 100%Z; nra. }
  rewrite <- (Rabs_pos_eq (bpow radix2 50)) by apply bpow_ge_0; apply Rsqr_le_abs_0; unfold Rsqr; assumption.
Qed.

Definition eta : R := bpow radix2 (-150).
Lemma eta_pos : 0 < eta. Proof. apply bpow_gt_0. Qed.
Lemma eta_small : eta <= u24 * bpow radix2 (-120).
Proof. unfold eta; rewrite <- u24_bpow, <- bpow_plus; apply bpow_le; lia. Qed.

(* the computed squared length *)
Lemma len2_val : forall v, vfin v -> bpow radix2 (-100) <= length2 v <= bpow radix2 100 ->
  fin (f_len2 v) /\ length2 v * (1 - 5 * u24) <= val (f_len2 v) <= length2 v * (1 + 5 * u24).
Proof.
  intros v (FX & FY & FZ) B; set (S := length2 v) in *; unfold f_len2, length2 in *.
  set (x := val (fx v)) in *; set (y := val (fy v)) in *; set (z := val (fz v)) in *.
  assert (SM : bpow radix2 100 <= bpow radix2 101 /\ 16 * bpow radix2 100 <= bpow radix2 127).
  { split; [apply bpow_le; lia |]; replace 16 with (bpow radix2 4) by reflexivity; rewrite <- bpow_plus; apply bpow_le; lia. }
  assert (XX : 0 <= x * x) by nra; assert (YY : 0 <= y * y) by nra; assert (ZZ : 0 <= z * z) by nra.
  assert (SX : x * x <= S) by (unfold S; lra); assert (SY : y * y <= S) by (unfold S; lra); assert (SZ : z * z <= S) by (unfold S; lra).
  assert (M : forall a, fin a -> 0 <= val a * val a <= S -> fin (fmul a a) /\ Rabs (val (fmul a a) - val a * val a) <= u24 * (val a * val a) + eta).
  { intros a FA BA; destruct (fmul_val a a FA FA) as [F V]; [rewrite Rabs_pos_eq by lra; lra |].
    split; [exact F |]; rewrite V; pose proof (err150 (val a * val a)) as E; rewrite (Rabs_pos_eq (val a * val a)) in E by lra; exact E. }
  destruct (M (fx v) FX) as [F1 E1]; [fold x; lra |]; destruct (M (fy v) FY) as [F2 E2]; [fold y; lra |]; destruct (M (fz v) FZ) as [F3 E3]; [fold z; lra |].
  fold x in E1; fold y in E2; fold z in E3.
  set (a := val (fmul (fx v) (fx v))) in *; set (b := val (fmul (fy v) (fy v))) in *; set (c := val (fmul (fz v) (fz v))) in *.
  pose proof eta_pos as EP; pose proof eta_small as ES.
  assert (SE : S = x * x + y * y + z * z) by reflexivity; clearbody S.
  assert (ET : eta <= u24 * S * / 1000).
  { apply Rle_trans with (1 := ES); rewrite Rmult_assoc; apply Rmult_le_compat_l; [unfold u24; lra |].
    apply Rle_trans with (bpow radix2 (-100) * / 1000); [| lra].
    change (-120)%Z with (-100 + -20)%Z; rewrite bpow_plus; apply Rmult_le_compat_l; [apply bpow_ge_0 |]; cbn; lra. }
  assert (SP : 0 < S) by (apply Rlt_le_trans with (2 := proj1 B), bpow_gt_0).
  apply abs_bounds in E1; apply abs_bounds in E2; apply abs_bounds in E3.
  destruct (fadd_val (fmul (fx v) (fx v)) (fmul (fy v) (fy v)) F1 F2) as [F4 V4].
  { fold a; fold b; apply abs_bounds; unfold u24 in *; lra. }
  fold a in V4; fold b in V4; pose proof (err150 (a + b)) as E4; fold eta in E4; rewrite <- V4 in E4; set (d := val (fadd _ _)) in E4, V4.
  assert (AB : Rabs (a + b) <= (1 + 2 * u24) * (x * x + y * y) + u24 * S * / 250) by (apply abs_bounds; unfold u24 in *; lra).
  destruct (fadd_val (fadd (fmul (fx v) (fx v)) (fmul (fy v) (fy v))) (fmul (fz v) (fz v)) F4 F3) as [F5 V5].
  { fold d; fold c; apply abs_bounds in E4; pose proof (proj1 (abs_bounds _ _) AB); apply abs_bounds; unfold u24 in *; lra. }
  fold d in V5; fold c in V5; pose proof (err150 (d + c)) as E5; fold eta in E5; rewrite <- V5 in E5.
  set (L := val (fadd (fadd _ _) _)) in *.
  split; [exact F5 |].
  assert (E4' : Rabs (d - (x * x + y * y)) <= u24 * S * (2 + / 100)).
  { apply abs_bounds in E4; pose proof (proj1 (abs_bounds _ _) AB); apply abs_bounds.
    assert (W : Rabs (a + b) <= S * (1 + / 1000)) by (apply abs_bounds; unfold u24 in *; lra).
    unfold u24 in *; lra. }
  apply abs_bounds in E4'.
  assert (DC : Rabs (d + c) <= S * (1 + / 1000)) by (apply abs_bounds; unfold u24 in *; lra).
  apply abs_bounds in E5; pose proof (proj1 (abs_bounds _ _) DC); unfold u24 in *; lra.
Qed.

(* what one over the square root of the computed length is *)
Lemma inv_sqrt : forall S L q i, bpow radix2 (-100) <= S <= bpow radix2 100 -> S * (1 - 5 * u24) <= L <= S * (1 + 5 * u24) ->
  q = rnd (sqrt L) -> i = rnd (1 / q) -> 1 - 8 * u24 <= i * sqrt S <= 1 + 8 * u24 /\ 0 < q /\ 0 < 1 / q <= bpow radix2 60.
Proof.
  intros S L q i B LB Q I.
  assert (SP : 0 < S) by (apply Rlt_le_trans with (2 := proj1 B), bpow_gt_0).
  assert (LP : 0 < L) by (unfold u24 in LB; lra).
  set (s := sqrt S); assert (SS : s * s = S) by (apply sqrt_sqrt; lra).
  assert (SL : bpow radix2 (-50) <= s <= bpow radix2 50).
  { assert (H : forall e, sqrt (bpow radix2 (e + e)) = bpow radix2 e) by (intro e; rewrite bpow_plus; apply sqrt_square, bpow_ge_0).
    split; [rewrite <- (H (-50)%Z) | rewrite <- (H 50%Z)]; apply sqrt_le_1_alt; apply B. }
  assert (s0 : 0 < s) by (apply Rlt_le_trans with (2 := proj1 SL), bpow_gt_0).
  set (t := sqrt L) in *; assert (TT : t * t = L) by (apply sqrt_sqrt; lra); assert (T0 : 0 < t) by (apply sqrt_lt_R0, LP).
  (* t is s up to 3 units *)
  assert (TB : s * (1 - 3 * u24) <= t <= s * (1 + 3 * u24)).
  { split; apply Rnot_lt_le; intro K.
    - assert (t * t < s * (1 - 3 * u24) * (s * (1 - 3 * u24))) by (apply Rmult_le_0_lt_compat; lra).
      replace (s * (1 - 3 * u24) * (s * (1 - 3 * u24))) with (S * (1 - 6 * u24 + 9 * (u24 * u24))) in H by (rewrite <- SS; ring).
      rewrite TT in H; assert (S * (1 - 6 * u24 + 9 * (u24 * u24)) <= S * (1 - 5 * u24)); [| lra].
      apply Rmult_le_compat_l; [lra |]; unfold u24; lra.
    - assert (s * (1 + 3 * u24) * (s * (1 + 3 * u24)) < t * t).
      { apply Rmult_le_0_lt_compat; try lra; apply Rmult_le_pos; unfold u24; lra. }
      replace (s * (1 + 3 * u24) * (s * (1 + 3 * u24))) with (S * (1 + 6 * u24 + 9 * (u24 * u24))) in H by (rewrite <- SS; ring).
      rewrite TT in H; assert (S * (1 + 5 * u24) <= S * (1 + 6 * u24 + 9 * (u24 * u24))); [| lra].
      apply Rmult_le_compat_l; [lra |]; unfold u24; lra. }
  assert (P60 : bpow radix2 (-50) <= 1 * bpow radix2 (-50)) by lra.
  assert (M : bpow radix2 (-126) <= bpow radix2 (-51)) by (apply bpow_le; lia).
  assert (H51 : bpow radix2 (-50) = 2 * bpow radix2 (-51)) by (change (-50)%Z with (1 + -51)%Z; rewrite bpow_plus; cbn [bpow]; change (IZR (Z.pow_pos radix2 1)) with 2; ring).
  assert (H51' : bpow radix2 51 = 2 * bpow radix2 50) by (change 51%Z with (1 + 50)%Z; rewrite bpow_plus; change (bpow radix2 1) with 2; ring).
  assert (P51 : 0 < bpow radix2 (-51)) by apply bpow_gt_0.
  assert (QB : s * (1 - 5 * u24) <= q <= s * (1 + 5 * u24)).
  { pose proof (rel t) as E; rewrite (Rabs_pos_eq t) in E by lra; specialize (E ltac:(unfold u24 in TB; lra)).
    fold t in Q; rewrite <- Q in E; apply abs_bounds in E; unfold u24 in *; lra. }
  assert (Q0 : 0 < q) by (unfold u24 in QB; lra).
  (* 1 / q times s *)
  assert (R : 1 - 6 * u24 <= 1 / q * s <= 1 + 6 * u24).
  { replace (1 / q * s) with (s / q) by (field; lra); split.
    - apply Rmult_le_reg_r with q; [lra |]; replace (s / q * q) with s by (field; lra).
      apply Rle_trans with ((1 - 6 * u24) * (s * (1 + 5 * u24))); [apply Rmult_le_compat_l; [unfold u24; lra | apply QB] |].
      replace ((1 - 6 * u24) * (s * (1 + 5 * u24))) with (s * ((1 - 6 * u24) * (1 + 5 * u24))) by ring.
      rewrite <- (Rmult_1_r s) at 2; apply Rmult_le_compat_l; [lra | unfold u24; lra].
    - apply Rmult_le_reg_r with q; [lra |]; replace (s / q * q) with s by (field; lra).
      apply Rle_trans with ((1 + 6 * u24) * (s * (1 - 5 * u24))); [| apply Rmult_le_compat_l; [unfold u24; lra | apply QB]].
      replace ((1 + 6 * u24) * (s * (1 - 5 * u24))) with (s * ((1 + 6 * u24) * (1 - 5 * u24))) by ring.
      rewrite <- (Rmult_1_r s) at 1; apply Rmult_le_compat_l; [lra | unfold u24; lra]. }
  assert (Q1 : 0 < 1 / q) by (unfold Rdiv; rewrite Rmult_1_l; apply Rinv_0_lt_compat, Q0).
  assert (QU : q <= bpow radix2 51) by (unfold u24 in QB; lra).
  assert (QL : bpow radix2 (-51) <= q) by (unfold u24 in QB; lra).
  assert (G : bpow radix2 (-51) <= 1 / q <= bpow radix2 51).
  { unfold Rdiv; rewrite Rmult_1_l; split.
    - change (-51)%Z with (Z.opp 51); rewrite bpow_opp; apply Rinv_le; lra.
    - change 51%Z with (Z.opp (-51)); rewrite bpow_opp; apply Rinv_le; lra. }
  split; [| split; [exact Q0 | split; [exact Q1 | apply Rle_trans with (1 := proj2 G), bpow_le; lia]]].
  pose proof (rel (1 / q)) as E; rewrite (Rabs_pos_eq (1 / q)) in E by lra; specialize (E ltac:(lra)); rewrite <- I in E.
  apply abs_bounds in E.
  assert (U : (1 - u24) * (1 / q) <= i <= (1 + u24) * (1 / q)) by lra.
  split.
  - apply Rle_trans with ((1 - u24) * (1 / q) * s); [| apply Rmult_le_compat_r; lra].
    rewrite Rmult_assoc; apply Rle_trans with ((1 - u24) * (1 - 6 * u24)); [unfold u24; lra | apply Rmult_le_compat_l; [unfold u24; lra | apply R]].
  - apply Rle_trans with ((1 + u24) * (1 / q) * s); [apply Rmult_le_compat_r; lra |].
    rewrite Rmult_assoc; apply Rle_trans with ((1 + u24) * (1 + 6 * u24)); [apply Rmult_le_compat_l; [unfold u24; lra | apply R] | unfold u24; lra].
Qed.

Lemma eps_vals : fin (fsub fone f_epsilon) /\ fin (fadd fone f_epsilon) /\
  Rabs (val (fsub fone f_epsilon) - (1 - 1e-5)) <= 1e-7 /\ Rabs (val (fadd fone f_epsilon) - (1 + 1e-5)) <= 1e-7.
Proof.
  assert (FE : fin f_epsilon) by (vm_compute; reflexivity).
  assert (VE : val f_epsilon = IZR 10995116 * bpow radix2 (-40)) by (apply lit_val; vm_compute; reflexivity).
  assert (P : bpow radix2 (-40) = / 1099511627776) by (cbn; lra); rewrite P in VE.
  destruct fone_val as [F1 V1].
  destruct (fsub_val fone f_epsilon F1 FE) as [FS VS]; [rewrite V1, VE; apply (big 2); [lia |]; apply abs_bounds; lra |].
  destruct (fadd_val fone f_epsilon F1 FE) as [FA VA]; [rewrite V1, VE; apply (big 2); [lia |]; apply abs_bounds; lra |].
  split; [exact FS |]; split; [exact FA |]; rewrite VS, VA, V1, VE; split.
  - pose proof (err (1 - 10995116 * / 1099511627776)) as E; rewrite (Rabs_pos_eq (1 - _)) in E by lra; apply abs_bounds in E; apply abs_bounds; unfold u24 in E; lra.
  - pose proof (err (1 + 10995116 * / 1099511627776)) as E; rewrite (Rabs_pos_eq (1 + _)) in E by lra; apply abs_bounds in E; apply abs_bounds; unfold u24 in E; lra.
Qed.

Lemma and_val : forall a l u, fin a -> fin l -> fin u -> (fgt a l && flt a u = true <-> val l < val a < val u).
Proof.
  intros a l u FA FL FU; unfold fgt; fold (flt l a); rewrite andb_true_iff, (flt_val l a FL FA), (flt_val a u FA FU); tauto.
Qed.

(* one component *)
Lemma component : forall x s i, 0 < s -> Rabs x <= s -> 1 - 8 * u24 <= i * s <= 1 + 8 * u24 ->
  Rabs (x * i) <= 2 /\ Rabs (rnd (x * i) - x / s) <= 10 * u24 * Rabs (x / s) + eta.
Proof.
  intros x s i SP X I.
  assert (E : x * i = x / s * (i * s)) by (field; lra).
  set (n := x / s) in *; set (t := i * s) in *.
  assert (N : Rabs n <= 1).
  { unfold n, Rdiv; rewrite Rabs_mult, (Rabs_pos_eq (/ s)) by (left; apply Rinv_0_lt_compat, SP).
    apply Rmult_le_reg_r with s; [lra |]; rewrite Rmult_assoc, Rinv_l by lra; lra. }
  assert (T : Rabs (x * i) <= (1 + 8 * u24) * Rabs n).
  { rewrite E, Rabs_mult, Rmult_comm; apply Rmult_le_compat_r; [apply Rabs_pos |]; apply abs_bounds; unfold u24 in *; lra. }
  pose proof (Rabs_pos n) as P; split; [unfold u24 in T; lra |].
  pose proof (err150 (x * i)) as R1; fold eta in R1.
  replace (rnd (x * i) - n) with ((rnd (x * i) - x * i) + n * (t - 1)) by (rewrite E at 2; ring).
  apply Rle_trans with (1 := Rabs_triang _ _).
  assert (R2 : Rabs (n * (t - 1)) <= 8 * u24 * Rabs n).
  { rewrite Rabs_mult, Rmult_comm; apply Rmult_le_compat_r; [exact P |]; apply abs_bounds; unfold u24 in *; lra. }
  unfold u24 in *; lra.
Qed.

Lemma square_close : forall a n, Rabs n <= 1 -> Rabs (a - n) <= 10 * u24 * Rabs n + eta -> Rabs (a * a - n * n) <= 21 * u24 * (n * n) + 10 * eta.
Proof.
  intros a n N H; replace (a * a - n * n) with ((a - n) * (a - n + 2 * n)) by ring; rewrite Rabs_mult.
  pose proof eta_pos as EP; pose proof eta_small as ES; pose proof (Rabs_pos n) as P.
  assert (E1 : eta <= u24 * / 1000).
  { apply Rle_trans with (1 := ES); apply Rmult_le_compat_l; [unfold u24; lra |]; apply Rle_trans with (bpow radix2 (-20)); [apply bpow_le; lia | cbn; lra]. }
  assert (NN : n * n = Rabs n * Rabs n) by (rewrite <- Rabs_mult, Rabs_pos_eq; nra).
  assert (H2 : Rabs (a - n + 2 * n) <= (2 + 10 * u24) * Rabs n + eta).
  { apply Rle_trans with (1 := Rabs_triang _ _); rewrite (Rabs_mult 2), (Rabs_pos_eq 2) by lra; lra. }
  apply Rle_trans with ((10 * u24 * Rabs n + eta) * ((2 + 10 * u24) * Rabs n + eta)).
  - apply Rmult_le_compat; try apply Rabs_pos; assumption.
  - rewrite NN; set (m := Rabs n) in *; clearbody m; unfold u24 in *.
    assert (K1 : m * eta <= eta) by (rewrite <- (Rmult_1_l eta) at 2; apply Rmult_le_compat_r; lra).
    assert (K2 : 0 <= m * eta) by (apply Rmult_le_pos; lra).
    assert (K3 : eta * eta <= eta * 1) by (apply Rmult_le_compat_l; lra).
    assert (K4 : 0 <= m * m) by nra.
    replace ((10 * / 16777216 * m + eta) * ((2 + 10 * / 16777216) * m + eta)) with
      (10 * / 16777216 * (2 + 10 * / 16777216) * (m * m) + (10 * / 16777216 + 2 + 10 * / 16777216) * (m * eta) + eta * eta) by ring.
    lra.
Qed.

Lemma abs_le_sqrt : forall a S, a * a <= S -> Rabs a <= sqrt S.
Proof. intros a S H; rewrite <- (sqrt_Rsqr_abs a); apply sqrt_le_1_alt; exact H. Qed.

(* the two branches *)
Lemma normalize_cases : forall v, vfin v -> bpow radix2 (-100) <= length2 v <= bpow radix2 100 ->
  (f_normalize v = v /\ Rabs (length2 v - 1) <= 1.1e-5) \/
  (vfin (f_normalize v) /\ Rabs (length2 (f_normalize v) - 1) <= 22 * u24 /\
   forall a a', In (a, a') [(fx v, fx (f_normalize v)); (fy v, fy (f_normalize v)); (fz v, fz (f_normalize v))] ->
     Rabs (val a' - val a / sqrt (length2 v)) <= 11 * u24).
Proof.
  intros v VF B; destruct (len2_val v VF B) as [FL LB]; destruct eps_vals as (FS & FA & ES & EA).
  apply abs_bounds in ES; apply abs_bounds in EA.
  assert (SP : 0 < length2 v) by (apply Rlt_le_trans with (2 := proj1 B), bpow_gt_0).
  unfold f_normalize; destruct (fgt (f_len2 v) (fsub fone f_epsilon) && flt (f_len2 v) (fadd fone f_epsilon)) eqn:T.
  - left; split; [reflexivity |]; apply and_val in T; [| assumption | assumption | assumption].
    apply abs_bounds; set (S := length2 v) in *; set (L := val (f_len2 v)) in *; unfold u24 in LB; lra.
  - right; clear T; cbv zeta; set (L := f_len2 v) in *; destruct fone_val as [F1 V1].
    destruct (fsqrt_val L FL) as [FQ VQ]; [unfold u24 in LB; lra |].
    destruct (inv_sqrt (length2 v) (val L) (val (fsqrt L)) (rnd (1 / val (fsqrt L))) B LB VQ eq_refl) as (IB & Q0 & Q1).
    destruct (fdiv_val fone (fsqrt L) F1) as [FI VI]; [lra | rewrite V1, Rabs_pos_eq by lra; apply Rle_trans with (1 := proj2 Q1), bpow_le; lia |].
    rewrite V1 in VI; rewrite <- VI in IB; set (i := fdiv fone (fsqrt L)) in *.
    set (s := sqrt (length2 v)) in *; assert (S0 : 0 < s) by (apply sqrt_lt_R0, SP).
    assert (SS : s * s = length2 v) by (apply sqrt_sqrt; lra).
    assert (C : forall a, fin a -> val a * val a <= length2 v -> fin (fmul a i) /\
      Rabs (val a / s) <= 1 /\ Rabs (val (fmul a i) - val a / s) <= 10 * u24 * Rabs (val a / s) + eta).
    { intros a FA' LA; pose proof (abs_le_sqrt _ _ LA) as LA'; fold s in LA'.
      destruct (component (val a) s (val i) S0 LA' IB) as [M E].
      destruct (fmul_val a i FA' FI) as [FM VM]; [apply (big 2); [lia | exact M] |].
      split; [exact FM |]; split; [| rewrite VM; exact E].
      unfold Rdiv; rewrite Rabs_mult, (Rabs_pos_eq (/ s)) by (left; apply Rinv_0_lt_compat, S0).
      apply Rmult_le_reg_r with s; [lra |]; rewrite Rmult_assoc, Rinv_l by lra; lra. }
    destruct VF as (FX & FY & FZ).
    destruct (C (fx v) FX) as (GX & NX & EX); [unfold length2; nra |].
    destruct (C (fy v) FY) as (GY & NY & EY); [unfold length2; nra |].
    destruct (C (fz v) FZ) as (GZ & NZ & EZ); [unfold length2; nra |].
    pose proof eta_pos as EP.
    assert (E1 : eta <= u24 * / 1000).
    { apply Rle_trans with (1 := eta_small); apply Rmult_le_compat_l; [unfold u24; lra |]; apply Rle_trans with (bpow radix2 (-20)); [apply bpow_le; lia | cbn; lra]. }
    split; [split; [exact GX | split; [exact GY | exact GZ]] |]; cbn [fx fy fz]; split.
    + unfold length2 at 1; cbn [fx fy fz].
      pose proof (square_close _ _ NX EX) as QX; pose proof (square_close _ _ NY EY) as QY; pose proof (square_close _ _ NZ EZ) as QZ.
      assert (ONE : val (fx v) / s * (val (fx v) / s) + val (fy v) / s * (val (fy v) / s) + val (fz v) / s * (val (fz v) / s) = 1).
      { replace (_ + _ + _) with (length2 v / (s * s)) by (unfold length2; field; lra); rewrite SS; field; lra. }
      set (nx := val (fx v) / s) in *; set (ny := val (fy v) / s) in *; set (nz := val (fz v) / s) in *.
      apply abs_bounds in QX; apply abs_bounds in QY; apply abs_bounds in QZ; apply abs_bounds.
      set (ax := val (fmul (fx v) i)) in *; set (ay := val (fmul (fy v) i)) in *; set (az := val (fmul (fz v) i)) in *.
      clearbody nx ny nz ax ay az; clear - QX QY QZ ONE EP E1; unfold u24 in *; lra.
    + intros a a' [K | [K | [K | []]]]; injection K as <- <-; unfold u24 in *; lra.
Qed.

(* C320: normalised vectors have length one and the same direction *)
Theorem float_normalize : forall v, vfin v -> bpow radix2 (-100) <= length2 v <= bpow radix2 100 ->
  let n := f_normalize v in let s := sqrt (length2 v) in
  vfin n /\ Rabs (length2 n - 1) <= 1.1e-5 /\
  Rabs (val (fx n) - val (fx v) / s) <= 1e-5 /\ Rabs (val (fy n) - val (fy v) / s) <= 1e-5 /\ Rabs (val (fz n) - val (fz v) / s) <= 1e-5.
Proof.
  intros v VF B n s; destruct (normalize_cases v VF B) as [[E L] | (F & L & C)].
  - unfold n; rewrite E; split; [exact VF |]; split; [exact L |]; apply abs_bounds in L.
    assert (SP : 0 < length2 v) by lra; assert (S0 : 0 < s) by (apply sqrt_lt_R0, SP).
    assert (SS : s * s = length2 v) by (apply sqrt_sqrt; lra).
    assert (SB : Rabs (s - 1) <= 6e-6) by (apply abs_bounds; split; apply Rnot_lt_le; intro K; nra).
    assert (G : forall a, a * a <= length2 v -> Rabs (a - a / s) <= 1e-5).
    { intros a A; apply abs_le_sqrt in A; fold s in A; replace (a - a / s) with ((s - 1) * (a / s)) by (field; lra).
      rewrite Rabs_mult; apply Rle_trans with (6e-6 * 1); [| lra].
      apply Rmult_le_compat; try apply Rabs_pos; [exact SB |].
      unfold Rdiv; rewrite Rabs_mult, (Rabs_pos_eq (/ s)) by (left; apply Rinv_0_lt_compat, S0).
      apply Rmult_le_reg_r with s; [lra |]; rewrite Rmult_assoc, Rinv_l by lra; lra. }
    split; [| split]; apply G; unfold length2; nra.
  - split; [exact F |]; split; [apply Rle_trans with (1 := L); unfold u24; lra |].
    assert (W : 11 * u24 <= 1e-5) by (unfold u24; lra); fold n in C; fold s in C.
    split; [| split]; apply Rle_trans with (2 := W), C; cbn [In]; auto.
Qed.
Print Assumptions float_normalize.
(* the vector (3, 4, 12) *)
Example float_normalize_ex : let v := mk_fvec (of_Z 3) (of_Z 4) (of_Z 12) in vfin v /\ length2 v = 169.
Proof.
  cbv zeta; destruct (of_Z_exact 3) as [F3 V3]; [lia |]; destruct (of_Z_exact 4) as [F4 V4]; [lia |]; destruct (of_Z_exact 12) as [F12 V12]; [lia |].
  split; [split; [exact F3 | split; [exact F4 | exact F12]] |]; unfold length2; cbn [fx fy fz]; rewrite V3, V4, V12; lra.
Qed.

(* C321: normalising twice changes nothing more *)
Theorem float_normalize_twice : forall v, vfin v -> bpow radix2 (-100) <= length2 v <= bpow radix2 100 ->
  f_normalize (f_normalize v) = f_normalize v.
Proof.
  intros v VF B; destruct (normalize_cases v VF B) as [[E _] | (F & L & _)]; [rewrite !E; reflexivity |].
  set (n := f_normalize v) in *; apply abs_bounds in L.
  assert (B' : bpow radix2 (-100) <= length2 n <= bpow radix2 100).
  { assert (bpow radix2 (-100) <= / 2) by (apply Rle_trans with (bpow radix2 (-1)); [apply bpow_le; lia | cbn; lra]).
    assert (2 <= bpow radix2 100) by (apply Rle_trans with (bpow radix2 1); [cbn; lra | apply bpow_le; lia]).
    unfold u24 in L; lra. }
  destruct (len2_val n F B') as [FL LB]; destruct eps_vals as (FS & FA & ES & EA); apply abs_bounds in ES; apply abs_bounds in EA.
  unfold f_normalize at 1.
  assert (T : fgt (f_len2 n) (fsub fone f_epsilon) && flt (f_len2 n) (fadd fone f_epsilon) = true).
  { apply and_val; try assumption; unfold u24 in *; lra. }
  rewrite T; reflexivity.
Qed.
Print Assumptions float_normalize_twice.
Example float_normalize_twice_ex : let v := mk_fvec (of_Z 1) (of_Z 2) (of_Z 3) in
  B2SF (fx (f_normalize (f_normalize v))) = B2SF (fx (f_normalize v)) /\ B2SF (fx (f_normalize v)) <> B2SF (of_Z 1).
Proof. split; vm_compute; [reflexivity | discriminate]. Qed.

Lemma tiny_zero : forall a, 0 <= a < bpow radix2 (-150) -> rnd a = 0.
Proof.
  intros a [P L]; apply Rle_antisym.
  - apply round_N_le_midp; auto with typeclass_instances; [apply fits_0 |].
    rewrite succ_eq_pos, ulp_FLT_small by (auto with typeclass_instances; try lra; rewrite Rabs_R0; apply bpow_gt_0).
    assert (H : bpow radix2 (-149) = 2 * bpow radix2 (-150)) by (change (-149)%Z with (1 + -150)%Z; rewrite bpow_plus; reflexivity); lra.
  - apply (rnd_between a 0 1); [apply fits_0 | apply fits_1 |]; split; [exact P |].
    apply Rle_trans with (bpow radix2 (-150)); [lra |]; apply Rle_trans with (bpow radix2 0); [apply bpow_le; lia | cbn; lra].
Qed.

Lemma zero_form : forall a : f32, fin a -> val a = 0 -> exists s, a = B754_zero s.
Proof.
  intros [s | s | | s m e H] F V; try discriminate; [exists s; reflexivity |]; exfalso; unfold val, B2R in V.
  apply eq_0_F2R in V; destruct s; discriminate.
Qed.

Lemma one_form : exists m e H, fone = B754_finite false m e H.
Proof.
  destruct fone_val as [F V]; assert (S : B2SF fone = SpecFloat.S754_finite false 8388608 (-23)) by (vm_compute; reflexivity).
  destruct fone as [s | s | | s m e H]; try discriminate; cbn in S; injection S as -> -> ->; do 3 eexists; reflexivity.
Qed.

(* C322: short vectors cannot be normalised *)
Theorem float_normalize_short_refuted : forall v, vfin v ->
  Rabs (val (fx v)) <= bpow radix2 (-76) -> Rabs (val (fy v)) <= bpow radix2 (-76) -> Rabs (val (fz v)) <= bpow radix2 (-76) ->
  let n := f_normalize v in is_finite (fx n) = false /\ is_finite (fy n) = false /\ is_finite (fz n) = false.
Proof.
  intros v (FX & FY & FZ) BX BY BZ n.
  assert (M : forall a, fin a -> Rabs (val a) <= bpow radix2 (-76) -> fin (fmul a a) /\ val (fmul a a) = 0).
  { intros a FA LA; assert (Q : 0 <= val a * val a <= bpow radix2 (-152)).
    { replace (val a * val a) with (Rabs (val a) * Rabs (val a)) by (rewrite <- Rabs_mult, Rabs_pos_eq; nra).
      change (-152)%Z with (-76 + -76)%Z; rewrite bpow_plus; pose proof (Rabs_pos (val a)); nra. }
    destruct (fmul_val a a FA FA) as [F V].
    { rewrite Rabs_pos_eq by apply Q; apply Rle_trans with (1 := proj2 Q), bpow_le; lia. }
    split; [exact F |]; rewrite V; apply tiny_zero; split; [apply Q |]; apply Rle_lt_trans with (1 := proj2 Q), bpow_lt; lia. }
  destruct (M (fx v) FX BX) as [F1 V1]; destruct (M (fy v) FY BY) as [F2 V2]; destruct (M (fz v) FZ BZ) as [F3 V3].
  assert (Z : forall a b, fin a -> fin b -> val a = 0 -> val b = 0 -> fin (fadd a b) /\ val (fadd a b) = 0).
  { intros a b FA FB VA VB; destruct (fadd_val a b FA FB) as [F V]; rewrite VA, VB, Rplus_0_r in *.
    - rewrite Rabs_R0; apply bpow_ge_0.
    - split; [exact F |]; rewrite V; apply rnd_fits, fits_0. }
  destruct (Z _ _ F1 F2 V1 V2) as [F4 V4]; destruct (Z _ _ F4 F3 V4 V3) as [F5 V5]; fold (f_len2 v) in F5, V5.
  assert (T : fgt (f_len2 v) (fsub fone f_epsilon) && flt (f_len2 v) (fadd fone f_epsilon) = false).
  { destruct (_ && _) eqn:K; [| reflexivity]; destruct eps_vals as (FS & FA & ES & EA); apply and_val in K; try assumption.
    apply abs_bounds in ES; lra. }
  destruct (fsqrt_val (f_len2 v) F5) as [FQ VQ]; [lra |]; rewrite V5, sqrt_0, (rnd_fits 0 fits_0) in VQ.
  destruct (zero_form _ FQ VQ) as [s E]; destruct one_form as (m & e & H & O).
  unfold n, f_normalize; rewrite T; cbv zeta; rewrite E, O; cbn [fx fy fz].
  set (i := fdiv (B754_finite false m e H) (B754_zero s)); assert (I : i = B754_infinity (xorb false s)) by reflexivity; rewrite I.
  assert (G : forall a : f32, fin a -> is_finite (fmul a (B754_infinity (xorb false s))) = false).
  { intros [s' | s' | | s' m' e' H'] F; try discriminate; reflexivity. }
  split; [| split]; apply G; assumption.
Qed.
Print Assumptions float_normalize_short_refuted.
(* the cross product of two edges of length 10^-12 is such a vector *)
Example float_normalize_short_ex : let v := mk_fvec fzero fzero (fnum 1 (-80)) in
  vfin v /\ B2SF (fz (f_normalize v)) = SpecFloat.S754_infinity false /\ B2SF (fx (f_normalize v)) = SpecFloat.S754_nan.
Proof. cbv zeta; split; [repeat split; vm_compute; reflexivity | split; vm_compute; reflexivity]. Qed.

(* a number that is not negative or plus infinity *)
Definition above (a : f32) : Prop := (fin a /\ 0 <= val a) \/ a = B754_infinity false.

Lemma sf_inf : forall a : f32, B2SF a = SpecFloat.S754_infinity false -> a = B754_infinity false.
Proof. intros [s | s | | s m e H] E; cbn in E; try discriminate; injection E as ->; reflexivity. Qed.

Lemma square_above : forall a, fin a -> above (fmul a a) /\ (bpow radix2 64 <= Rabs (val a) -> fmul a a = B754_infinity false).
Proof.
  intros a F; pose proof (Bmult_correct 24 128 prec24 emax128 mode_NE a a) as M; cbn [round_mode] in M.
  change (round radix2 (SpecFloat.fexp 24 128) ZnearestE (B2R a * B2R a)) with (rnd (val a * val a)) in M.
  assert (P : 0 <= rnd (val a * val a)) by (rewrite <- (rnd_fits 0 fits_0); apply rnd_le; nra).
  destruct (Rlt_bool_spec (Rabs (rnd (val a * val a))) (bpow radix2 128)) as [L | L].
  - destruct M as (V & FM & _); fold (fmul a a) in V, FM; rewrite F in FM; split.
    + left; split; [exact FM |]; unfold val; rewrite V; exact P.
    + intro B; exfalso; rewrite Rabs_pos_eq in L by exact P.
      assert (Q : bpow radix2 128 <= val a * val a).
      { replace (val a * val a) with (Rabs (val a) * Rabs (val a)) by (rewrite <- Rabs_mult, Rabs_pos_eq; nra).
        change 128%Z with (64 + 64)%Z; rewrite bpow_plus; pose proof (bpow_gt_0 radix2 64); nra. }
      apply rnd_le in Q; rewrite (rnd_fits (bpow radix2 128)) in Q by (apply fits_bpow; lia); lra.
  - rewrite xorb_nilpotent in M; fold (fmul a a) in M; apply sf_inf in M; split; [right; exact M | intros _; exact M].
Qed.

Lemma add_above : forall a b, above a -> above b -> above (fadd a b) /\ (a = B754_infinity false \/ b = B754_infinity false -> fadd a b = B754_infinity false).
Proof.
  intros a b [[FA PA] | ->] [[FB PB] | ->].
  - split; [| intros [-> | ->]; discriminate].
    pose proof (Bplus_correct 24 128 prec24 emax128 mode_NE a b FA FB) as M; cbn [round_mode] in M.
    change (round radix2 (SpecFloat.fexp 24 128) ZnearestE (B2R a + B2R b)) with (rnd (val a + val b)) in M.
    assert (P : 0 <= rnd (val a + val b)) by (rewrite <- (rnd_fits 0 fits_0); apply rnd_le; lra).
    destruct (Rlt_bool_spec (Rabs (rnd (val a + val b))) (bpow radix2 128)) as [L | L].
    + destruct M as (V & FM & _); left; split; [exact FM |]; unfold val, fadd; rewrite V; exact P.
    + destruct M as [M S].
      assert (N : forall c : f32, fin c -> 0 <= val c -> Bsign c = true -> val c = 0).
      { intros [s | s | | s m e H] F Q E; try discriminate; [reflexivity |]; cbn in E; subst s; exfalso; unfold val, B2R in Q.
        assert (F2R (Float radix2 (cond_Zopp true (Zpos m)) e) < 0) by (apply F2R_lt_0; reflexivity); lra. }
      destruct (Bsign a) eqn:SA.
      * symmetry in S; rewrite (N a FA PA SA), (N b FB PB S), Rplus_0_r, (rnd_fits 0 fits_0), Rabs_R0 in L; pose proof (bpow_gt_0 radix2 128); lra.
      * right; apply sf_inf; exact M.
  - assert (E : fadd a (B754_infinity false) = B754_infinity false) by (destruct a; try discriminate; reflexivity); rewrite E; split; [right |]; reflexivity.
  - assert (E : fadd (B754_infinity false) b = B754_infinity false) by (destruct b; try discriminate; reflexivity); rewrite E; split; [right |]; reflexivity.
  - split; [right |]; reflexivity.
Qed.

(* C323: long vectors become zero *)
Theorem float_normalize_long_refuted : forall v, vfin v ->
  bpow radix2 64 <= Rabs (val (fx v)) \/ bpow radix2 64 <= Rabs (val (fy v)) \/ bpow radix2 64 <= Rabs (val (fz v)) ->
  let n := f_normalize v in vfin n /\ val (fx n) = 0 /\ val (fy n) = 0 /\ val (fz n) = 0.
Proof.
  intros v (FX & FY & FZ) B n.
  destruct (square_above _ FX) as [A1 I1]; destruct (square_above _ FY) as [A2 I2]; destruct (square_above _ FZ) as [A3 I3].
  destruct (add_above _ _ A1 A2) as [A4 I4]; destruct (add_above _ _ A4 A3) as [_ I5]; fold (f_len2 v) in I5.
  assert (E : f_len2 v = B754_infinity false).
  { apply I5; destruct B as [B | [B | B]]; [left; apply I4; left; apply I1, B | left; apply I4; right; apply I2, B | right; apply I3, B]. }
  unfold n, f_normalize; rewrite E.
  assert (T : fgt (B754_infinity false) (fsub fone f_epsilon) && flt (B754_infinity false) (fadd fone f_epsilon) = false).
  { apply andb_false_intro2; destruct eps_vals as (_ & FA & _); destruct (fadd fone f_epsilon) as [s | s | | s m e H]; try discriminate; reflexivity. }
  rewrite T; cbv zeta; change (fsqrt (B754_infinity false)) with (B754_infinity false : f32).
  destruct one_form as (m & e & H & O); rewrite O; set (i := fdiv (B754_finite false m e H) (B754_infinity false)).
  assert (I : i = B754_zero false) by reflexivity; rewrite I; cbn [fx fy fz].
  assert (G : forall a : f32, fin a -> fin (fmul a (B754_zero false)) /\ val (fmul a (B754_zero false)) = 0).
  { intros [s' | s' | | s' m' e' H'] F; try discriminate; split; reflexivity. }
  destruct (G _ FX) as [G1 G2]; destruct (G _ FY) as [G3 G4]; destruct (G _ FZ) as [G5 G6]; repeat split; assumption.
Qed.
Print Assumptions float_normalize_long_refuted.
Example float_normalize_long_ex : let v := mk_fvec (fnum 1 64) (of_Z 1) (of_Z 0) in vfin v /\ B2SF (fx (f_normalize v)) = SpecFloat.S754_zero false.
Proof. cbv zeta; split; [repeat split; vm_compute; reflexivity | vm_compute; reflexivity]. Qed.
