(* The mean of a pixel in single precision: how far from the exact weighted mean, in any order. *)
From Coq Require Import ZArith Reals List Lra Lia Permutation.
From Flocq Require Import Core.Core IEEE754.BinarySingleNaN.
From Verif Require Import Common FltModel FltFacts FltProps FltSumProps FExtFacts FRayModel FSphereProps FBoxMarginProps FMatModel FMatProps FMatBoundProps.
Import ListNotations.
Local Open Scope R_scope.

(* ----- specification ----- *)

Definition channel (k : nat) (c : fcolor) : f32 := match k with 0%nat => c_r c | 1%nat => c_g c | _ => c_b c end.
Definition held (k : nat) (p : fpixel) : f32 := match k with 0%nat => p_x p | 1%nat => p_y p | _ => p_z p end.
Definition empty_pixel : fpixel := mk_fpixel fzero fzero fzero fzero.

(* the exact sums of the weighted channels, negative ones counted as 0, and of the weights *)
Fixpoint light_sum (k : nat) (l : list (fcolor * f32)) : R :=
  match l with [] => 0 | (c, w) :: l => Rmax 0 (val (channel k c)) * val w + light_sum k l end.
Fixpoint weight_sum (l : list (fcolor * f32)) : R :=
  match l with [] => 0 | (_, w) :: l => val w + weight_sum l end.

(* colours of numbers up to 2^40, weights from 0 to 2^40 *)
Definition usual (s : fcolor * f32) : Prop :=
  let (c, w) := s in (forall k, fin (channel k c) /\ Rabs (val (channel k c)) <= bpow radix2 40) /\ fin w /\ 0 <= val w <= bpow radix2 40.

(* image_film.cpp:160-163: the mean that save_image computes, before the conversion *)
Definition film_mean (k : nat) (p : fpixel) : f32 := fmul (held k p) (fdiv fone (p_n p)).

(* ----- sums ----- *)

Lemma nonneg_val : forall x, fin x -> fin (f_nonneg x) /\ val (f_nonneg x) = Rmax 0 (val x).
Proof.
  intros x F. unfold f_nonneg. destruct fzero_val as (F0 & V0). destruct (flt x fzero) eqn:E.
  - apply (flt_val _ _ F F0) in E. rewrite V0 in E. split; [exact F0|]. rewrite V0, Rmax_left; lra.
  - assert (~ val x < val fzero) by (rewrite <- (flt_val _ _ F F0); congruence). rewrite V0 in H.
    split; [exact F|]. rewrite Rmax_right; lra.
Qed.

Definition slack (n : R) : R := 2 * (n + 1) * u24.

Lemma step_error : forall n s s' p p' r h, 0 <= n <= 65536 -> 0 < h -> 0 <= s -> 0 <= p ->
  Rabs (s' - s) <= slack n * s + 4 * n * h -> Rabs (p' - p) <= u24 * p + h -> Rabs (r - (s' + p')) <= u24 * Rabs (s' + p') + h ->
  Rabs (r - (p + s)) <= slack (n + 1) * (p + s) + 4 * (n + 1) * h.
Proof.
  intros n s s' p p' r h (N0 & N) H S P A B C. apply abs_both in A, B.
  unfold slack, u24 in *. set (e := 2 * (n + 1) * / 16777216) in *.
  assert (E : 0 <= e <= / 100) by (unfold e; lra).
  assert (ES : 0 <= e * s <= / 100 * s) by (split; [apply Rmult_le_pos|apply Rmult_le_compat_r]; lra).
  assert (EP : / 8388608 * p <= e * p) by (apply Rmult_le_compat_r; [lra|unfold e; lra]).
  assert (NH : 0 <= n * h <= 65536 * h) by (split; [apply Rmult_le_pos|apply Rmult_le_compat_r]; lra).
  replace (2 * (n + 1 + 1) * / 16777216) with (e + / 8388608) by (unfold e; lra).
  clearbody e.
  assert (Q : Rabs (s' + p') <= s + p + e * s + 4 * n * h + / 16777216 * p + h) by (apply Rabs_le; lra).
  apply abs_both in C.
  replace ((e + / 8388608) * (p + s)) with (e * p + e * s + / 8388608 * (p + s)) by ring.
  replace (4 * (n + 1) * h) with (4 * (n * h) + 4 * h) by ring. replace (4 * n * h) with (4 * (n * h)) in * by ring.
  set (es := e * s) in *. set (ep := e * p) in *. set (nh := n * h) in *. clearbody es ep nh. set (q := Rabs (s' + p')) in *. clearbody q.
  apply Rabs_le. lra.
Qed.

Lemma bound_40 : forall a b, 0 <= a <= bpow radix2 40 -> 0 <= b <= bpow radix2 40 -> 0 <= a * b <= bpow radix2 80.
Proof.
  intros a b A B. replace (bpow radix2 80) with (bpow radix2 40 * bpow radix2 40) by (rewrite <- bpow_plus; reflexivity).
  split; [apply Rmult_le_pos; lra|apply Rmult_le_compat; lra].
Qed.

Lemma usual_bound : forall k s, usual s -> let (c, w) := s in
  0 <= Rmax 0 (val (channel k c)) <= bpow radix2 40.
Proof.
  intros k [c w] (C & _). destruct (C k) as (_ & B). apply abs_both in B. pose proof (bpow_ge_0 radix2 40).
  split; [apply Rmax_l|apply Rmax_lub; lra].
Qed.

Lemma sums_bound : forall k l, Forall usual l -> 0 <= light_sum k l <= INR (length l) * bpow radix2 80 /\
  0 <= weight_sum l <= INR (length l) * bpow radix2 40.
Proof.
  induction l as [|[c w] l IH]; intro U; cbn [light_sum weight_sum length]; [cbn [INR]; lra|].
  inversion U as [|? ? U1 U2]; subst. specialize (IH U2). rewrite S_INR. pose proof (usual_bound k _ U1) as B. cbn beta iota in B.
  destruct U1 as (_ & _ & W). pose proof (bound_40 _ _ B W). lra.
Qed.

Lemma light_app : forall k l m, light_sum k (l ++ m) = light_sum k l + light_sum k m.
Proof. induction l as [|[c w] l IH]; intros; cbn [light_sum app]; [lra|rewrite IH; lra]. Qed.
Lemma weight_app : forall l m, weight_sum (l ++ m) = weight_sum l + weight_sum m.
Proof. induction l as [|[c w] l IH]; intros; cbn [weight_sum app]; [lra|rewrite IH; lra]. Qed.

(* a sum of at most 2^16 terms stays far from overflow *)
Lemma room : forall n s s', 0 <= n <= 65536 -> 0 <= s <= n * bpow radix2 80 -> Rabs (s' - s) <= slack n * s + 4 * n * h150 ->
  Rabs s' <= bpow radix2 100.
Proof.
  intros n s s' (N0 & N) (S0 & S) A. apply abs_both in A. unfold slack, u24 in A.
  assert (B : bpow radix2 100 = 16 * 65536 * bpow radix2 80).
  { change 16 with (bpow radix2 4). change 65536 with (bpow radix2 16). rewrite <- !bpow_plus. reflexivity. }
  assert (H : 0 < h150 <= 1).
  { split; [apply bpow_gt_0|]. change 1 with (bpow radix2 0). apply bpow_le; lia. }
  assert (ONE : 1 <= bpow radix2 80) by (change 1 with (bpow radix2 0); apply bpow_le; lia).
  assert (E : 0 <= 2 * (n + 1) * / 16777216 * s <= s).
  { split; [apply Rmult_le_pos; lra|]. rewrite <- (Rmult_1_l s) at 2. apply Rmult_le_compat_r; lra. }
  assert (NB : n * bpow radix2 80 <= 65536 * bpow radix2 80) by (apply Rmult_le_compat_r; lra).
  assert (NH : 0 <= n * h150 <= 65536) by (split; [apply Rmult_le_pos; lra|]; replace 65536 with (65536 * 1) by ring; apply Rmult_le_compat; lra).
  apply Rabs_le. set (e := 2 * (n + 1) * / 16777216 * s) in *. clearbody e. rewrite B.
  replace (4 * n * h150) with (4 * (n * h150)) in A by ring. set (nh := n * h150) in *. clearbody nh.
  set (b := bpow radix2 80) in *. clearbody b. lra.
Qed.

Lemma small_127 : forall x e, (e <= 127)%Z -> Rabs x <= bpow radix2 e -> Rabs x <= bpow radix2 127.
Proof. intros x e E H. eapply Rle_trans; [exact H|apply bpow_le; exact E]. Qed.

Lemma add_step : forall n s (s' p' : f32) p, 0 <= n <= 65535 -> fin s' -> fin p' -> 0 <= s <= n * bpow radix2 80 -> 0 <= p <= bpow radix2 80 ->
  Rabs (val s' - s) <= slack n * s + 4 * n * h150 -> Rabs (val p' - p) <= u24 * p + h150 ->
  fin (fadd s' p') /\ Rabs (val (fadd s' p') - (p + s)) <= slack (n + 1) * (p + s) + 4 * (n + 1) * h150.
Proof.
  intros n s s' p' p N FS FP S P A B.
  assert (RS : Rabs (val s') <= bpow radix2 100) by (apply (room n s); [lra|exact S|exact A]).
  assert (H : 0 < h150 <= 1) by (split; [apply bpow_gt_0|change 1 with (bpow radix2 0); apply bpow_le; lia]).
  assert (ONE : 1 <= bpow radix2 80) by (change 1 with (bpow radix2 0); apply bpow_le; lia).
  assert (RP : Rabs (val p') <= bpow radix2 100).
  { apply abs_both in B. unfold u24 in B. eapply Rle_trans with (4 * bpow radix2 80); [apply Rabs_le; lra|].
    change 4 with (bpow radix2 2). rewrite <- bpow_plus. apply bpow_le; lia. }
  destruct (fadd_val s' p' FS FP) as (F & V).
  { apply (small_127 _ 101); [lia|]. apply (sum_bound _ _ 100); assumption. }
  split; [exact F|]. rewrite V. apply (step_error n s (val s') p (val p')); try assumption; try lra. apply rerr.
Qed.

Lemma accumulate_error : forall k l m p, Forall usual l -> Forall usual m -> (Z.of_nat (length l + length m) <= 65536)%Z ->
  fin (held k p) -> fin (p_n p) ->
  Rabs (val (held k p) - light_sum k l) <= slack (INR (length l)) * light_sum k l + 4 * INR (length l) * h150 ->
  Rabs (val (p_n p) - weight_sum l) <= slack (INR (length l)) * weight_sum l + 4 * INR (length l) * h150 ->
  let q := fold_left f_accumulate m p in
  let n := INR (length l + length m) in
  fin (held k q) /\ fin (p_n q) /\
  Rabs (val (held k q) - light_sum k (l ++ m)) <= slack n * light_sum k (l ++ m) + 4 * n * h150 /\
  Rabs (val (p_n q) - weight_sum (l ++ m)) <= slack n * weight_sum (l ++ m) + 4 * n * h150.
Proof.
  intros k l m; revert l; induction m as [|[c w] m IH]; intros l p UL UM LEN FH FN EH EN.
  - cbv zeta. cbn [fold_left length]. rewrite app_nil_r, Nat.add_0_r. auto.
  - inversion UM as [|? ? U1 U2]; subst. pose proof (usual_bound k _ U1) as B. cbn beta iota in B.
    destruct (sums_bound k l UL) as (SL & SW).
    assert (N : 0 <= INR (length l) <= 65535).
    { split; [apply pos_INR|]. rewrite INR_IZR_INZ. apply IZR_le. cbn [length] in LEN. lia. }
    destruct U1 as (C & FW & W). destruct (C k) as (FC & _). destruct (nonneg_val _ FC) as (FC' & VC).
    pose proof (bound_40 _ _ B W) as PR.
    destruct (fmul_val (f_nonneg (channel k c)) w FC' FW) as (FP & VP).
    { apply (small_127 _ 80); [lia|]. rewrite VC, Rabs_pos_eq; lra. }
    rewrite VC in VP.
    assert (EP : Rabs (val (fmul (f_nonneg (channel k c)) w) - Rmax 0 (val (channel k c)) * val w) <=
      u24 * (Rmax 0 (val (channel k c)) * val w) + h150).
    { rewrite VP. pose proof (rerr (Rmax 0 (val (channel k c)) * val w)) as E. rewrite (Rabs_pos_eq (Rmax 0 (val (channel k c)) * val w)) in E; lra. }
    destruct (add_step _ _ _ _ _ N FH FP SL PR EH EP) as (F1 & E1).
    assert (H80 : bpow radix2 40 <= bpow radix2 80) by (apply bpow_le; lia).
    assert (H : 0 < h150) by apply bpow_gt_0.
    destruct (add_step (INR (length l)) (weight_sum l) (p_n p) w (val w) N FN FW) as (F2 & E2).
    { split; [apply SW|]. eapply Rle_trans; [apply SW|]. apply Rmult_le_compat_l; lra. }
    { lra. } { exact EN. } { rewrite Rminus_diag_eq, Rabs_R0 by reflexivity. unfold u24. lra. }
    specialize (IH (l ++ [(c, w)]) (f_accumulate p (c, w))).
    cbv zeta in *. cbn [fold_left].
    replace ((l ++ [(c, w)]) ++ m) with (l ++ (c, w) :: m) in IH by (rewrite <- app_assoc; reflexivity).
    replace (length (l ++ [(c, w)])) with (length l + 1)%nat in IH by (rewrite app_length; reflexivity).
    replace (length l + 1 + length m)%nat with (length l + length ((c, w) :: m))%nat in IH by (cbn [length]; lia).
    assert (NEXT : INR (length l + 1) = INR (length l) + 1) by (rewrite plus_INR; reflexivity).
    rewrite NEXT in IH.
    assert (HELD : held k (f_accumulate p (c, w)) = fadd (held k p) (fmul (f_nonneg (channel k c)) w)) by (destruct k as [|[|k]]; reflexivity).
    assert (WN : p_n (f_accumulate p (c, w)) = fadd (p_n p) w) by reflexivity.
    rewrite HELD, WN in IH.
    replace (light_sum k (l ++ [(c, w)])) with (Rmax 0 (val (channel k c)) * val w + light_sum k l) in IH
      by (rewrite light_app; cbn [light_sum]; ring).
    replace (weight_sum (l ++ [(c, w)])) with (val w + weight_sum l) in IH by (rewrite weight_app; cbn [weight_sum]; ring).
    apply IH; try assumption.
    apply Forall_app; split; [exact UL|]. constructor; [|constructor]. cbn. auto.
Qed.

(* ----- the mean ----- *)

Lemma recip_error : forall b w w' i, 0 <= b <= / 100 -> 0 < w -> Rabs (w' - w) <= b * w -> Rabs (i - / w') <= 2 * u24 * / w' ->
  0 < w' /\ Rabs (i * w - 1) <= 102 / 100 * (b + 2 * u24).
Proof.
  intros b w w' i B W E I. apply abs_both in E. assert (BW : b * w <= / 100 * w) by (apply Rmult_le_compat_r; lra).
  assert (P : 0 < w') by lra. split; [exact P|].
  assert (Y : 0 < w * / w' <= 102 / 100).
  { assert (0 < / w') by (apply Rinv_0_lt_compat; exact P). split; [apply Rmult_lt_0_compat; lra|].
    apply (Rmult_le_reg_r w'); [exact P|]. rewrite Rmult_assoc, Rinv_l by lra. lra. }
  assert (Y1 : Rabs (w * / w' - 1) <= b * (w * / w')).
  { replace (w * / w' - 1) with (- (w' - w) * / w') by (field; lra).
    rewrite Rabs_mult, Rabs_Ropp, (Rabs_pos_eq (/ w')) by (apply Rlt_le, Rinv_0_lt_compat; exact P).
    rewrite <- Rmult_assoc. apply Rmult_le_compat_r; [apply Rlt_le, Rinv_0_lt_compat; exact P|apply Rabs_le; exact E]. }
  assert (Y2 : Rabs ((i - / w') * w) <= 2 * u24 * (w * / w')).
  { rewrite Rabs_mult, (Rabs_pos_eq w) by lra. replace (2 * u24 * (w * / w')) with (2 * u24 * / w' * w) by ring.
    apply Rmult_le_compat_r; [lra|exact I]. }
  replace (i * w - 1) with ((i - / w') * w + (w * / w' - 1)) by ring.
  eapply Rle_trans; [apply Rabs_triang|]. unfold u24 in *.
  assert (b * (w * / w') <= b * (102 / 100)) by (apply Rmult_le_compat_l; lra). lra.
Qed.

Lemma mean_error : forall a m e x r h1 h2, 0 <= a <= / 100 -> 0 <= m -> 0 < h1 -> 0 < h2 -> Rabs e <= a * m + h1 ->
  Rabs (x - 1) <= 102 / 100 * (a + 3 * u24) -> Rabs (r - (m + e) * x) <= u24 * Rabs ((m + e) * x) + h2 ->
  Rabs (r - m) <= 4 * (a + 2 * u24) * m + 2 * h1 + h2.
Proof.
  intros a m e x r h1 h2 A M H1 H2 E X Q. unfold u24 in *. apply abs_both in X.
  assert (AM : 0 <= a * m <= / 100 * m) by (split; [apply Rmult_le_pos|apply Rmult_le_compat_r]; lra).
  assert (EX : Rabs (e * x) <= 104 / 100 * (a * m + h1)).
  { rewrite Rabs_mult, Rmult_comm. apply Rmult_le_compat; try apply Rabs_pos; [|exact E]. apply Rabs_le. lra. }
  assert (MX : Rabs (m * (x - 1)) <= 102 / 100 * (a + 3 * / 16777216) * m).
  { rewrite Rabs_mult, (Rabs_pos_eq m M), Rmult_comm. apply Rmult_le_compat_r; [exact M|]. apply Rabs_le; lra. }
  replace ((m + e) * x) with (m + (e * x + m * (x - 1))) in Q by ring.
  apply abs_both in EX, MX. set (p := e * x) in *. set (q := m * (x - 1)) in *. clearbody p q.
  replace (102 / 100 * (a + 3 * / 16777216) * m) with (102 / 100 * (a * m) + 306 / 100 * / 16777216 * m) in MX by lra.
  replace (4 * (a + 2 * / 16777216) * m) with (4 * (a * m) + 8 * / 16777216 * m) by ring.
  set (am := a * m) in *. clearbody am. clear X E.
  assert (T : Rabs (m + (p + q)) <= m + 104 / 100 * (am + h1) + 102 / 100 * am + 306 / 100 * / 16777216 * m) by (apply Rabs_le; lra).
  apply abs_both in Q. set (t := Rabs (m + (p + q))) in *. clearbody t. apply Rabs_le. lra.
Qed.

Lemma sum_error : forall k l, Forall usual l -> (Z.of_nat (length l) <= 65536)%Z ->
  let q := fold_left f_accumulate l empty_pixel in
  let n := INR (length l) in
  fin (held k q) /\ fin (p_n q) /\
  Rabs (val (held k q) - light_sum k l) <= slack n * light_sum k l + 4 * n * h150 /\
  Rabs (val (p_n q) - weight_sum l) <= slack n * weight_sum l + 4 * n * h150.
Proof.
  intros k l U L. destruct fzero_val as (F0 & V0).
  assert (Z : Rabs (val fzero - 0) <= slack (INR 0) * 0 + 4 * INR 0 * h150) by (rewrite V0, Rminus_0_r, Rabs_R0; cbn [INR]; lra).
  assert (HELD : held k empty_pixel = fzero) by (destruct k as [|[|k]]; reflexivity).
  pose proof (accumulate_error k [] l empty_pixel (Forall_nil _) U) as A. rewrite HELD in A. cbn [length light_sum weight_sum app Nat.add] in A.
  apply A; try assumption.
Qed.

(* the mean of the saved pixel is within a relative 2^-21 for each sample of the exact weighted mean *)
Theorem float_film_mean : forall k l, Forall usual l -> (Z.of_nat (length l) <= 65536)%Z -> bpow radix2 (-20) <= weight_sum l ->
  let mean := film_mean k (fold_left f_accumulate l empty_pixel) in
  let exact := light_sum k l / weight_sum l in
  fin mean /\ Rabs (val mean - exact) <= (INR (length l) + 2) * bpow radix2 (-21) * exact + bpow radix2 (-80).
Proof.
  intros k l U L W mean exact.
  destruct (sum_error k l U L) as (FH & FN & EH & EN). destruct (sums_bound k l U) as (SL & SW).
  unfold mean, film_mean. set (q := fold_left f_accumulate l empty_pixel) in *. clearbody q. clear mean.
  set (n := INR (length l)) in *. set (s := light_sum k l) in *. set (w := weight_sum l) in *.
  assert (N : 0 <= n <= 65536).
  { split; [apply pos_INR|]. unfold n. rewrite INR_IZR_INZ. apply IZR_le. lia. }
  clearbody n s w. clear U.
  assert (A : 0 <= slack n <= / 100) by (unfold slack, u24; lra).
  assert (WP : 0 < w) by (pose proof (bpow_gt_0 radix2 (-20)); lra).
  assert (H : 0 < h150) by apply bpow_gt_0.
  assert (H1 : 4 * n * h150 <= bpow radix2 (-132)).
  { unfold h150. replace (bpow radix2 (-132)) with (262144 * bpow radix2 (-150)).
    - apply Rmult_le_compat_r; [apply bpow_ge_0|lra].
    - change 262144 with (bpow radix2 18). rewrite <- bpow_plus. reflexivity. }
  assert (EN' : Rabs (val (p_n q) - w) <= (slack n + u24) * w).
  { eapply Rle_trans; [exact EN|]. rewrite Rmult_plus_distr_r. apply Rplus_le_compat_l. eapply Rle_trans; [exact H1|].
    eapply Rle_trans with (u24 * bpow radix2 (-20)); [|unfold u24; apply Rmult_le_compat_l; lra].
    rewrite <- u24_bpow, <- bpow_plus. apply bpow_le. lia. }
  assert (B : 0 <= slack n + u24 <= / 100) by (unfold slack, u24; lra).
  (* the reciprocal *)
  pose proof (abs_both _ _ EN') as NV.
  assert (BW : (slack n + u24) * w <= / 100 * w) by (apply Rmult_le_compat_r; lra).
  assert (NP : 0 < val (p_n q)) by lra.
  assert (NU : val (p_n q) <= bpow radix2 57).
  { assert (w <= bpow radix2 56).
    { eapply Rle_trans; [apply SW|]. replace (bpow radix2 56) with (65536 * bpow radix2 40).
      - apply Rmult_le_compat_r; [apply bpow_ge_0|lra].
      - change 65536 with (bpow radix2 16). rewrite <- bpow_plus. reflexivity. }
    pose proof (double_bpow 56) as D. change (56 + 1)%Z with 57%Z in D. pose proof (bpow_gt_0 radix2 56). lra. }
  assert (NL : bpow radix2 (-21) <= val (p_n q)).
  { pose proof (double_bpow (-21)) as D. change (-21 + 1)%Z with (-20)%Z in D. pose proof (bpow_gt_0 radix2 (-21)). lra. }
  assert (IB : bpow radix2 (-57) <= / val (p_n q) <= bpow radix2 21).
  { split.
    - change (-57)%Z with (- (57))%Z. rewrite bpow_opp. apply Rinv_le; [exact NP|exact NU].
    - change 21%Z with (- - 21)%Z. rewrite bpow_opp. apply Rinv_le; [apply bpow_gt_0|exact NL]. }
  destruct fone_val as (F1 & V1).
  assert (IP : Rabs (val fone / val (p_n q)) <= bpow radix2 21).
  { rewrite V1. unfold Rdiv. rewrite Rmult_1_l, Rabs_pos_eq by (apply Rlt_le, Rinv_0_lt_compat; exact NP). apply IB. }
  destruct (fdiv_val fone (p_n q) F1) as (FI & VI); [lra|apply (small_127 _ 21); [lia|exact IP]|].
  rewrite V1 in VI. unfold Rdiv in VI. rewrite Rmult_1_l in VI.
  assert (EI : Rabs (val (fdiv fone (p_n q)) - / val (p_n q)) <= 2 * u24 * / val (p_n q)).
  { rewrite VI. eapply Rle_trans; [apply rerr|]. rewrite Rabs_pos_eq by (apply Rlt_le, Rinv_0_lt_compat; exact NP).
    assert (h150 <= u24 * / val (p_n q)); [|lra].
    eapply Rle_trans with (u24 * bpow radix2 (-57)); [|unfold u24; apply Rmult_le_compat_l; [lra|apply IB]].
    unfold h150. rewrite <- u24_bpow, <- bpow_plus. apply bpow_le. lia. }
  destruct (recip_error _ _ _ _ B WP EN' EI) as (_ & X).
  (* the product *)
  assert (RS : Rabs (val (held k q)) <= bpow radix2 80 * 131072).
  { apply abs_both in EH. assert (slack n * s <= / 100 * s) by (apply Rmult_le_compat_r; lra).
    assert (n * bpow radix2 80 <= 65536 * bpow radix2 80) by (apply Rmult_le_compat_r; [apply bpow_ge_0|lra]).
    assert (bpow radix2 (-132) <= bpow radix2 80) by (apply bpow_le; lia).
    apply Rabs_le. lra. }
  assert (RI : Rabs (val (fdiv fone (p_n q))) <= bpow radix2 21).
  { rewrite VI. apply rnd_abs; [lia|]. rewrite Rabs_pos_eq by (apply Rlt_le, Rinv_0_lt_compat; exact NP). apply IB. }
  destruct (fmul_val (held k q) (fdiv fone (p_n q)) FH FI) as (FM & VM).
  { rewrite Rabs_mult. eapply Rle_trans; [apply Rmult_le_compat; [apply Rabs_pos|apply Rabs_pos|exact RS|exact RI]|].
    change 131072 with (bpow radix2 17). rewrite <- !bpow_plus. apply bpow_le. lia. }
  split; [exact FM|].
  set (i := val (fdiv fone (p_n q))) in *. clearbody i. set (s' := val (held k q)) in *. clearbody s'.
  pose proof (mean_error (slack n) exact ((s' - s) / w) (i * w) (val (fmul (held k q) (fdiv fone (p_n q))))
    (bpow radix2 (-112)) h150 A) as ME.
  assert (M0 : 0 <= exact) by (unfold exact, Rdiv; apply Rmult_le_pos; [lra|apply Rlt_le, Rinv_0_lt_compat; exact WP]).
  assert (FIN : Rabs (val (fmul (held k q) (fdiv fone (p_n q))) - exact) <= 4 * (slack n + 2 * u24) * exact + 2 * bpow radix2 (-112) + h150).
  { apply ME; [exact M0|apply bpow_gt_0|exact H| |eapply Rle_trans; [exact X|unfold u24; lra]|].
    - unfold Rdiv. rewrite Rabs_mult, (Rabs_pos_eq (/ w)) by (apply Rlt_le, Rinv_0_lt_compat; exact WP).
      eapply Rle_trans; [apply Rmult_le_compat_r; [apply Rlt_le, Rinv_0_lt_compat; exact WP|exact EH]|].
      unfold exact, Rdiv. rewrite Rmult_plus_distr_r, Rmult_assoc. apply Rplus_le_compat_l.
      replace (bpow radix2 (-112)) with (bpow radix2 (-132) * bpow radix2 20) by (rewrite <- bpow_plus; reflexivity).
      apply Rmult_le_compat; [apply Rmult_le_pos; lra|apply Rlt_le, Rinv_0_lt_compat; exact WP|exact H1|].
      change 20%Z with (- - 20)%Z. rewrite bpow_opp. apply Rinv_le; [apply bpow_gt_0|exact W].
    - replace ((exact + (s' - s) / w) * (i * w)) with (s' * i) by (unfold exact; field; lra). rewrite VM. apply rerr. }
  eapply Rle_trans; [exact FIN|].
  assert (T1 : 2 * bpow radix2 (-112) + h150 <= bpow radix2 (-80)).
  { pose proof (double_bpow (-112)) as D. change (-112 + 1)%Z with (-111)%Z in D. pose proof (double_bpow (-111)) as D'. change (-111 + 1)%Z with (-110)%Z in D'.
    assert (h150 <= bpow radix2 (-111)) by (apply bpow_le; lia). assert (bpow radix2 (-110) <= bpow radix2 (-80)) by (apply bpow_le; lia). lra. }
  assert (T2 : 4 * (slack n + 2 * u24) * exact <= (n + 2) * bpow radix2 (-21) * exact).
  { apply Rmult_le_compat_r; [exact M0|]. replace (bpow radix2 (-21)) with (/ 2097152) by reflexivity. unfold slack, u24. lra. }
  lra.
Qed.
Print Assumptions float_film_mean.

Lemma light_permutation : forall k l m, Permutation l m -> light_sum k l = light_sum k m.
Proof.
  intros k l m P. induction P as [| [c w] l m P IH | [c w] [c' w'] l | l m o P1 IH1 P2 IH2]; cbn [light_sum]; lra.
Qed.
Lemma weight_permutation : forall l m, Permutation l m -> weight_sum l = weight_sum m.
Proof.
  intros l m P. induction P as [| [c w] l m P IH | [c w] [c' w'] l | l m o P1 IH1 P2 IH2]; cbn [weight_sum]; lra.
Qed.

(* two runs that add the same samples in different orders agree up to rounding *)
Theorem float_film_order : forall k l m, Permutation l m -> Forall usual l -> (Z.of_nat (length l) <= 65536)%Z -> bpow radix2 (-20) <= weight_sum l ->
  let a := film_mean k (fold_left f_accumulate l empty_pixel) in
  let b := film_mean k (fold_left f_accumulate m empty_pixel) in
  fin a /\ fin b /\
  Rabs (val a - val b) <= (INR (length l) + 2) * bpow radix2 (-20) * (light_sum k l / weight_sum l) + bpow radix2 (-79).
Proof.
  intros k l m P U L W a b.
  assert (UM : Forall usual m) by (apply Forall_forall; intros x IN; rewrite Forall_forall in U; apply U, (Permutation_in _ (Permutation_sym P) IN)).
  destruct (float_film_mean k l U L W) as (FA & EA).
  destruct (float_film_mean k m UM) as (FB & EB); [rewrite <- (Permutation_length P); exact L|rewrite <- (weight_permutation _ _ P); exact W|].
  rewrite <- (light_permutation k _ _ P), <- (weight_permutation _ _ P), <- (Permutation_length P) in EB.
  fold a in FA, EA. fold b in FB, EB. split; [exact FA|]. split; [exact FB|].
  set (mid := light_sum k l / weight_sum l) in *. clearbody mid. set (n := INR (length l)) in *. clearbody n.
  apply abs_both in EA, EB. apply Rabs_le.
  replace (bpow radix2 (-20)) with (bpow radix2 (-21) + bpow radix2 (-21)) by (rewrite <- double_bpow; reflexivity).
  replace (bpow radix2 (-79)) with (bpow radix2 (-80) + bpow radix2 (-80)) by (rewrite <- double_bpow; reflexivity).
  replace ((n + 2) * (bpow radix2 (-21) + bpow radix2 (-21)) * mid) with ((n + 2) * bpow radix2 (-21) * mid + (n + 2) * bpow radix2 (-21) * mid) by ring.
  set (e := (n + 2) * bpow radix2 (-21) * mid) in *. set (h := bpow radix2 (-80)) in *. clearbody e h. lra.
Qed.
Print Assumptions float_film_order.

(* these are the means that save_image converts *)
Lemma save_means : forall power cut slope m0 m1 m2 p, fgt (p_n p) fzero = true ->
  f_save power cut slope (m0, m1, m2) p =
    (let out m := f_byte (f_transfer power cut slope (f_row m (film_mean 0 p) (film_mean 1 p) (film_mean 2 p))) in
     let! r := out m0 in let! g := out m1 in let! b := out m2 in Ok (r, g, b)).
Proof. intros power cut slope m0 m1 m2 p E. unfold f_save. rewrite E. reflexivity. Qed.

(* ----- cases ----- *)

Definition grey (x : f32) : fcolor * f32 := (mk_fcolor x x x, fone).
Definition bright_first : list (fcolor * f32) := [grey fone; grey (fnum 1 (-24)); grey (fnum 1 (-24))].
Definition bright_last : list (fcolor * f32) := [grey (fnum 1 (-24)); grey (fnum 1 (-24)); grey fone].

Lemma grey_usual : forall x, fin x -> Rabs (val x) <= 1 -> usual (grey x).
Proof.
  intros x F B. destruct fone_val as (F1 & V1). assert (1 <= bpow radix2 40) by (change 1 with (bpow radix2 0); apply bpow_le; lia).
  cbn [usual grey]. split; [|rewrite V1; split; [exact F1|lra]].
  intro k. destruct k as [|[|k]]; cbn [channel c_r c_g c_b]; split; try exact F; lra.
Qed.

Lemma tiny_val : fin (fnum 1 (-24)) /\ Rabs (val (fnum 1 (-24))) <= 1.
Proof.
  assert (B : Rabs (IZR 1 * bpow radix2 (-24)) <= 1).
  { rewrite Rmult_1_l, Rabs_pos_eq by apply bpow_ge_0. change 1 with (bpow radix2 0). apply bpow_le; lia. }
  destruct (fnum_val 1 (-24)) as (F & V).
  { eapply Rle_trans; [exact B|]. change 1 with (bpow radix2 0). apply bpow_le; lia. }
  split; [exact F|]. rewrite V. apply (rnd_abs _ 0); [lia|exact B].
Qed.

Example float_film_mean_case : Forall usual bright_first /\ (Z.of_nat (length bright_first) <= 65536)%Z /\
  bpow radix2 (-20) <= weight_sum bright_first /\ 1 <= light_sum 0 bright_first.
Proof.
  destruct fone_val as (F1 & V1), tiny_val as (FT & VT).
  split; [|split; [cbn; lia|split]].
  - unfold bright_first. assert (G : usual (grey fone)) by (apply grey_usual; [exact F1|rewrite V1, Rabs_R1; lra]).
    pose proof (grey_usual _ FT VT) as G'. exact (Forall_cons _ G (Forall_cons _ G' (Forall_cons _ G' (Forall_nil _)))).
  - cbn [weight_sum bright_first grey]. rewrite V1. assert (bpow radix2 (-20) <= 1) by (change 1 with (bpow radix2 0); apply bpow_le; lia). lra.
  - cbn [light_sum bright_first grey channel c_r]. rewrite V1, !Rmult_1_r, (Rmax_right 0 1) by lra.
    pose proof (Rmax_l 0 (val (fnum 1 (-24)))). lra.
Qed.

(* the order does matter in the last place: the picture is not the same to the bit *)
Theorem float_film_order_refuted : exists l m, Permutation l m /\ Forall usual l /\ bpow radix2 (-20) <= weight_sum l /\
  forall k, val (film_mean k (fold_left f_accumulate l empty_pixel)) <> val (film_mean k (fold_left f_accumulate m empty_pixel)).
Proof.
  exists bright_first, bright_last. destruct float_film_mean_case as (U & _ & W & _).
  split; [|split; [exact U|split; [exact W|]]].
  - unfold bright_first, bright_last. change [grey (fnum 1 (-24)); grey (fnum 1 (-24)); grey fone] with ([grey (fnum 1 (-24)); grey (fnum 1 (-24))] ++ [grey fone]).
    apply (Permutation_cons_app [grey (fnum 1 (-24)); grey (fnum 1 (-24))] []). apply Permutation_refl.
  - assert (E : forall k, held k (fold_left f_accumulate bright_first empty_pixel) = p_x (fold_left f_accumulate bright_first empty_pixel) /\
      held k (fold_left f_accumulate bright_last empty_pixel) = p_x (fold_left f_accumulate bright_last empty_pixel))
      by (intros [|[|k]]; split; reflexivity).
    intro k. destruct (E k) as (E1 & E2). unfold film_mean. rewrite E1, E2. clear.
    set (a := fmul _ _). set (b := fmul _ _).
    assert (FA : fin a) by (vm_compute; reflexivity). assert (FB : fin b) by (vm_compute; reflexivity).
    assert (L : flt a b = true) by (vm_compute; reflexivity).
    apply (flt_val _ _ FA FB) in L. apply Rlt_not_eq. exact L.
Qed.
Print Assumptions float_film_order_refuted.
