From Verif Require Import Common ConfigModel.
Local Open Scope Z_scope.

Lemma rne_bounds : forall n d, 0 < d -> - d <= 2 * (rne n d * d - n) <= d.
Proof.
  intros n d Hd. unfold rne. assert (E := Z.div_mod n d ltac:(lia)).
  assert (B := Z.mod_pos_bound n d Hd).
  destruct (Z.ltb_spec d (2 * (n mod d))); cbn [orb].
  - nia.
  - destruct (Z.eqb_spec d (2 * (n mod d))); cbn [andb]; [destruct (Z.odd (n / d)) |]; nia.
Qed.

(* an integer bound on the quotient survives rounding *)
Lemma rne_mono_l : forall n d a, 0 < d -> a * d <= n -> a <= rne n d.
Proof. intros n d a Hd H. assert (B := rne_bounds n d Hd). nia. Qed.
Lemma rne_mono_r : forall n d a, 0 < d -> n <= a * d -> rne n d <= a.
Proof. intros n d a Hd H. assert (B := rne_bounds n d Hd). nia. Qed.

Lemma pow2_pos : forall e, 0 <= e -> 0 < 2 ^ e.
Proof. intros e H. apply Z.pow_pos_nonneg; lia. Qed.

(* ---- conversion of integers ---- *)

Lemma fl_int_small : forall n, n < 2 ^ 24 -> fl_int n = n.
Proof. intros n H. unfold fl_int. now rewrite (proj2 (Z.ltb_lt _ _) H). Qed.

Lemma fl_int_rel : forall n, 0 < n -> - n <= 2 ^ 24 * (fl_int n - n) <= n.
Proof.
  intros n Hn. unfold fl_int. destruct (Z.ltb_spec n (2 ^ 24)) as [H | H]; [lia |].
  assert (L : 24 <= Z.log2 n) by (apply Z.log2_le_pow2; lia).
  destruct (Z.log2_spec n Hn) as [L1 L2].
  set (e := Z.log2 n - 23) in *. assert (P := pow2_pos e ltac:(lia)).
  assert (Pn : 2 ^ Z.log2 n = 2 ^ 23 * 2 ^ e) by (rewrite <- Z.pow_add_r; [f_equal; lia | lia | lia]).
  assert (B := rne_bounds n (2 ^ e) P). cbn zeta. nia.
Qed.

Lemma fl_int_pos : forall n, 0 < n -> 0 < fl_int n.
Proof. intros n Hn. assert (B := fl_int_rel n Hn). lia. Qed.

(* ---- rounded fractions ---- *)

Lemma fl_frac_rel : forall n d, 0 < n -> 0 < d -> let '(a, b) := fl_frac n d in
  0 < a /\ 0 < b /\ - (n * b) <= 2 ^ 24 * (a * d - n * b) <= n * b.
Proof.
  intros n d Hn Hd. unfold fl_frac. cbn zeta.
  destruct (Z.log2_spec n Hn) as [N1 N2]. destruct (Z.log2_spec d Hd) as [D1 D2].
  assert (Ln := Z.log2_nonneg n). assert (Ld := Z.log2_nonneg d).
  set (ln := Z.log2 n) in *. set (ld := Z.log2 d) in *.
  set (e0 := ln - ld) in *.
  set (e := if d * 2 ^ Z.max e0 0 <=? n * 2 ^ Z.max (- e0) 0 then e0 else e0 - 1).
  set (k := 23 - e).
  assert (P1 := pow2_pos (Z.max k 0) ltac:(lia)). assert (P2 := pow2_pos (Z.max (- k) 0) ltac:(lia)).
  (* the quotient has 24 significant bits *)
  assert (Q : 2 ^ 23 * (d * 2 ^ Z.max (- k) 0) <= n * 2 ^ Z.max k 0).
  { assert (Hkey : d * 2 ^ Z.max e 0 <= n * 2 ^ Z.max (- e) 0).
    { unfold e. destruct (Z.leb_spec (d * 2 ^ Z.max e0 0) (n * 2 ^ Z.max (- e0) 0)) as [H | H]; [exact H |].
      rewrite Z.pow_succ_r in D2 by lia.
      (* 2^(ln-ld-1) * d <= n *)
      destruct (Z_le_gt_dec e0 0) as [He | He].
      - replace (Z.max (e0 - 1) 0) with 0 by lia. replace (Z.max (- (e0 - 1)) 0) with (1 - e0) by lia.
        rewrite Z.mul_1_r. transitivity (2 ^ ln * 2 ^ (1 - e0)).
        + rewrite <- Z.pow_add_r by lia. replace (ln + (1 - e0)) with (Z.succ ld) by lia.
          rewrite Z.pow_succ_r by lia. lia.
        + apply Z.mul_le_mono_nonneg_r; [| exact N1]. apply Z.lt_le_incl, pow2_pos. lia.
      - replace (Z.max (e0 - 1) 0) with (e0 - 1) by lia. replace (Z.max (- (e0 - 1)) 0) with 0 by lia.
        rewrite Z.mul_1_r. transitivity (2 ^ Z.succ ld * 2 ^ (e0 - 1)).
        + apply Z.mul_le_mono_nonneg_r; [apply Z.lt_le_incl, pow2_pos; lia |].
          rewrite Z.pow_succ_r by lia. lia.
        + rewrite <- Z.pow_add_r by lia. replace (Z.succ ld + (e0 - 1)) with ln by lia. exact N1. }
    clearbody e. clear - Hkey Hn Hd. subst k.
    destruct (Z_le_gt_dec e 0) as [H0 | H0]; [| destruct (Z_le_gt_dec e 23) as [H1 | H1]].
    - replace (Z.max e 0) with 0 in Hkey by lia. replace (Z.max (- e) 0) with (- e) in Hkey by lia.
      replace (Z.max (- (23 - e)) 0) with 0 by lia. replace (Z.max (23 - e) 0) with (23 + - e) by lia.
      rewrite Z.pow_add_r by lia. rewrite Z.pow_0_r in *. lia.
    - replace (Z.max e 0) with e in Hkey by lia. replace (Z.max (- e) 0) with 0 in Hkey by lia.
      replace (Z.max (- (23 - e)) 0) with 0 by lia. replace (Z.max (23 - e) 0) with (23 - e) by lia.
      rewrite Z.pow_0_r in *.
      assert (E : 2 ^ 23 = 2 ^ e * 2 ^ (23 - e)) by (rewrite <- Z.pow_add_r by lia; f_equal; lia).
      rewrite E. assert (P := pow2_pos (23 - e) ltac:(lia)). clear - Hkey P. nia.
    - replace (Z.max e 0) with e in Hkey by lia. replace (Z.max (- e) 0) with 0 in Hkey by lia.
      replace (Z.max (- (23 - e)) 0) with (e - 23) by lia. replace (Z.max (23 - e) 0) with 0 by lia.
      rewrite Z.pow_0_r in *.
      assert (E : 2 ^ e = 2 ^ 23 * 2 ^ (e - 23)) by (rewrite <- Z.pow_add_r by lia; f_equal; lia).
      rewrite E in Hkey. lia. }
  clearbody k. set (p1 := 2 ^ Z.max k 0) in *. set (p2 := 2 ^ Z.max (- k) 0) in *. clearbody p1 p2.
  assert (B := rne_bounds (n * p1) (d * p2) ltac:(nia)).
  assert (M := rne_mono_l (n * p1) (d * p2) (2 ^ 23) ltac:(nia) Q).
  set (m := rne (n * p1) (d * p2)) in *. clearbody m. clear - Q B M P1 P2.
  split; [nia |]. split; [exact P1 |].
  replace (m * p2 * d) with (m * (d * p2)) by ring. set (x := d * p2) in *. set (y := n * p1) in *.
  lia.
Qed.

(* the increment of the height *)
Lemma resolution_inc : forall w h c, 0 < w -> 0 < h -> 0 < c ->
  let '(an, ad) := fl_frac (fl_int w) (fl_int h) in
  let '(n, d) := fl_frac (c * ad) an in
  0 <= n / d /\ (n / d) * w * 2 ^ 21 <= c * h * (2 ^ 21 + 1) /\
  c * h * (2 ^ 21 - 1) <= (n / d + 1) * w * 2 ^ 21.
Proof.
  intros w h c Hw Hh Hc.
  assert (Bw := fl_int_rel w Hw). assert (Pw := fl_int_pos w Hw).
  assert (Bh := fl_int_rel h Hh). assert (Ph := fl_int_pos h Hh).
  assert (F1 := fl_frac_rel (fl_int w) (fl_int h) Pw Ph).
  destruct (fl_frac (fl_int w) (fl_int h)) as [an ad]. destruct F1 as (Pan & Pad & F1).
  assert (F2 := fl_frac_rel (c * ad) an ltac:(nia) Pan).
  destruct (fl_frac (c * ad) an) as [n d]. destruct F2 as (Pn & Pd & F2).
  set (a := fl_int w) in *. set (b := fl_int h) in *. clearbody a b.
  set (U := 2 ^ 24) in *.
  assert (HU : U = 2 ^ 24) by reflexivity. clearbody U.
  assert (U1 : 1 < U) by (rewrite HU; reflexivity).
  (* upper bound on n / d *)
  assert (S1 : n * a * (U - 1) <= c * d * b * (U + 1)).
  { apply (Z.mul_le_mono_pos_r _ _ (an * U)); [nia |].
    transitivity (c * d * (U + 1) * (ad * a * (U - 1))).
    - assert (n * an * U <= c * ad * d * (U + 1)) by lia.
      assert (0 <= a * (U - 1)) by nia.
      replace (n * a * (U - 1) * (an * U)) with (n * an * U * (a * (U - 1))) by ring.
      replace (c * d * (U + 1) * (ad * a * (U - 1))) with (c * ad * d * (U + 1) * (a * (U - 1))) by ring.
      now apply Z.mul_le_mono_nonneg_r.
    - assert (ad * a * (U - 1) <= an * b * U) by lia.
      assert (0 <= c * d * (U + 1)) by nia.
      replace (c * d * b * (U + 1) * (an * U)) with (c * d * (U + 1) * (an * b * U)) by ring.
      now apply Z.mul_le_mono_nonneg_l. }
  assert (S2 : n * w * ((U - 1) * (U - 1)) <= c * d * h * ((U + 1) * (U + 1))).
  { transitivity (n * a * (U - 1) * U).
    - replace (n * w * ((U - 1) * (U - 1))) with (n * (U - 1) * (w * (U - 1))) by ring.
      replace (n * a * (U - 1) * U) with (n * (U - 1) * (a * U)) by ring.
      apply Z.mul_le_mono_nonneg_l; [nia | lia].
    - transitivity (c * d * b * (U + 1) * U); [apply Z.mul_le_mono_nonneg_r; [lia | exact S1] |].
      replace (c * d * b * (U + 1) * U) with (c * d * (U + 1) * (b * U)) by ring.
      replace (c * d * h * ((U + 1) * (U + 1))) with (c * d * (U + 1) * (h * (U + 1))) by ring.
      apply Z.mul_le_mono_nonneg_l; [nia | lia]. }
  assert (S3 : c * d * b * (U - 1) <= n * a * (U + 1)).
  { apply (Z.mul_le_mono_pos_r _ _ (an * U)); [nia |].
    transitivity (c * d * (U - 1) * (ad * a * (U + 1))).
    - assert (an * b * U <= ad * a * (U + 1)) by lia.
      assert (0 <= c * d * (U - 1)) by nia.
      replace (c * d * b * (U - 1) * (an * U)) with (c * d * (U - 1) * (an * b * U)) by ring.
      now apply Z.mul_le_mono_nonneg_l.
    - assert (c * ad * d * (U - 1) <= n * an * U) by lia.
      assert (0 <= a * (U + 1)) by nia.
      replace (n * a * (U + 1) * (an * U)) with (n * an * U * (a * (U + 1))) by ring.
      replace (c * d * (U - 1) * (ad * a * (U + 1))) with (c * ad * d * (U - 1) * (a * (U + 1))) by ring.
      now apply Z.mul_le_mono_nonneg_r. }
  assert (S4 : c * d * h * ((U - 1) * (U - 1)) <= n * w * ((U + 1) * (U + 1))).
  { transitivity (n * a * (U + 1) * U).
    - transitivity (c * d * b * (U - 1) * U); [| apply Z.mul_le_mono_nonneg_r; [lia | exact S3]].
      replace (c * d * b * (U - 1) * U) with (c * d * (U - 1) * (b * U)) by ring.
      replace (c * d * h * ((U - 1) * (U - 1))) with (c * d * (U - 1) * (h * (U - 1))) by ring.
      apply Z.mul_le_mono_nonneg_l; [nia | lia].
    - replace (n * w * ((U + 1) * (U + 1))) with (n * (U + 1) * (w * (U + 1))) by ring.
      replace (n * a * (U + 1) * U) with (n * (U + 1) * (a * U)) by ring.
      apply Z.mul_le_mono_nonneg_l; [nia | lia]. }
  assert (E := Z.div_mod n d ltac:(lia)). assert (M := Z.mod_pos_bound n d Pd).
  set (t := n / d) in *.
  assert (T0 : 0 <= t) by (apply Z.div_pos; lia). clearbody t.
  assert (T1 : t * d <= n < (t + 1) * d) by lia. clear - HU U1 S2 S4 T0 T1 Pd Hw Hh Hc.
  assert (R1 : t * w * ((U - 1) * (U - 1)) <= c * h * ((U + 1) * (U + 1))).
  { apply (Z.mul_le_mono_pos_r _ _ d Pd).
    transitivity (n * w * ((U - 1) * (U - 1))).
    - replace (t * w * ((U - 1) * (U - 1)) * d) with (t * d * (w * ((U - 1) * (U - 1)))) by ring.
      replace (n * w * ((U - 1) * (U - 1))) with (n * (w * ((U - 1) * (U - 1)))) by ring.
      apply Z.mul_le_mono_nonneg_r; [nia | lia].
    - lia. }
  assert (R2 : c * h * ((U - 1) * (U - 1)) <= (t + 1) * w * ((U + 1) * (U + 1))).
  { apply (Z.mul_le_mono_pos_r _ _ d Pd).
    transitivity (n * w * ((U + 1) * (U + 1))); [lia |].
    replace ((t + 1) * w * ((U + 1) * (U + 1)) * d) with ((t + 1) * d * (w * ((U + 1) * (U + 1)))) by ring.
    replace (n * w * ((U + 1) * (U + 1))) with (n * (w * ((U + 1) * (U + 1)))) by ring.
    apply Z.mul_le_mono_nonneg_r; [nia | lia]. }
  assert (X1 : 0 <= t * w) by nia. assert (X2 : 0 <= c * h) by nia.
  assert (X3 : 0 <= (t + 1) * w) by nia. subst U.
  split; [exact T0 |]. generalize dependent (t * w). generalize dependent (c * h).
  generalize dependent ((t + 1) * w). intros. clear - R1 R2 X1 X2 X3. lia.
Qed.

(* ---- square roots ---- *)

Lemma fl_int_le : forall n b, 0 < n <= b -> b < 2 ^ 24 \/ (exists e, b = 2 ^ e /\ 24 <= e) -> fl_int n <= b.
Proof.
  intros n b [Hn Hb] [H | (e & -> & He)].
  - rewrite fl_int_small; lia.
  - destruct (Z_lt_le_dec n (2 ^ 24)) as [Hs | Hs]; [rewrite fl_int_small; lia |].
    unfold fl_int. destruct (Z.ltb_spec n (2 ^ 24)); [lia |]. cbn zeta.
    assert (L : 24 <= Z.log2 n) by (apply Z.log2_le_pow2; lia).
    assert (L2 : Z.log2 n <= e) by (rewrite <- (Z.log2_pow2 e) by lia; apply Z.log2_le_mono; lia).
    set (f := Z.log2 n - 23) in *.
    assert (E : 2 ^ e = 2 ^ (e - f) * 2 ^ f) by (rewrite <- Z.pow_add_r by lia; f_equal; lia).
    rewrite E. apply Z.mul_le_mono_nonneg_r; [apply Z.lt_le_incl, pow2_pos; lia |].
    apply rne_mono_r; [apply pow2_pos; lia | lia].
Qed.

Lemma fl_sqrt_spec : forall m, 1 <= m <= 2 ^ 31 -> let '(r, j) := fl_sqrt m in
  j = 23 - Z.log2 m / 2 /\ 8 <= j <= 23 /\ 2 ^ 23 <= r <= 2 ^ 24 /\
  (2 * r - 1) * (2 * r - 1) <= 4 * m * 4 ^ j < (2 * r + 1) * (2 * r + 1).
Proof.
  intros m Hm. unfold fl_sqrt.
  assert (L0 := Z.log2_nonneg m).
  assert (L1 : Z.log2 m <= 31) by (change 31 with (Z.log2 (2 ^ 31)); apply Z.log2_le_mono; lia).
  destruct (Z.log2_spec m ltac:(lia)) as [M1 M2].
  set (e := Z.log2 m / 2) in *.
  assert (He : 0 <= e <= 15) by (subst e; clear - L0 L1; Z.div_mod_to_equations; lia).
  assert (E1 : 4 ^ e <= m).
  { change 4 with (2 ^ 2). rewrite <- Z.pow_mul_r by lia. etransitivity; [| exact M1].
    apply Z.pow_le_mono_r; [lia |]. subst e. Z.div_mod_to_equations. lia. }
  assert (E2 : m < 4 ^ (e + 1)).
  { change 4 with (2 ^ 2). rewrite <- Z.pow_mul_r by lia. eapply Z.lt_le_trans; [exact M2 |].
    apply Z.pow_le_mono_r; [lia |]. subst e. Z.div_mod_to_equations. lia. }
  split; [reflexivity |]. split; [lia |].
  set (j := 23 - e) in *.
  assert (V1 : 2 ^ 24 * 2 ^ 24 <= 4 * m * 4 ^ j).
  { replace (2 ^ 24 * 2 ^ 24) with (4 * 4 ^ e * 4 ^ j).
    - assert (0 < 4 ^ j) by (apply Z.pow_pos_nonneg; lia). nia.
    - rewrite <- Z.mul_assoc, <- Z.pow_add_r by lia. replace (e + j) with 23 by lia. reflexivity. }
  assert (V2 : 4 * m * 4 ^ j < 2 ^ 25 * 2 ^ 25).
  { replace (2 ^ 25 * 2 ^ 25) with (4 * 4 ^ (e + 1) * 4 ^ j).
    - assert (0 < 4 ^ j) by (apply Z.pow_pos_nonneg; lia). nia.
    - rewrite <- Z.mul_assoc, <- Z.pow_add_r by lia. replace (e + 1 + j) with 24 by lia. reflexivity. }
  set (v := 4 * m * 4 ^ j) in *. clearbody v.
  destruct (Z.sqrt_spec v ltac:(lia)) as [S1 S2]. set (s := Z.sqrt v) in *.
  assert (S0 : 0 <= s) by apply Z.sqrt_nonneg. clearbody s. clear - V1 V2 S1 S2 S0.
  assert (B1 : 2 ^ 24 <= s) by nia. assert (B2 : s < 2 ^ 25) by nia.
  assert (D : s = 2 * ((s + 1) / 2) - 1 \/ s = 2 * ((s + 1) / 2)) by (Z.div_mod_to_equations; lia).
  set (r := (s + 1) / 2) in *. clearbody r. split; [lia |].
  clear V1 V2. destruct D; subst s; nia.
Qed.

Lemma fl_int_exact_pow : forall e, 0 <= e -> fl_int (2 ^ e) = 2 ^ e.
Proof.
  intros e He. destruct (Z_lt_le_dec e 24) as [H | H].
  - apply fl_int_small. apply Z.pow_lt_mono_r; lia.
  - unfold fl_int. destruct (Z.ltb_spec (2 ^ e) (2 ^ 24)) as [C | C]; [reflexivity |].
    rewrite Z.log2_pow2 by lia. cbn zeta.
    assert (E : 2 ^ e = 2 ^ 23 * 2 ^ (e - 23)) by (rewrite <- Z.pow_add_r by lia; f_equal; lia).
    assert (P := pow2_pos (e - 23) ltac:(lia)).
    unfold rne. replace (2 ^ e mod 2 ^ (e - 23)) with 0 by (rewrite E, Z.mod_mul; lia).
    replace (2 ^ e / 2 ^ (e - 23)) with (2 ^ 23) by (rewrite E, Z.div_mul; lia).
    destruct (Z.ltb_spec (2 ^ (e - 23)) (2 * 0)); [lia |].
    destruct (Z.eqb_spec (2 ^ (e - 23)) (2 * 0)); [lia |]. cbn [orb andb]. lia.
Qed.

(* The root of a perfect square is exact, although the square itself may not
   be a float. *)
Lemma root_square : forall k, 1 <= k <= 46340 ->
  fl_sqrt (fl_int (k * k)) = (k * 2 ^ (23 - Z.log2 k), 23 - Z.log2 k).
Proof.
  intros k Hk. set (m := fl_int (k * k)).
  assert (Hkk : 1 <= k * k <= 2 ^ 31) by nia.
  destruct (Z.log2_spec k ltac:(lia)) as [K1 K2]. assert (L0 := Z.log2_nonneg k).
  assert (L1 : Z.log2 k <= 15) by (change 15 with (Z.log2 46340); apply Z.log2_le_mono; lia).
  set (e := Z.log2 k) in *. rewrite Z.pow_succ_r in K2 by lia. clearbody e.
  (* error of the conversion *)
  assert (Hm : 4 ^ e <= m < 4 * 4 ^ e /\ (m - k * k) * 2 ^ (23 - e) < k /\ (k * k - m) * 2 ^ (23 - e) < k).
  { subst m. destruct (Z_lt_le_dec (k * k) (2 ^ 24)) as [Hs | Hs].
    - rewrite fl_int_small by exact Hs. rewrite !Z.sub_diag.
      replace (4 ^ e) with (2 ^ e * 2 ^ e) by (rewrite <- Z.pow_mul_l; reflexivity). nia.
    - assert (E12 : 12 <= e).
      { destruct (Z_lt_le_dec e 12) as [C |]; [exfalso | lia].
        assert (C2 : 2 ^ e <= 2 ^ 11) by (apply Z.pow_le_mono_r; lia). nia. }
      assert (B := fl_int_rel (k * k) ltac:(lia)).
      assert (C : e = 12 \/ e = 13 \/ e = 14 \/ e = 15) by lia.
      destruct (Z.eq_dec k (2 ^ e)) as [-> | Hne].
      + assert (X := fl_int_exact_pow (e + e) ltac:(lia)). rewrite Z.pow_add_r in X by lia. rewrite X.
        rewrite !Z.sub_diag.
        replace (4 ^ e) with (2 ^ e * 2 ^ e) by (rewrite <- Z.pow_mul_l; reflexivity). nia.
      + revert B. set (m := fl_int (k * k)). clearbody m. intros B.
        clear - K1 K2 C B Hne.
        destruct C as [-> | [-> | [-> | ->]]];
          [ change (2 ^ 12) with 4096 in *; change (4 ^ 12) with 16777216; change (2 ^ (23 - 12)) with 2048
          | change (2 ^ 13) with 8192 in *; change (4 ^ 13) with 67108864; change (2 ^ (23 - 13)) with 1024
          | change (2 ^ 14) with 16384 in *; change (4 ^ 14) with 268435456; change (2 ^ (23 - 14)) with 512
          | change (2 ^ 15) with 32768 in *; change (4 ^ 15) with 1073741824; change (2 ^ (23 - 15)) with 256 ];
          change (2 ^ 24) with 16777216 in B; nia. }
  destruct Hm as (Hm & H1 & H2). clearbody m.
  assert (Hlog : Z.log2 m / 2 = e).
  { replace (4 * 4 ^ e) with (2 ^ (2 * e + 2)) in Hm
      by (rewrite Z.pow_add_r, Z.pow_mul_r by lia; change (2 ^ 2) with 4; lia).
    replace (4 ^ e) with (2 ^ (2 * e)) in Hm by (rewrite Z.pow_mul_r by lia; reflexivity).
    assert (A1 : 2 * e <= Z.log2 m) by (apply Z.log2_le_pow2; lia).
    assert (A2 : Z.log2 m < 2 * e + 2) by (apply Z.log2_lt_pow2; lia).
    clear - A1 A2. Z.div_mod_to_equations. lia. }
  unfold fl_sqrt. rewrite Hlog. f_equal.
  set (j := 23 - e) in *. assert (P := pow2_pos j ltac:(lia)).
  replace (4 ^ j) with (2 ^ j * 2 ^ j) by (rewrite <- Z.pow_mul_l; reflexivity).
  set (X := 2 ^ j) in *. clearbody X.
  assert (S : Z.sqrt (4 * m * (X * X)) = 2 * (k * X) - 1 \/ Z.sqrt (4 * m * (X * X)) = 2 * (k * X)).
  { destruct (Z.sqrt_spec (4 * m * (X * X))) as [S1 S2]; [nia |].
    assert (S0 := Z.sqrt_nonneg (4 * m * (X * X))).
    set (s := Z.sqrt (4 * m * (X * X))) in *. clearbody s.
    assert (T1 : 4 * m * (X * X) < (2 * (k * X) + 1) * (2 * (k * X) + 1)) by nia.
    assert (T2 : (2 * (k * X) - 1) * (2 * (k * X) - 1) <= 4 * m * (X * X)) by nia.
    assert (T3 : 0 < k * X) by nia. set (y := k * X) in *. clearbody y.
    clear - S1 S2 S0 T1 T2 T3. set (v := 4 * m * (X * X)) in *. clearbody v. nia. }
  clear - S. set (y := k * X) in *. clearbody y. Z.div_mod_to_equations. lia.
Qed.

Lemma int_root_square : forall k, 1 <= k <= 46340 -> int_root (k * k) = k.
Proof.
  intros k Hk. unfold int_root. rewrite (root_square k Hk). apply Z.div_mul.
  assert (L1 : Z.log2 k <= 15) by (change 15 with (Z.log2 46340); apply Z.log2_le_mono; lia).
  assert (P := pow2_pos (23 - Z.log2 k) ltac:(lia)). lia.
Qed.

Lemma fl_int_ge : forall n, 2 ^ 24 <= n -> 2 ^ 24 <= fl_int n.
Proof.
  intros n H. unfold fl_int. destruct (Z.ltb_spec n (2 ^ 24)); [lia |]. cbn zeta.
  assert (L : 24 <= Z.log2 n) by (apply Z.log2_le_pow2; lia).
  destruct (Z.log2_spec n ltac:(lia)) as [L1 _].
  set (e := Z.log2 n - 23) in *. assert (P := pow2_pos e ltac:(lia)).
  assert (Pn : 2 ^ Z.log2 n = 2 ^ 23 * 2 ^ e) by (rewrite <- Z.pow_add_r; [f_equal; lia | lia | lia]).
  assert (M := rne_mono_l n (2 ^ e) (2 ^ 23) P ltac:(lia)).
  assert (E : 2 ^ 1 <= 2 ^ e) by (apply Z.pow_le_mono_r; lia). nia.
Qed.

(* the computation of near_root, spelled out *)
Lemma near_root_spec : forall spp, 1 <= spp < 2 ^ 31 ->
  exists m r X H, m = fl_int spp /\ 1 <= m <= 2 ^ 31 /\ X = 2 * H /\ 256 <= X <= 2 ^ 23 /\
    X = 2 ^ (23 - Z.log2 m / 2) /\
    2 ^ 23 <= r <= 2 ^ 24 /\
    (2 * r - 1) * (2 * r - 1) <= 4 * m * (X * X) < (2 * r + 1) * (2 * r + 1) /\
    near_root spp = fl_int (r + H) / X /\ int_root spp = r / X.
Proof.
  intros spp Hs.
  assert (Hm : 1 <= fl_int spp <= 2 ^ 31).
  { split; [assert (P := fl_int_pos spp); lia |].
    apply (fl_int_le spp (2 ^ 31)); [lia |]. right. exists 31. split; [reflexivity | lia]. }
  assert (S := fl_sqrt_spec (fl_int spp) Hm).
  unfold near_root, int_root. destruct (fl_sqrt (fl_int spp)) as [r j].
  destruct S as (Ej & Hj & Hr & HS).
  exists (fl_int spp), r, (2 ^ j), (2 ^ (j - 1)).
  split; [reflexivity |]. split; [exact Hm |].
  split. { rewrite <- Z.pow_succ_r by lia. f_equal. lia. }
  split.
  { split; [change 256 with (2 ^ 8); apply Z.pow_le_mono_r; lia | apply Z.pow_le_mono_r; lia]. }
  split; [now rewrite <- Ej |]. split; [exact Hr |]. split; [| auto].
  replace (2 ^ j * 2 ^ j) with (4 ^ j) by (rewrite <- Z.pow_mul_l; reflexivity). exact HS.
Qed.

Lemma sq_le : forall a b, 0 <= a <= b -> a * a <= b * b.
Proof. intros a b H. apply Z.mul_le_mono_nonneg; lia. Qed.

Lemma near_root_bounds : forall spp, 1 <= spp < 2 ^ 31 -> let k := near_root spp in let m := fl_int spp in
  1 <= k /\ 256 * (m - k * k - k - 1) <= k /\ 256 * (k * k - k - m) <= 3 * k /\ -127 <= m - spp <= 127.
Proof.
  intros spp Hs. destruct (near_root_spec spp Hs) as (m & r & X & H & Em & Hm & EX & HX & _ & Hr & HS & Ek & _).
  cbn zeta. rewrite <- Em. assert (Bm := fl_int_rel spp ltac:(lia)). rewrite <- Em in Bm.
  assert (BT := fl_int_rel (r + H) ltac:(lia)). rewrite Ek. set (T := fl_int (r + H)) in *.
  assert (HT : r + H - 1 <= T <= r + H + 1) by (clear - BT Hr EX HX; lia).
  assert (E := Z.div_mod T X ltac:(lia)). assert (M := Z.mod_pos_bound T X ltac:(lia)).
  set (k := T / X) in *. clearbody k T. clear BT Em Ek.
  assert (R1 : k * X - H - 1 <= r <= k * X + H) by lia.
  assert (K1 : 1 <= k) by nia.
  split; [exact K1 |].
  assert (A : 4 * m * (X * X) < (2 * (k * X) + X + 1) * (2 * (k * X) + X + 1)).
  { destruct HS as [_ HS]. assert (G := sq_le (2 * r + 1) (2 * (k * X) + X + 1) ltac:(lia)). lia. }
  assert (B : (2 * (k * X) - X - 3) * (2 * (k * X) - X - 3) <= 4 * m * (X * X)).
  { destruct HS as [HS _]. assert (X <= k * X) by (clear - K1 HX; nia).
    assert (G := sq_le (2 * (k * X) - X - 3) (2 * r - 1) ltac:(lia)). lia. }
  clear - A B K1 HX Bm Hs.
  assert (XX : X + X + 1 <= X * X) by nia.
  assert (A2 : m * X <= (k * k + k + 1) * X + k).
  { apply Z.lt_succ_r. apply (Z.mul_lt_mono_pos_r (4 * X)); [lia |]. clear - A XX HX.
    replace (m * X * (4 * X)) with (4 * m * (X * X)) by ring. eapply Z.lt_le_trans; [exact A |].
    replace (Z.succ ((k * k + k + 1) * X + k)) with ((k * k + k + 1) * X + k + 1) by lia.
    match goal with |- ?a <= ?b => replace b with (a + (3 * (X * X) + 2 * X - 1)) by ring end. lia. }
  assert (B2 : (k * k - k - m) * X <= 3 * k).
  { apply (Z.mul_le_mono_pos_r _ _ (4 * X)); [lia |]. clear - B XX HX.
    assert (0 <= (X + 3) * (X + 3)) by nia.
    replace ((k * k - k - m) * X * (4 * X)) with
      ((2 * (k * X) - X - 3) * (2 * (k * X) - X - 3) - 4 * m * (X * X) - (X + 3) * (X + 3) + 12 * (k * X)) by ring.
    replace (3 * k * (4 * X)) with (12 * (k * X)) by ring. lia. }
  split; [| split; [| lia]].
  - destruct (Z_le_gt_dec (m - k * k - k - 1) 0) as [C | C]; [lia |].
    assert (256 * (m - k * k - k - 1) <= X * (m - k * k - k - 1)) by (apply Z.mul_le_mono_nonneg_r; lia). lia.
  - destruct (Z_le_gt_dec (k * k - k - m) 0) as [C | C]; [lia |].
    assert (256 * (k * k - k - m) <= X * (k * k - k - m)) by (apply Z.mul_le_mono_nonneg_r; lia). lia.
Qed.

(* the nearest integer to the square root, up to four million samples *)
Lemma near_root_nearest : forall spp k, 1 <= spp <= 4000000 -> 1 <= k ->
  k * k - k + 1 <= spp <= k * k + k -> near_root spp = k.
Proof.
  intros spp k Hs Hk Hn.
  destruct (near_root_spec spp ltac:(lia)) as (m & r & X & H & Em & Hm & EX & HX & EXm & Hr & HS & Ek & _).
  rewrite fl_int_small in Em by lia. subst m. rewrite Ek. clear Ek.
  assert (Hk2 : k <= 2000) by nia.
  (* the exponent of the root *)
  assert (L0 := Z.log2_nonneg spp).
  assert (L1 : Z.log2 spp <= 21) by (change 21 with (Z.log2 4000000); apply Z.log2_le_mono; lia).
  destruct (Z.log2_spec spp ltac:(lia)) as [M1 M2].
  set (e := Z.log2 spp / 2) in *.
  assert (He : 0 <= e <= 10) by (subst e; clear - L0 L1; Z.div_mod_to_equations; lia).
  assert (E2 : spp < 4 ^ (e + 1)).
  { change 4 with (2 ^ 2). rewrite <- Z.pow_mul_r by lia. eapply Z.lt_le_trans; [exact M2 |].
    apply Z.pow_le_mono_r; [lia |]. subst e. Z.div_mod_to_equations. lia. }
  clearbody e.
  assert (EP : 2 ^ (e + 1) * X = 2 ^ 24) by (rewrite EXm, <- Z.pow_add_r by lia; f_equal; lia).
  assert (HX2 : 8192 <= X) by (rewrite EXm; change 8192 with (2 ^ 13); apply Z.pow_le_mono_r; lia).
  replace (4 ^ (e + 1)) with (2 ^ (e + 1) * 2 ^ (e + 1)) in E2 by (rewrite <- Z.pow_mul_l; reflexivity).
  assert (PE := pow2_pos (e + 1) ltac:(lia)).
  set (W := 2 ^ (e + 1)) in *. clearbody W. clear EXm L0 L1 M1 M2.
  assert (KW : k <= W) by (clear - E2 Hn PE Hk; nia).
  assert (R1 : r <= k * X + H - 1).
  { destruct (Z_le_gt_dec r (k * X + H - 1)) as [| C]; [assumption | exfalso].
    assert (G : (2 * k + 1) * X - 1 <= 2 * r - 1) by lia. destruct HS as [HS _].
    assert (XX : 0 <= X * X) by (clear; nia).
    assert (G2 : 4 * spp * (X * X) <= (4 * (k * k) + 4 * k) * (X * X))
      by (apply Z.mul_le_mono_nonneg_r; [exact XX | lia]).
    assert (G3 := sq_le ((2 * k + 1) * X - 1) (2 * r - 1) ltac:(clear - G HX2 Hk; nia)).
    replace (((2 * k + 1) * X - 1) * ((2 * k + 1) * X - 1)) with
      ((4 * (k * k) + 4 * k) * (X * X) + X * (X - 2 * (2 * k + 1)) + 1) in G3 by ring.
    assert (0 <= X * (X - 2 * (2 * k + 1))) by (apply Z.mul_nonneg_nonneg; lia). lia. }
  assert (R2 : k * X - H <= r).
  { destruct (Z_le_gt_dec (k * X - H) r) as [| C]; [assumption | exfalso].
    assert (G : 2 * r + 1 <= (2 * k - 1) * X - 1) by lia. destruct HS as [_ HS].
    assert (XX : 0 <= X * X) by (clear; nia).
    assert (G2 : (4 * (k * k) - 4 * k + 4) * (X * X) <= 4 * spp * (X * X))
      by (apply Z.mul_le_mono_nonneg_r; [exact XX | lia]).
    assert (G3 := sq_le (2 * r + 1) ((2 * k - 1) * X) ltac:(lia)).
    replace ((2 * k - 1) * X * ((2 * k - 1) * X)) with
      ((4 * (k * k) - 4 * k + 4) * (X * X) - 3 * (X * X)) in G3 by ring. lia. }
  assert (T : k * X <= fl_int (r + H) < k * X + X).
  { destruct (Z_lt_le_dec (r + H) (2 ^ 24)) as [C | C].
    - rewrite fl_int_small by exact C. lia.
    - assert (kW : k = W).
      { destruct (Z.eq_dec k W) as [| C2]; [assumption | exfalso].
        assert (G : (k + 1) * X <= W * X) by (apply Z.mul_le_mono_nonneg_r; lia). lia. }
      subst k. assert (G := fl_int_ge (r + H) C). assert (B := fl_int_rel (r + H) ltac:(lia)). lia. }
  symmetry. apply (Z.div_unique_pos _ _ _ (fl_int (r + H) - k * X)); lia.
Qed.

Lemma int_root_max : forall spp, 1 <= spp < 2 ^ 31 -> 0 <= int_root spp <= 46340.
Proof.
  intros spp Hs.
  destruct (near_root_spec spp Hs) as (m & r & X & H & Em & Hm & EX & HX & _ & Hr & HS & _ & ->).
  assert (E := Z.div_mod r X ltac:(lia)). assert (M := Z.mod_pos_bound r X ltac:(lia)).
  assert (Q0 : 0 <= r / X) by (apply Z.div_pos; lia). split; [exact Q0 |].
  set (q := r / X) in *. clearbody q.
  destruct (Z_le_gt_dec q 46340) as [| C]; [assumption | exfalso].
  assert (G1 : 46341 * X <= q * X) by (apply Z.mul_le_mono_nonneg_r; lia).
  assert (G := sq_le (2 * (46341 * X) - 1) (2 * r - 1) ltac:(lia)).
  assert (G2 : 4 * m * (X * X) <= 8589934592 * (X * X))
    by (apply Z.mul_le_mono_nonneg_r; [clear; nia | lia]).
  replace ((2 * (46341 * X) - 1) * (2 * (46341 * X) - 1)) with
    (8589934592 * (X * X) + X * (18532 * X - 185364) + 1) in G by ring.
  assert (0 <= X * (18532 * X - 185364)) by (apply Z.mul_nonneg_nonneg; lia). lia.
Qed.
