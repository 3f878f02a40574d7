(* Lemmas on the sRGB transfer functions. *)
From Coq Require Import Reals Lra Lia List ZArith.
From Verif Require Import Common ColorModel ColorSpec.
Import ListNotations.
Local Open Scope R_scope.

Lemma Rabs_le_inv : forall a b, Rabs a <= b -> - b <= a <= b.
Proof. intros a b H. unfold Rabs in H. destruct (Rcase_abs a); lra. Qed.

Lemma rpower_pos : forall x y, 0 < Rpower x y.
Proof. intros. apply exp_pos. Qed.

Lemma rpower_le : forall x y p, 0 <= p -> 0 < x -> x <= y -> Rpower x p <= Rpower y p.
Proof. intros x y p P X H. apply Rle_Rpower_l; [exact P | split; [exact X | exact H]]. Qed.

(* the twelfth power of the power in encode *)
Lemma power12 : forall x, 0 < x -> Rpower x (1 / 2.4) ^ 12 = x ^ 5.
Proof.
  intros x X. rewrite <- Rpower_pow by apply rpower_pos. rewrite Rpower_mult. rewrite <- Rpower_pow by exact X.
  f_equal. rewrite !INR_IZR_INZ. change (Z.of_nat 12) with 12%Z. change (Z.of_nat 5) with 5%Z. lra.
Qed.

Lemma pow_lt_inv : forall n a b, 0 <= b -> a ^ n < b ^ n -> a < b.
Proof.
  intros n a b B H. destruct (Rlt_le_dec a b) as [L | L]; [exact L |]. exfalso.
  pose proof (pow_incr b a n (conj B L)). lra.
Qed.

Lemma power_above : forall x q, 0 < x -> 0 <= q -> q ^ 12 < x ^ 5 -> q < Rpower x (1 / 2.4).
Proof. intros x q X Q H. apply (pow_lt_inv 12); [left; apply rpower_pos |]. rewrite power12 by exact X. exact H. Qed.

Lemma power_below : forall x q, 0 < x -> 0 <= q -> x ^ 5 < q ^ 12 -> Rpower x (1 / 2.4) < q.
Proof. intros x q X Q H. apply (pow_lt_inv 12); [exact Q |]. rewrite power12 by exact X. exact H. Qed.

(* both branches of encode almost agree at the threshold *)
Lemma threshold_power : 0.09047384 < Rpower 0.0031308 (1 / 2.4) < 0.09047386.
Proof.
  split.
  - apply power_above; [lra | lra |]. cbn [pow]. lra.
  - apply power_below; [lra | lra |]. cbn [pow]. lra.
Qed.

(* the slope of the power *)
Lemma slope_bound : forall x, 0.0031308 <= x -> Rpower x (1 / 2.4 - 1) <= 29.
Proof.
  intros x X. destruct (Rle_lt_dec (Rpower x (1 / 2.4 - 1)) 29) as [L | L]; [exact L |]. exfalso.
  assert (E : Rpower x (1 / 2.4 - 1) ^ 12 * x ^ 7 = 1).
  { rewrite <- Rpower_pow by apply rpower_pos. rewrite Rpower_mult. rewrite <- Rpower_pow by lra. rewrite <- Rpower_plus.
    replace ((1 / 2.4 - 1) * INR 12 + INR 7) with 0 by (rewrite !INR_IZR_INZ; change (Z.of_nat 12) with 12%Z; change (Z.of_nat 7) with 7%Z; lra).
    apply Rpower_O. lra. }
  assert (A : 29 ^ 12 <= Rpower x (1 / 2.4 - 1) ^ 12) by (apply pow_incr; lra).
  assert (B : 0.0031308 ^ 7 <= x ^ 7) by (apply pow_incr; lra).
  assert (C : 1 < 29 ^ 12 * 0.0031308 ^ 7) by (cbn [pow]; lra).
  assert (B0 : 0 < 0.0031308 ^ 7) by (apply pow_lt; lra). assert (A0 : 0 < 29 ^ 12) by (apply pow_lt; lra).
  set (a := Rpower x (1 / 2.4 - 1) ^ 12) in *. set (b := x ^ 7) in *. set (c := 29 ^ 12) in *. set (d := 0.0031308 ^ 7) in *.
  clearbody a b c d. nra.
Qed.

(* the power branch *)
Definition upper (x : R) : R := 1.055 * Rpower x (1 / 2.4) - 0.055.

Lemma upper_mono : forall x y, 0 < x -> x <= y -> upper x <= upper y.
Proof. intros x y X H. unfold upper. pose proof (rpower_le x y (1 / 2.4) ltac:(lra) X H). lra. Qed.

Lemma upper_slope : forall x y, 0.0031308 <= x -> x <= y -> upper y - upper x <= 13 * (y - x).
Proof.
  intros x y X [H | ->]; [| lra].
  destruct (MVT_cor2 (fun z => Rpower z (1 / 2.4)) (fun z => 1 / 2.4 * Rpower z (1 / 2.4 - 1)) x y H) as (c & E & C).
  - intros c C. apply derivable_pt_lim_power. lra.
  - pose proof (slope_bound c ltac:(lra)). pose proof (rpower_pos c (1 / 2.4 - 1)). unfold upper. cbv beta in E. nra.
Qed.

Lemma upper_threshold : Rabs (upper 0.0031308 - 0.0031308 * 12.92) <= 1e-7.
Proof. unfold upper. pose proof threshold_power. apply Rabs_le. lra. Qed.

(* encode is almost Lipschitz *)
Lemma encode_near : forall x y, x <= y -> -1e-7 <= encode y - encode x <= 13 * (y - x) + 1e-7.
Proof.
  intros x y H. pose proof upper_threshold as U. apply Rabs_le_inv in U. unfold encode.
  destruct (Rgt_dec x 0.0031308) as [A | A], (Rgt_dec y 0.0031308) as [B | B]; try lra.
  - fold (upper y). fold (upper x). pose proof (upper_mono x y ltac:(lra) H). pose proof (upper_slope x y ltac:(lra) H). lra.
  - fold (upper y). pose proof (upper_mono 0.0031308 y ltac:(lra) ltac:(lra)). pose proof (upper_slope 0.0031308 y ltac:(lra) ltac:(lra)). lra.
Qed.

Lemma encode_close : forall x y e, Rabs (x - y) <= e -> Rabs (encode x - encode y) <= 13 * e + 1e-7.
Proof.
  intros x y e H. apply Rabs_le_inv in H. apply Rabs_le. destruct (Rle_dec x y) as [L | L].
  - pose proof (encode_near x y L). lra.
  - pose proof (encode_near y x ltac:(lra)). lra.
Qed.

(* encode undoes decode *)
Lemma decode_power : forall v, 0.04045 < v -> 0.0031308 < Rpower ((v + 0.055) / 1.055) 2.4 /\ Rpower (Rpower ((v + 0.055) / 1.055) 2.4) (1 / 2.4) = (v + 0.055) / 1.055.
Proof.
  intros v V. set (q := (v + 0.055) / 1.055). assert (Q : 0.09047386 < q) by (unfold q; lra). clearbody q. split.
  - assert (E : Rpower q 2.4 ^ 5 = q ^ 12).
    { rewrite <- Rpower_pow by apply rpower_pos. rewrite Rpower_mult. rewrite <- Rpower_pow by lra. f_equal.
      rewrite !INR_IZR_INZ. change (Z.of_nat 12) with 12%Z. change (Z.of_nat 5) with 5%Z. lra. }
    apply (pow_lt_inv 5); [left; apply rpower_pos |]. rewrite E. apply Rlt_le_trans with (0.09047386 ^ 12); [cbn [pow]; lra |].
    apply pow_incr. lra.
  - rewrite Rpower_mult. replace (2.4 * (1 / 2.4)) with 1 by lra. apply Rpower_1. lra.
Qed.

Lemma encode_decode : forall v, Rabs (encode (decode v) - v) <= 1e-6.
Proof.
  intro v. unfold decode. destruct (Rgt_dec v 0.04045) as [A | A].
  - destruct (decode_power v A) as (L & E). unfold encode. destruct (Rgt_dec _ 0.0031308) as [B | B]; [| lra].
    rewrite E. apply Rabs_le. lra.
  - pose proof upper_threshold as U. apply Rabs_le_inv in U. unfold encode.
    destruct (Rgt_dec (v * (1 / 12.92)) 0.0031308) as [B | B]; [| apply Rabs_le; lra].
    fold (upper (v * (1 / 12.92))). pose proof (upper_mono 0.0031308 (v * (1 / 12.92)) ltac:(lra) ltac:(lra)).
    pose proof (upper_slope 0.0031308 (v * (1 / 12.92)) ltac:(lra) ltac:(lra)). apply Rabs_le. lra.
Qed.

Lemma decode_unit : forall v, 0 <= v <= 1 -> 0 <= decode v <= 1.
Proof.
  intros v (V0 & V1). unfold decode. destruct (Rgt_dec v 0.04045) as [A | A]; [| lra]. split; [left; apply rpower_pos |].
  set (q := (v + 0.055) / 1.055). assert (0 < q <= 1) by (unfold q; lra). clearbody q.
  apply Rle_trans with (Rpower 1 2.4); [apply rpower_le; lra |]. unfold Rpower. rewrite ln_1, Rmult_0_r, exp_0. lra.
Qed.

(* -- bytes -- *)

Lemma channel_byte_spec : forall v, IZR (channel_byte v) <= Rmin (Rmax 0 v * 255) 255 < IZR (channel_byte v) + 1.
Proof. intro v. unfold channel_byte. set (x := Rmin _ _). clearbody x. pose proof (archimed x). rewrite minus_IZR. lra. Qed.

Lemma byte_mono : forall v w, v <= w -> (channel_byte v <= channel_byte w)%Z.
Proof.
  intros v w H. pose proof (channel_byte_spec v) as A. pose proof (channel_byte_spec w) as B.
  assert (M : Rmin (Rmax 0 v * 255) 255 <= Rmin (Rmax 0 w * 255) 255).
  { apply Rmin_glb; [apply Rle_trans with (Rmax 0 v * 255); [apply Rmin_l |]; apply Rmult_le_compat_r; [lra |]; apply Rmax_lub; [apply Rmax_l | apply Rle_trans with w; [exact H | apply Rmax_r]] | apply Rmin_r]. }
  apply Zlt_succ_le. apply lt_IZR. rewrite succ_IZR. lra.
Qed.

Lemma byte_of : forall v z, byte z -> IZR z <= Rmax 0 v * 255 < IZR z + 1 -> channel_byte v = z.
Proof.
  intros v z (Z0 & Z1) (H0 & H1). pose proof (channel_byte_spec v) as A. apply IZR_le in Z1. 
  assert (M : IZR z <= Rmin (Rmax 0 v * 255) 255 < IZR z + 1).
  { split; [apply Rmin_glb; lra |]. apply Rle_lt_trans with (Rmax 0 v * 255); [apply Rmin_l | exact H1]. }
  assert (channel_byte v < Z.succ z)%Z by (apply lt_IZR; rewrite succ_IZR; lra).
  assert (z < Z.succ (channel_byte v))%Z by (apply lt_IZR; rewrite succ_IZR; lra). lia.
Qed.

(* a byte that comes back with a small error *)
Lemma byte_near : forall v z, byte z -> Rabs (v - IZR z * (1 / 255)) <= 1e-5 -> (z - 1 <= channel_byte v <= z)%Z.
Proof.
  intros v z (Z0 & Z1) H. apply Rabs_le_inv in H. pose proof (channel_byte_spec v) as A.
  apply IZR_le in Z0. apply IZR_le in Z1. cbn in Z0, Z1.
  assert (U : Rmin (Rmax 0 v * 255) 255 < IZR z + 1).
  { apply Rle_lt_trans with (Rmax 0 v * 255); [apply Rmin_l |]. unfold Rmax. destruct (Rle_dec 0 v); lra. }
  assert (L : IZR z - 1 < Rmin (Rmax 0 v * 255) 255).
  { apply Rmin_glb_lt; [| lra]. pose proof (Rmax_r 0 v). lra. }
  split.
  - apply Zlt_succ_le. apply lt_IZR. rewrite succ_IZR, minus_IZR. lra.
  - apply Zlt_succ_le. apply lt_IZR. rewrite succ_IZR. lra.
Qed.
