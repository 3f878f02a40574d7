(* C217-C231: colours, spectra, temperatures and indices of refraction. *)
From Coq Require Import Reals Lra Lia List ZArith.
From Verif Require Import Common SpecularModel ColorModel ColorSpec ColorProofs SrgbProofs.
Import ListNotations.
Local Open Scope R_scope.

(* -- temperatures -- *)

(* C217.  A temperature gives sixteen positive samples of at most one, and from 300 K on one of them is
   one: lights of any temperature are equally strong at their strongest wavelength. *)
Theorem blackbody_normalised : forall t, (0 < t)%Z ->
  length (blackbody Spectral t) = 16%nat /\ (forall v, In v (blackbody Spectral t) -> 0 < v <= 1) /\
  ((300 <= t)%Z -> In 1 (blackbody Spectral t)).
Proof.
  intros t T. assert (T0 : t <> 0%Z) by lia. rewrite (blackbody_spectral t T0). pose proof (peak_pos t) as P. split; [| split].
  - rewrite map_length, seq_length. reflexivity.
  - intros v V. apply in_map_iff in V. destruct V as (i & <- & I). split.
    + apply Rdiv_lt_0_compat; [apply emission_pos | exact P].
    + apply Rmult_le_reg_r with (peak t); [exact P |]. unfold Rdiv. rewrite Rmult_assoc, Rinv_l, Rmult_1_r, Rmult_1_l by lra.
      apply peak_ge. exact I.
  - intro W. apply in_map_iff. destruct (peak_of t) as [E | (i & E & I)].
    + exfalso. assert (A : emission t 15 <= peak t) by (apply peak_ge, in_seq; lia).
      pose proof (emission_warm t W) as B. rewrite E in A. lra.
    + exists i. split; [| exact I]. rewrite E. unfold Rdiv. apply Rinv_r. lra.
Qed.
Print Assumptions blackbody_normalised.

(* daylight: all of it applies *)
Example blackbody_normalised_ex : In 1 (blackbody Spectral 6500) /\ 0 < nth 0 (blackbody Spectral 6500) 0.
Proof.
  destruct (blackbody_normalised 6500 ltac:(lia)) as (L & P & N). split; [apply N; lia |]. apply P, nth_In. rewrite L. lia.
Qed.

(* C218.  The samples do not follow Planck's law: at every temperature and for every two samples, the one
   of the shorter wavelength is too strong with respect to the other (+1 in place of -1). *)
Theorem planck_refuted : forall t i j, (0 < t)%Z -> (i < j < 16)%nat ->
  planck (IZR t) (nm i) / planck (IZR t) (nm j) < nth i (blackbody Spectral t) 0 / nth j (blackbody Spectral t) 0.
Proof.
  intros t i j T (IJ & J). assert (T' : 0 < IZR t) by (apply IZR_lt; exact T). rewrite (samples_ratio t i j T ltac:(lia) J), (planck_ratio (IZR t) i j T').
  pose proof (boost_gt1 (IZR t) j T') as B. pose proof (boost_lt (IZR t) i j T' IJ) as L.
  apply Rmult_lt_compat_l; [apply Rdiv_lt_0_compat; apply radiation_pos |].
  apply frac_lt; [lra | lra | lra].
Qed.
Print Assumptions planck_refuted.

(* C219.  Up to 3000 K the ratio of any two samples is within one percent of Planck's law. *)
Theorem planck_warm : forall t i j, (0 < t <= 3000)%Z -> (i < j < 16)%nat ->
  let law := planck (IZR t) (nm i) / planck (IZR t) (nm j) in
  law <= nth i (blackbody Spectral t) 0 / nth j (blackbody Spectral t) 0 <= 1.01 * law.
Proof.
  intros t i j (T & T3) IJ law. split; [left; apply planck_refuted; assumption |]. destruct IJ as (IJ & J). unfold law.
  assert (T' : 0 < IZR t <= 3000) by (split; [apply IZR_lt; exact T | apply IZR_le; exact T3]).
  rewrite (samples_ratio t i j T ltac:(lia) J), (planck_ratio (IZR t) i j (proj1 T')).
  pose proof (boost_warm (IZR t) j T' J) as B. pose proof (boost_lt (IZR t) i j (proj1 T') IJ) as L.
  rewrite <- Rmult_assoc, (Rmult_comm 1.01), Rmult_assoc.
  apply Rmult_le_compat_l; [left; apply Rdiv_lt_0_compat; apply radiation_pos |].
  set (bi := boost (IZR t) i) in *. set (bj := boost (IZR t) j) in *. clearbody bi bj.
  replace (1.01 * ((bj - 1) / (bi - 1))) with (1.01 * (bj - 1) / (bi - 1)) by (field; lra).
  apply frac_le; [lra | lra | nra].
Qed.
Print Assumptions planck_warm.

(* C220.  Hotter lights are bluer: the ratio of a sample to one of longer wavelength grows. *)
Theorem hotter_is_bluer : forall t t' i j, (0 < t < t')%Z -> (i < j < 16)%nat ->
  nth i (blackbody Spectral t) 0 / nth j (blackbody Spectral t) 0 < nth i (blackbody Spectral t') 0 / nth j (blackbody Spectral t') 0.
Proof.
  intros t t' i j (T & TT) (IJ & J). rewrite (samples_ratio t i j T ltac:(lia) J), (samples_ratio t' i j ltac:(lia) ltac:(lia) J).
  apply Rmult_lt_compat_l; [apply Rdiv_lt_0_compat; apply radiation_pos |].
  assert (T' : 0 < IZR t) by (apply IZR_lt; exact T). assert (TT' : IZR t < IZR t') by (apply IZR_lt; exact TT).
  pose proof (boost_gt1 (IZR t) i T'). pose proof (boost_gt1 (IZR t') i ltac:(lra)).
  apply frac_lt; [lra | lra |].
  pose proof src_pos as SP. pose proof (nm_pos i) as NI. pose proof (nm_pos j) as NJ. pose proof (nm_lt i j IJ) as NL.
  assert (AB : 0 < src / nm j < src / nm i).
  { split; [apply Rdiv_lt_0_compat; assumption |]. unfold Rdiv. apply Rmult_lt_compat_l; [exact SP |]. apply Rinv_lt_contravar; [apply Rmult_lt_0_compat; assumption | exact NL]. }
  assert (XY : 0 < / IZR t' < / IZR t).
  { split; [apply Rinv_0_lt_compat; lra |]. apply Rinv_lt_contravar; [apply Rmult_lt_0_compat; lra | lra]. }
  pose proof (hotter _ _ _ _ AB XY) as H1. unfold boost.
  replace (src / (IZR t * nm j)) with (src / nm j * / IZR t) by (field; lra).
  replace (src / (IZR t * nm i)) with (src / nm i * / IZR t) by (field; lra).
  replace (src / (IZR t' * nm j)) with (src / nm j * / IZR t') by (field; lra).
  replace (src / (IZR t' * nm i)) with (src / nm i * / IZR t') by (field; lra).
  lra.
Qed.
Print Assumptions hotter_is_bluer.

(* an instance for all three: the first and the last sample, of an incandescent lamp and of daylight *)
Example planck_ex : (0 < 2700 <= 3000)%Z /\ (0 < 2700 < 6500)%Z /\ (0 < 15 < 16)%nat /\
  nth 0 (blackbody Spectral 2700) 0 / nth 15 (blackbody Spectral 2700) 0 < nth 0 (blackbody Spectral 6500) 0 / nth 15 (blackbody Spectral 6500) 0.
Proof. repeat split; try lia. apply hotter_is_bluer; lia. Qed.

Lemma dot_zero : forall n t a, dot (repeat 0 n) t a = a.
Proof. induction n as [| n IH]; intros [| x t] a; cbn; try reflexivity. rewrite IH. lra. Qed.

(* C221.  Both programs show the same colour for a temperature. *)
Theorem temperature_same_colour : forall t, to_xyz Xyz (blackbody Xyz t) = to_xyz Spectral (blackbody Spectral t).
Proof.
  intro t. unfold blackbody. destruct (t =? 0)%Z.
  - unfold constant, to_xyz, entries. rewrite !dot_zero. cbn [repeat nth]. f_equal; lra.
  - set (l := map _ _). clearbody l. reflexivity.
Qed.
Print Assumptions temperature_same_colour.

(* and the luminance is the Y of that colour, whatever the spectrum *)
Theorem luminance_is_y : forall b w, luminance b w = c_g (to_xyz b w).
Proof. intros [|] w; reflexivity. Qed.
Print Assumptions luminance_is_y.

Lemma dot_acc : forall w t a, dot w t a = a + dot w t 0.
Proof. induction w as [| x w IH]; intros [| y t] a; cbn [dot]; try lra. rewrite IH, (IH _ (0 + x * y)). lra. Qed.

Lemma dot_plus : forall t u v a b, length u = length v ->
  dot (map (fun p => fst p + snd p) (combine u v)) t (a + b) = dot u t a + dot v t b.
Proof.
  induction t as [| x t IH]; intros [| p u] [| q v] a b L; cbn [combine map dot fst snd] in *; try lra; try discriminate.
  rewrite <- IH by (injection L; auto). f_equal. lra.
Qed.

Lemma dot_scale : forall t u k a, dot (map (fun p => p * k) u) t (a * k) = dot u t a * k.
Proof. induction t as [| x t IH]; intros [| p u] k a; cbn [map dot]; try lra. rewrite <- IH. f_equal. lra. Qed.

Lemma length16 : forall (w : list R), length w = 16%nat -> exists a b c d e f g h i j k l m n o p, w = [a; b; c; d; e; f; g; h; i; j; k; l; m; n; o; p].
Proof.
  intros w L. do 16 (destruct w as [| ? w]; [discriminate L |]). destruct w; [| discriminate L]. repeat eexists.
Qed.

Lemma length3 : forall (w : list R), length w = 3%nat -> exists a b c, w = [a; b; c].
Proof. intros w L. do 3 (destruct w as [| ? w]; [discriminate L |]). destruct w; [| discriminate L]. repeat eexists. Qed.

(* C222.  The colour of a sum of spectra is the sum of the colours, and scaling a spectrum scales its
   colour, in both programs. *)
Theorem colour_is_linear : forall b v w k, length v = entries b -> length w = entries b ->
  let s := to_xyz b (pointwise Rplus b v w) in let m := to_xyz b (pointwise1 Rmult b v k) in
  let x := to_xyz b v in let y := to_xyz b w in
  s = mk_color (c_r x + c_r y) (c_g x + c_g y) (c_b x + c_b y) /\ m = mk_color (c_r x * k) (c_g x * k) (c_b x * k) /\
  luminance b (pointwise Rplus b v w) = luminance b v + luminance b w /\ luminance b (pointwise1 Rmult b v k) = luminance b v * k.
Proof.
  intros b v w k V W.
  assert (EP : pointwise Rplus b v w = map (fun p => fst p + snd p) (combine v w)).
  { destruct b; cbn [entries] in V, W.
    - destruct (length3 v V) as (a1 & a2 & a3 & ->). destruct (length3 w W) as (b1 & b2 & b3 & ->). reflexivity.
    - destruct (length16 v V) as (? & ? & ? & ? & ? & ? & ? & ? & ? & ? & ? & ? & ? & ? & ? & ? & ->).
      destruct (length16 w W) as (? & ? & ? & ? & ? & ? & ? & ? & ? & ? & ? & ? & ? & ? & ? & ? & ->). reflexivity. }
  assert (EM : pointwise1 Rmult b v k = map (fun p => p * k) v).
  { destruct b; cbn [entries] in V.
    - destruct (length3 v V) as (a1 & a2 & a3 & ->). reflexivity.
    - destruct (length16 v V) as (? & ? & ? & ? & ? & ? & ? & ? & ? & ? & ? & ? & ? & ? & ? & ? & ->). reflexivity. }
  cbv zeta. rewrite !luminance_is_y.
  assert (S1 : to_xyz b (pointwise Rplus b v w) = mk_color (c_r (to_xyz b v) + c_r (to_xyz b w)) (c_g (to_xyz b v) + c_g (to_xyz b w)) (c_b (to_xyz b v) + c_b (to_xyz b w))).
  { destruct b; cbn [entries] in V, W.
    - destruct (length3 v V) as (a1 & a2 & a3 & ->). destruct (length3 w W) as (b1 & b2 & b3 & ->). reflexivity.
    - rewrite EP. unfold to_xyz. cbn [c_r c_g c_b]. assert (L : length v = length w) by congruence.
      pose proof (dot_plus table_x v w 0 0 L) as A. pose proof (dot_plus table_y v w 0 0 L) as B. pose proof (dot_plus table_z v w 0 0 L) as C.
      rewrite Rplus_0_l in A, B, C. rewrite A, B, C. f_equal; ring. }
  assert (M1 : to_xyz b (pointwise1 Rmult b v k) = mk_color (c_r (to_xyz b v) * k) (c_g (to_xyz b v) * k) (c_b (to_xyz b v) * k)).
  { destruct b; cbn [entries] in V.
    - destruct (length3 v V) as (a1 & a2 & a3 & ->). reflexivity.
    - rewrite EM. unfold to_xyz. cbn [c_r c_g c_b].
      pose proof (dot_scale table_x v k 0) as A. pose proof (dot_scale table_y v k 0) as B. pose proof (dot_scale table_z v k 0) as C.
      rewrite Rmult_0_l in A, B, C. rewrite A, B, C. f_equal; ring. }
  rewrite S1, M1. repeat split; reflexivity.
Qed.
Print Assumptions colour_is_linear.

Example colour_is_linear_ex : length (blackbody Spectral 6500) = entries Spectral /\ length (constant Spectral (1 / 2)) = entries Spectral.
Proof. split; [apply (blackbody_normalised 6500); lia | reflexivity]. Qed.

(* -- sRGB -- *)

(* C223.  A light of a colour given by bytes, seen directly, has that colour in the picture, or one step
   less in a channel because bytes are rounded down. *)
Theorem srgb_round_trip : forall surf lights light r g b, byte r -> byte g -> byte b ->
  let p := shown Xyz (of_rgb Xyz surf lights (rgb_of_bytes r g b) light) in
  (r - 1 <= channel_byte (c_r p) <= r)%Z /\ (g - 1 <= channel_byte (c_g p) <= g)%Z /\ (b - 1 <= channel_byte (c_b p) <= b)%Z.
Proof.
  intros surf lights light r g b R G B. cbv zeta. unfold shown, of_rgb, to_xyz. cbn [nth].
  assert (U : forall z, byte z -> 0 <= IZR z * (1 / 255) <= 1).
  { intros z (Z0 & Z1). apply IZR_le in Z0. apply IZR_le in Z1. cbn in Z0, Z1. lra. }
  unfold rgb_to_xyz, rgb_of_bytes, to_srgb, linear_srgb. cbn [c_r c_g c_b].
  pose proof (decode_unit _ (U r R)) as DR. pose proof (decode_unit _ (U g G)) as DG. pose proof (decode_unit _ (U b B)) as DB.
  pose proof (encode_decode (IZR r * (1 / 255))) as ER. pose proof (encode_decode (IZR g * (1 / 255))) as EG. pose proof (encode_decode (IZR b * (1 / 255))) as EB.
  set (x := decode (IZR r * (1 / 255))) in *. set (y := decode (IZR g * (1 / 255))) in *. set (z := decode (IZR b * (1 / 255))) in *. clearbody x y z.
  assert (K : forall u v n, byte n -> Rabs (encode u - IZR n * (1 / 255)) <= 1e-6 -> Rabs (v - u) <= 3e-7 -> (n - 1 <= channel_byte (encode v) <= n)%Z).
  { intros u v n N E1 E2. apply byte_near; [exact N |]. pose proof (encode_close v u _ E2) as E3.
    apply Rabs_le_inv in E1. apply Rabs_le_inv in E3. apply Rabs_le. lra. }
  split; [| split].
  - apply (K x); [exact R | exact ER |]. apply Rabs_le. lra.
  - apply (K y); [exact G | exact EG |]. apply Rabs_le. lra.
  - apply (K z); [exact B | exact EB |]. apply Rabs_le. lra.
Qed.
Print Assumptions srgb_round_trip.

Example srgb_round_trip_ex : byte 255 /\ byte 12 /\ byte 0.
Proof. unfold byte. lia. Qed.

(* C224.  Brighter light never gives a smaller byte, although the two branches of the transfer function
   overlap by a little. *)
Theorem srgb_byte_monotone : forall v w, v <= w -> (channel_byte (encode v) <= channel_byte (encode w))%Z.
Proof.
  intros v w H. pose proof threshold_power as TP. unfold encode at 1 2.
  destruct (Rgt_dec v 0.0031308) as [A | A], (Rgt_dec w 0.0031308) as [B | B]; try lra.
  - apply byte_mono. apply (upper_mono v w); lra.
  - apply Z.le_trans with (channel_byte (0.0031308 * 12.92)); [apply byte_mono; lra |].
    assert (E : channel_byte (0.0031308 * 12.92) = 10%Z) by (apply byte_of; [unfold byte; lia |]; rewrite Rmax_right by lra; lra).
    rewrite E. pose proof (upper_mono 0.0031308 w ltac:(lra) ltac:(lra)) as M. unfold upper in M at 1. fold (upper w).
    assert (E' : channel_byte 0.0404 = 10%Z) by (apply byte_of; [unfold byte; lia |]; rewrite Rmax_right by lra; lra).
    rewrite <- E'. apply byte_mono. lra.
  - apply byte_mono. lra.
Qed.
Print Assumptions srgb_byte_monotone.

(* the function itself is not monotone: just above the threshold it is lower than at the threshold *)
Theorem srgb_encode_dip : exists v w, v < w /\ encode w < encode v.
Proof.
  exists 0.0031308, 0.0031308001. split; [lra |]. unfold encode.
  destruct (Rgt_dec 0.0031308 0.0031308) as [A | A]; [lra |]. destruct (Rgt_dec 0.0031308001 0.0031308) as [B | B]; [| lra].
  assert (P : Rpower 0.0031308001 (1 / 2.4) < 0.09047387) by (apply power_below; [lra | lra | cbn [pow]; lra]). lra.
Qed.
Print Assumptions srgb_encode_dip.

(* -- white surfaces -- *)

Lemma list3 : forall a b c a' b' c' : R, a = a' -> b = b' -> c = c' -> [a; b; c] = [a'; b'; c'].
Proof. intros; subst; reflexivity. Qed.

(* the spectrum of a surface of colour 255 255 255 *)
Lemma white_xyz : forall surf lights light, of_rgb Xyz surf lights (rgb_of_bytes 255 255 255) light = [0.95047; 1.0000001; 1.08883].
Proof.
  intros. unfold of_rgb, rgb_to_xyz, rgb_of_bytes. cbn [c_r c_g c_b].
  assert (D : decode (255 * (1 / 255)) = 1).
  { unfold decode. destruct (Rgt_dec (255 * (1 / 255)) 0.04045) as [A | A]; [| lra].
    replace ((255 * (1 / 255) + 0.055) / 1.055) with 1 by lra. unfold Rpower. rewrite ln_1, Rmult_0_r, exp_0. reflexivity. }
  rewrite D. apply list3; lra.
Qed.

(* C225.  In spectre-rgb a white surface reflects more than it receives: every reflection multiplies the
   third component by 1.08883, so n of them by its n-th power. *)
Theorem white_wall_gain_refuted : forall surf lights n x y z, 0 < z ->
  let white := of_rgb Xyz surf lights (rgb_of_bytes 255 255 255) false in
  c_b (to_xyz Xyz (bounces Xyz n white [x; y; z])) = 1.08883 ^ n * z /\
  c_b (to_xyz Xyz (bounces Xyz n white [x; y; z])) < c_b (to_xyz Xyz (bounces Xyz (Datatypes.S n) white [x; y; z])).
Proof.
  intros surf lights n x y z Z white. unfold white. rewrite white_xyz.
  assert (E : forall n, bounces Xyz n [0.95047; 1.0000001; 1.08883] [x; y; z] = [0.95047 ^ n * x; 1.0000001 ^ n * y; 1.08883 ^ n * z]).
  { clear n. induction n as [| n IH]; cbn [bounces pow]; [apply list3; lra |]. rewrite IH. unfold pointwise. cbn [entries seq map nth]. apply list3; ring. }
  rewrite !E. cbn [to_xyz c_b nth]. split; [reflexivity |].
  cbn [pow]. assert (0 < 1.08883 ^ n) by (apply pow_lt; lra). nra.
Qed.
Print Assumptions white_wall_gain_refuted.

(* C226.  In spectre-rgb white light on white walls is not grey: from the first reflection on, red is
   behind green and blue by a fifth of full intensity or more. *)
Theorem white_wall_tint_refuted : forall surf lights n, (0 < n)%nat ->
  let white := of_rgb Xyz surf lights (rgb_of_bytes 255 255 255) in
  let p := linear_srgb (to_xyz Xyz (bounces Xyz n (white false) (white true))) in
  c_r p + 0.2 < c_g p /\ c_r p + 0.2 < c_b p.
Proof.
  intros surf lights n N white. unfold white. rewrite !white_xyz.
  assert (E : forall n, bounces Xyz n [0.95047; 1.0000001; 1.08883] [0.95047; 1.0000001; 1.08883] = [0.95047 ^ Datatypes.S n; 1.0000001 ^ Datatypes.S n; 1.08883 ^ Datatypes.S n]).
  { clear n N. induction n as [| n IH]; cbn [bounces pow]; [apply list3; lra |]. rewrite IH. unfold pointwise. cbn [entries seq map nth pow]. apply list3; ring. }
  rewrite E. unfold linear_srgb, to_xyz. cbn [c_r c_g c_b nth].
  assert (X : 0 <= 0.95047 ^ Datatypes.S n <= 0.95047 ^ 2).
  { destruct n as [| n]; [lia |]. change (Datatypes.S (Datatypes.S n)) with (2 + n)%nat. rewrite pow_add.
    assert (0 <= 0.95047 ^ n <= 1) by (split; [apply pow_le; lra | rewrite <- (pow1 n); apply pow_incr; lra]).
    cbn [pow]. lra. }
  assert (G : forall q, 1 <= q -> q ^ 2 <= q ^ Datatypes.S n) by (intros q Q; apply Rle_pow; [exact Q | lia]).
  pose proof (G 1.0000001 ltac:(lra)) as Y. pose proof (G 1.08883 ltac:(lra)) as Z. 
  set (x := 0.95047 ^ Datatypes.S n) in *. set (y := 1.0000001 ^ Datatypes.S n) in *. set (z := 1.08883 ^ Datatypes.S n) in *. clearbody x y z.
  cbn [pow] in X, Y, Z. lra.
Qed.
Print Assumptions white_wall_tint_refuted.

Lemma clamp_unit : forall v, 0 <= clamp v 0 1 <= 1.
Proof. intro v. unfold clamp. destruct (Rlt_dec v 0); [lra |]. destruct (Rgt_dec v 1); lra. Qed.

Lemma of_rgb_spectral : forall surf lights c light, exists w, of_rgb Spectral surf lights c light = map (fun v => clamp v 0 1) w /\ length w = 16%nat.
Proof. intros. eexists. split; [reflexivity |]. reflexivity. Qed.

(* C227.  In spectre-full a surface of any colour, whatever the tables, reflects at most what it
   receives, sample by sample, after any number of reflections. *)
Theorem spectral_surface_safe : forall surf lights c n light i, (forall i, 0 <= nth i light 0) -> length light = 16%nat ->
  let s := of_rgb Spectral surf lights c false in
  0 <= nth i (bounces Spectral (Datatypes.S n) s light) 0 <= nth i (bounces Spectral n s light) 0.
Proof.
  intros surf lights c n light i P L s. destruct (of_rgb_spectral surf lights c false) as (w & E & LW). unfold s. rewrite E. clear E s.
  set (s := map _ w).
  assert (SU : forall j, (j < 16)%nat -> 0 <= nth j s 0 <= 1).
  { intros j J. unfold s. rewrite nth_indep with (d' := clamp 0 0 1) by (rewrite map_length; lia).
    change (clamp 0 0 1) with ((fun v => clamp v 0 1) 0). rewrite map_nth. apply clamp_unit. }
  assert (PN : forall v w j, nth j (pointwise Rmult Spectral v w) 0 = if (j <? 16)%nat then nth j v 0 * nth j w 0 else 0).
  { intros v u j. unfold pointwise. cbn [entries]. destruct (Nat.ltb_spec j 16).
    - rewrite nth_indep with (d' := (fun i => nth i v 0 * nth i u 0) O) by (rewrite map_length, seq_length; lia).
      rewrite (map_nth (fun i => nth i v 0 * nth i u 0)), seq_nth by lia. reflexivity.
    - apply nth_overflow. rewrite map_length, seq_length. lia. }
  assert (B : forall n j, 0 <= nth j (bounces Spectral n s light) 0).
  { induction n0 as [| m IH]; intro j; cbn [bounces]; [apply P |]. rewrite PN. destruct (Nat.ltb_spec j 16); [| lra].
    apply Rmult_le_pos; [apply SU; lia | apply IH]. }
  split; [apply B |]. cbn [bounces]. rewrite PN. destruct (Nat.ltb_spec i 16) as [I | I]; [| apply B].
  pose proof (SU i I). pose proof (B n i). nra.
Qed.
Print Assumptions spectral_surface_safe.

Example spectral_surface_safe_ex : (forall i, 0 <= nth i (blackbody Spectral 3000) 0) /\ length (blackbody Spectral 3000) = 16%nat.
Proof.
  destruct (blackbody_normalised 3000 ltac:(lia)) as (L & P & _). split; [| exact L]. intro i. destruct (Nat.ltb_spec i 16) as [I | I].
  - destruct (P (nth i (blackbody Spectral 3000) 0)) as (A & _); [apply nth_In; lia | lra].
  - rewrite nth_overflow by lia. lra.
Qed.

(* C228.  The spectrum of a colour is the same symmetric mixture whichever branch is taken: the order of
   equal channels does not matter. *)
Theorem rgb_mixture : forall surf lights r g b light i, (i < 16)%nat ->
  nth i (of_rgb Spectral surf lights (mk_color r g b) light) 0 =
  Rmax 0 (Rmin 1 (mixture (if light then lights else surf) r g b i * (if light then 0.86445 else 0.94))).
Proof.
  intros surf lights r g b light i I. unfold of_rgb. set (t := if light then lights else surf). set (k := if light then 0.86445 else 0.94).
  cbn [c_r c_g c_b].
  assert (PP : forall v w, nth i (pointwise Rplus Spectral v w) 0 = nth i v 0 + nth i w 0).
  { intros v w. unfold pointwise. cbn [entries].
    rewrite nth_indep with (d' := (fun i => nth i v 0 + nth i w 0) O) by (rewrite map_length, seq_length; lia).
    rewrite (map_nth (fun i => nth i v 0 + nth i w 0)), seq_nth by lia. reflexivity. }
  assert (PM : forall v q, nth i (pointwise1 Rmult Spectral v q) 0 = nth i v 0 * q).
  { intros v q. unfold pointwise1. cbn [entries].
    rewrite nth_indep with (d' := (fun i => nth i v 0 * q) O) by (rewrite map_length, seq_length; lia).
    rewrite (map_nth (fun i => nth i v 0 * q)), seq_nth by lia. reflexivity. }
  assert (CN : nth i (constant Spectral 0) 0 = 0) by (unfold constant; apply nth_repeat).
  match goal with |- nth i (map _ (pointwise1 Rmult Spectral ?W k)) 0 = _ => set (w := W) end.
  rewrite nth_indep with (d' := clamp 0 0 1) by (rewrite map_length; unfold pointwise1; rewrite map_length, seq_length; exact I).
  rewrite (map_nth (fun v => clamp v 0 1)). rewrite PM.
  assert (E : nth i w 0 = mixture t r g b i).
  { unfold w, mixture, least. clear w.
    destruct (Rle_dec r g) as [RG | RG], (Rle_dec r b) as [RB | RB], (Rle_dec g b) as [GB | GB], (Rle_dec g r) as [GR | GR]; cbv iota; try lra;
      repeat rewrite ?PP, ?PM, ?CN;
      repeat match goal with
      | |- context [Rmin ?x ?y] => first [rewrite (Rmin_left x y) by lra | rewrite (Rmin_right x y) by lra]
      | |- context [Rmax ?x ?y] => first [rewrite (Rmax_left x y) by lra | rewrite (Rmax_right x y) by lra]
      end; try ring; assert (EQ : g = r) by lra; rewrite EQ; ring. }
  rewrite E. unfold clamp, Rmax, Rmin. set (m := mixture t r g b i * k). clearbody m.
  destruct (Rlt_dec m 0); destruct (Rgt_dec m 1); destruct (Rle_dec 1 m); destruct (Rle_dec 0 _); lra.
Qed.
Print Assumptions rgb_mixture.

(* -- spectra given by samples -- *)

(* C229.  In spectre-rgb a spectrum given by its samples is shown with red and blue exchanged: one that has
   only the five samples from 400 to 480 nm is shown more red than blue; spectre-full shows it more blue
   than red. *)
Theorem samples_colour_refuted : forall a b c d e w, 0 <= a -> 0 <= b -> 0 <= c -> 0 <= d -> 0 <= e -> 0 < a + b + c + d + e ->
  let samples := [a; b; c; d; e] ++ repeat 0 11 in
  of_samples Xyz samples = Some w ->
  c_b (linear_srgb (to_xyz Xyz w)) < c_r (linear_srgb (to_xyz Xyz w)) /\
  exists w', of_samples Spectral samples = Some w' /\ c_r (linear_srgb (to_xyz Spectral w')) < c_b (linear_srgb (to_xyz Spectral w')).
Proof.
  intros a b c d e w A B C D E P samples H. unfold samples in *. cbn in H. injection H as <-. split.
  - unfold to_xyz, linear_srgb. cbn [nth c_r c_g c_b]. lra.
  - eexists. split; [reflexivity |]. unfold to_xyz, linear_srgb, table_x, table_y, table_z, invy_sum. cbn [app repeat dot c_r c_g c_b]. lra.
Qed.
Print Assumptions samples_colour_refuted.

(* metals.hpp:146-180 *)
Definition gold_n : list R := [1.4621288776397705; 1.4438605308532715; 1.3831228017807007; 1.3007173538208008; 1.1025912761688232; 0.80312025547027588; 0.55778276920318604; 0.42910495400428772; 0.34056714177131653; 0.27199321985244751; 0.2258477509021759; 0.18836064636707306; 0.15558262169361115; 0.13766665756702423; 0.13322222232818604; 0.13127875328063965].
Definition gold_k : list R := [1.9556787014007568; 1.9458420276641846; 1.9123861789703369; 1.8580939769744873; 1.8412964344024658; 1.9728720188140869; 2.2039384841918945; 2.4696044921875; 2.7156329154968262; 2.9560720920562744; 3.1913807392120361; 3.4033818244934082; 3.6024391651153564; 3.7917332649230957; 3.9721779823303223; 4.1496315002441406].

Lemma frac_bounds : forall a b lo hi, 0 < b -> lo * b <= a -> a <= hi * b -> lo <= a / b <= hi.
Proof.
  intros a b lo hi B L H. split; apply Rmult_le_reg_r with b; try exact B; unfold Rdiv; rewrite ?Rmult_assoc, Rinv_l, ?Rmult_1_r by lra; lra.
Qed.

Lemma normal_incidence : forall eta k e0 e1 k0 k1 lo hi, 0 < e0 <= eta -> eta <= e1 -> 0 < k0 <= k -> k <= k1 -> 0 < lo < 1 -> 0 < hi < 1 ->
  2 * e1 * (1 + lo) <= (1 - lo) * (e0 * e0 + k0 * k0 + 1) -> (1 - hi) * (e1 * e1 + k1 * k1 + 1) <= 2 * e0 * (1 + hi) ->
  lo <= conductor_eval eta k 1 <= hi.
Proof.
  intros eta k e0 e1 k0 k1 lo hi (E0 & E1) E2 (K0 & K1) K2 (L0 & L1) (H0 & H1) L H.
  assert (EQ : conductor_eval eta k 1 = (eta * eta + k * k - eta * 2 + 1) / (eta * eta + k * k + eta * 2 + 1)).
  { unfold conductor_eval. field. nra. }
  assert (A : e0 * e0 <= eta * eta) by (apply Rmult_le_compat; lra). assert (A' : eta * eta <= e1 * e1) by (apply Rmult_le_compat; lra).
  assert (B : k0 * k0 <= k * k) by (apply Rmult_le_compat; lra). assert (B' : k * k <= k1 * k1) by (apply Rmult_le_compat; lra).
  rewrite EQ. set (a := eta * eta) in *. set (b := k * k) in *. clearbody a b.
  assert (C : (1 - lo) * (e0 * e0 + k0 * k0 + 1) <= (1 - lo) * (a + b + 1)) by (apply Rmult_le_compat_l; lra).
  assert (C' : (1 - hi) * (a + b + 1) <= (1 - hi) * (e1 * e1 + k1 * k1 + 1)) by (apply Rmult_le_compat_l; lra).
  assert (D : 2 * eta * (1 + lo) <= 2 * e1 * (1 + lo)) by (apply Rmult_le_compat_r; lra).
  assert (D' : 2 * e0 * (1 + hi) <= 2 * eta * (1 + hi)) by (apply Rmult_le_compat_r; lra).
  assert (0 < e0 * e0) by (apply Rmult_lt_0_compat; lra). assert (0 < k0 * k0) by (apply Rmult_lt_0_compat; lra).
  apply frac_bounds; lra.
Qed.

Lemma xyz16 : forall a0 a1 a2 a3 a4 a5 a6 a7 a8 a9 a10 a11 a12 a13 a14 a15, of_samples Xyz [a0; a1; a2; a3; a4; a5; a6; a7; a8; a9; a10; a11; a12; a13; a14; a15] = Some [(0 + a0 + a1 + a2 + a3 + a4) / 5; (0 + a5 + a6 + a7 + a8 + a9 + a10) / 6; (0 + a11 + a12 + a13 + a14 + a15) / 5].
Proof. reflexivity. Qed.

(* gold under light of equal components, seen from above, has no red at all and is green and blue *)
Example gold_is_cyan : exists n k, of_samples Xyz gold_n = Some n /\ of_samples Xyz gold_k = Some k /\
  let refl := map (fun i => conductor_eval (nth i n 0) (nth i k 0) 1) (seq 0 3) in
  let p := linear_srgb (to_xyz Xyz refl) in c_r p < 0 /\ 0.8 < c_b p /\ 1.1 < c_g p.
Proof.
  eexists. eexists. split; [exact (xyz16 _ _ _ _ _ _ _ _ _ _ _ _ _ _ _ _) |]. split; [exact (xyz16 _ _ _ _ _ _ _ _ _ _ _ _ _ _ _ _) |]. cbv zeta. unfold to_xyz, linear_srgb. cbn [seq map nth c_r c_g c_b].
  match goal with |- context [conductor_eval ?n ?k 1 * 3.2404542] => assert (XB : 0.41 <= conductor_eval n k 1 <= 0.412) by (apply (normal_incidence n k 1.3384 1.3385 1.9026 1.9027); lra); set (x := conductor_eval n k 1) in *; clearbody x end.
  match goal with |- context [conductor_eval ?n ?k 1 * -1.5371385] => assert (YB : 0.799 <= conductor_eval n k 1 <= 0.801) by (apply (normal_incidence n k 0.4380 0.4381 2.5849 2.5850); lra); set (y := conductor_eval n k 1) in *; clearbody y end.
  match goal with |- context [conductor_eval ?n ?k 1] => assert (ZB : 0.961 <= conductor_eval n k 1 <= 0.963) by (apply (normal_incidence n k 0.1492 0.1493 3.7838 3.7839); lra); set (z := conductor_eval n k 1) in *; clearbody z end.
  lra.
Qed.

(* -- indices of refraction -- *)

Lemma sixteen : forall f : R -> R, length (per_wavelength Spectral f) = 16%nat.
Proof. reflexivity. Qed.

(* C230.  Both programs refract alike: they keep the same index for the same coefficients. *)
Theorem same_index : forall B C D B1 B2 B3 C1 C2 C3,
  kept_index Xyz (cauchy Xyz B C D) = kept_index Spectral (cauchy Spectral B C D) /\
  kept_index Xyz (sellmeier Xyz B1 B2 B3 C1 C2 C3) = kept_index Spectral (sellmeier Spectral B1 B2 B3 C1 C2 C3).
Proof.
  assert (G : forall f, kept_index Xyz (per_wavelength Xyz f) = kept_index Spectral (per_wavelength Spectral f)) by (intro f; reflexivity).
  intros. split; apply G.
Qed.
Print Assumptions same_index.

Lemma micrometres_at : forall i, micrometres i = 0.4 + 0.02 * INR i.
Proof. induction i as [| i IH]; [cbn; lra |]. rewrite S_INR. cbn [micrometres]. rewrite IH. lra. Qed.

(* C231.  Spectre-full does not disperse light: a material with any coefficients refracts like one without
   dispersion, although its indices at the ends of the spectrum differ. *)
Theorem dispersion_refuted : forall B C D, 0 < C -> 0 <= D ->
  exists B', kept_index Spectral (cauchy Spectral B C D) = kept_index Spectral (cauchy Spectral B' 0 0) /\
  nth 15 (cauchy Spectral B C D) 0 < nth 0 (cauchy Spectral B C D) 0 /\
  nth 15 (cauchy Spectral B' 0 0) 0 = nth 0 (cauchy Spectral B' 0 0) 0.
Proof.
  intros B C D HC HD. exists (kept_index Spectral (cauchy Spectral B C D)). set (m := kept_index _ _).
  assert (Z : forall wl : R, m + 0 / (wl * wl) + 0 / wl ^ 4 = m) by (intro; unfold Rdiv; rewrite !Rmult_0_l; lra).
  split; [| split].
  - unfold cauchy, per_wavelength, kept_index. cbn [seq map firstn fold_left]. rewrite !Z. lra.
  - unfold cauchy, per_wavelength. cbn [seq map nth]. rewrite !micrometres_at.
    replace (0.4 + 0.02 * INR 15) with 0.7 by (cbn [INR]; lra). replace (0.4 + 0.02 * INR 0) with 0.4 by (cbn [INR]; lra). cbn [pow].
    unfold Rdiv. assert (/ (0.7 * 0.7) < / (0.4 * 0.4)) by (apply Rinv_lt_contravar; lra).
    assert (/ (0.7 * (0.7 * (0.7 * (0.7 * 1)))) < / (0.4 * (0.4 * (0.4 * (0.4 * 1))))) by (apply Rinv_lt_contravar; lra). nra.
  - unfold cauchy, per_wavelength. cbn [seq map nth]. rewrite !Z. reflexivity.
Qed.
Print Assumptions dispersion_refuted.

(* The air outside of glass has index one: cauchy(1, 0). *)
Theorem air_index : forall b, kept_index b (cauchy b 1 0 0) = 1.
Proof.
  assert (Z : forall wl : R, 1 + 0 / (wl * wl) + 0 / wl ^ 4 = 1) by (intro; unfold Rdiv; rewrite !Rmult_0_l; lra).
  intros [|]; unfold cauchy, per_wavelength, kept_index, constant; cbn [seq map firstn fold_left entries repeat nth]; rewrite !Z; lra.
Qed.
Print Assumptions air_index.

(* C307.  The index by the Sellmeier equation does not depend on the order of its terms; with resonances
   below the visible wavelengths it is at least 1 and falls with the wavelength. *)
Theorem sellmeier_index : forall B1 B2 B3 C1 C2 C3,
  (forall b, sellmeier b B1 B2 B3 C1 C2 C3 = sellmeier b B2 B1 B3 C2 C1 C3 /\
             sellmeier b B1 B2 B3 C1 C2 C3 = sellmeier b B3 B2 B1 C3 C2 C1) /\
  (0 <= B1 -> 0 <= B2 -> 0 <= B3 -> 0 <= C1 < 0.16 -> 0 <= C2 < 0.16 -> 0 <= C3 < 0.16 ->
   forall i j, (i < j < 16)%nat ->
   let w := sellmeier Spectral B1 B2 B3 C1 C2 C3 in
   1 <= nth j w 0 <= nth i w 0 /\ (0 < B1 -> 0 < C1 -> nth j w 0 < nth i w 0)).
Proof.
  intros B1 B2 B3 C1 C2 C3; split.
  - intro b; assert (M : forall f g, (forall x, f x = g x) -> per_wavelength b f = per_wavelength b g).
    { intros f g E; unfold per_wavelength; rewrite (map_ext (fun i => f (micrometres i)) (fun i => g (micrometres i))) by (intro; apply E); reflexivity. }
    split; apply M; intro x; cbv zeta; f_equal; ring.
  - intros P1 P2 P3 Q1 Q2 Q3 i j [IJ J] w.
    assert (N : forall k, (k < 16)%nat -> nth k w 0 = let x := micrometres k * micrometres k in
      sqrt (1 + B1 * x / (x - C1) + B2 * x / (x - C2) + B3 * x / (x - C3))).
    { intros k K; unfold w, sellmeier, per_wavelength; cbv zeta.
      set (f := fun i => _); rewrite (nth_indep _ 0 (f 0%nat)) by (rewrite map_length, seq_length; exact K).
      rewrite map_nth, seq_nth by exact K; reflexivity. }
    rewrite (N i), (N j) by lia; cbv zeta.
    assert (MI : 0.4 <= micrometres i) by (rewrite micrometres_at; pose proof (pos_INR i); lra).
    assert (MJ : micrometres i < micrometres j) by (rewrite !micrometres_at; apply lt_INR in IJ; lra).
    set (a := micrometres i * micrometres i); set (c := micrometres j * micrometres j).
    assert (A : 0.16 <= a) by (unfold a; nra); assert (AC : a < c) by (unfold a, c; nra).
    assert (T : forall B C, 0 <= B -> 0 <= C < 0.16 -> 0 <= B * c / (c - C) <= B * a / (a - C) /\ (0 < B -> 0 < C -> B * c / (c - C) < B * a / (a - C))).
    { intros B C PB QC; assert (E : B * a / (a - C) - B * c / (c - C) = B * C * (c - a) * / ((a - C) * (c - C))) by (field; lra).
      assert (I : 0 < / ((a - C) * (c - C))) by (apply Rinv_0_lt_compat, Rmult_lt_0_compat; lra).
      assert (I2 : 0 < / (c - C)) by (apply Rinv_0_lt_compat; lra).
      assert (Z : 0 <= B * C * (c - a)) by (apply Rmult_le_pos; [apply Rmult_le_pos; lra | lra]).
      split; [split |].
      - unfold Rdiv; apply Rmult_le_pos; [apply Rmult_le_pos; lra | lra].
      - pose proof (Rmult_le_pos _ _ Z (Rlt_le _ _ I)); lra.
      - intros PB' PC; assert (Z' : 0 < B * C * (c - a)) by (apply Rmult_lt_0_compat; [apply Rmult_lt_0_compat; lra | lra]).
        pose proof (Rmult_lt_0_compat _ _ Z' I); lra. }
    destruct (T B1 C1 P1 Q1) as [T1 S1]; destruct (T B2 C2 P2 Q2) as [T2 _]; destruct (T B3 C3 P3 Q3) as [T3 _].
    split; [split |].
    + rewrite <- sqrt_1 at 1; apply sqrt_le_1; lra.
    + apply sqrt_le_1; lra.
    + intros Z1 Z2; specialize (S1 Z1 Z2); apply sqrt_lt_1; lra.
Qed.
Print Assumptions sellmeier_index.
(* three resonances in the ultraviolet *)
Example sellmeier_index_ex : let w := sellmeier Spectral 1.03961212 0.231792344 1.01046945 0.00600069867 0.0200179144 0.10 in
  1 <= nth 15 w 0 < nth 0 w 0.
Proof.
  cbv zeta; destruct (sellmeier_index 1.03961212 0.231792344 1.01046945 0.00600069867 0.0200179144 0.10) as [_ H].
  destruct (H ltac:(lra) ltac:(lra) ltac:(lra) ltac:(lra) ltac:(lra) ltac:(lra) 0%nat 15%nat ltac:(lia)) as [[L _] S]; split; [exact L | apply S; lra].
Qed.
