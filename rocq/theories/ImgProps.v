(* C32, C82-C95: textures. *)
From Coq Require Import QArith Qround Qminmax Qabs Lqa.
From Verif Require Import Common Array2DModel ImgModel ImgSpec ImgProofs.
Local Open Scope N_scope.

(* a texture in memory with its pictures, as the constructor builds it *)
Definition texture_of (values : list texel) (side : N) (m : mipmap) : Prop :=
  1 <= side /\ side <= 2 ^ 15 /\ side * side <= N.of_nat (length values) /\ image_map values side = Ok m.

(* C32.  The levels halve down to one texel and each is the mean of the one before. *)
Theorem mip_levels : forall values side, 1 <= side -> side <= 2 ^ 15 -> side * side <= N.of_nat (length values) ->
  exists m pics, image_map values side = Ok m /\ length m = S (N.to_nat (N.log2 side)) /\
    (forall x y, x < side -> y < side -> pics O x y = picture_of values side x y) /\
    (forall i, halves (pics i) (pics (S i))) /\
    (forall i, (i < length m)%nat -> exists l, nth_error m i = Some l /\ shows l (side / 2 ^ N.of_nat i) (pics i)) /\
    side / 2 ^ (N.of_nat (length m) - 1) = 1.
Proof.
  intros values side L S V; destruct (image_map_ok values side L S V) as (m & E & Lm & H).
  exists m, (fun i => Nat.iter i halve (picture_of (firstn (N.to_nat (side * side)) values) side)).
  split; [exact E | split; [exact Lm | split; [| split; [| split; [exact H |]]]]].
  - intros x y X Y; apply picture_firstn; assumption.
  - intro i; apply halve_halves.
  - rewrite Lm; replace (N.of_nat (Datatypes.S (N.to_nat (N.log2 side))) - 1) with (N.log2 side) by lia.
    apply last_side, L.
Qed.
Print Assumptions mip_levels.
Example mip_levels_ex : 1 <= 2 /\ 2 <= 2 ^ 15 /\
  2 * 2 <= N.of_nat (length [mk_texel 0 1 2 3; mk_texel 4 5 6 7; mk_texel 8 9 10 11; mk_texel 12 13 14 255]).
Proof. vm_compute; intuition discriminate. Qed.

Lemma texture_levels : forall values side m, texture_of values side m ->
  exists pics, length m = S (N.to_nat (N.log2 side)) /\
    (forall x y, x < side -> y < side -> pics O x y = picture_of values side x y) /\
    (forall i, (i < length m)%nat -> exists l, nth_error m i = Some l /\ shows l (side / 2 ^ N.of_nat i) (pics i)) /\
    (forall i lo hi, within (picture_of values side) side lo hi -> within (pics i) (side / 2 ^ N.of_nat i) lo hi).
Proof.
  intros values side m (L & S & V & E); destruct (image_map_ok values side L S V) as (m' & E' & Lm & H).
  assert (m' = m) by congruence; subst m'.
  exists (fun i => Nat.iter i halve (picture_of (firstn (N.to_nat (side * side)) values) side)).
  split; [exact Lm | split; [| split; [exact H |]]].
  - intros x y X Y; apply picture_firstn; assumption.
  - intros i lo hi W; apply iter_within; intros c C x y X Y; rewrite picture_firstn by assumption; apply W; assumption.
Qed.

Lemma level_at_nth : forall m i l, nth_error m i = Some l -> level_at m (Z.of_nat i) = Ok l.
Proof.
  intros m i l H; unfold level_at; replace (Z.of_nat i <? 0)%Z with false by lia; rewrite Nat2Z.id, H; reflexivity.
Qed.

(* C32.  No level leaves the range of the image; in particular a constant image has
   constant levels. *)
Theorem mip_within : forall values side m lo hi i l x y c, texture_of values side m ->
  within (picture_of values side) side lo hi -> nth_error m i = Some l -> x < l_side l -> y < l_side l -> channel c ->
  exists t, fetch l (Z.of_N x) (Z.of_N y) = Ok t /\ lo <= c t <= hi.
Proof.
  intros values side m lo hi i l x y c T W N X Y C.
  destruct (texture_levels _ _ _ T) as (pics & Lm & _ & H & WI).
  assert (I : (i < length m)%nat) by (apply nth_error_Some; congruence).
  destruct (H i I) as (l' & N' & SL & SF); assert (l' = l) by congruence; subst l'.
  rewrite SL in X, Y; exists (pics i x y); split; [apply SF; assumption |].
  apply (WI i lo hi W); assumption.
Qed.
Print Assumptions mip_within.
Example mip_within_ex : within (picture_of (repeat (mk_texel 7 7 7 7) 16) 4) 4 7 7.
Proof.
  intros c C x y X Y; unfold picture_of.
  assert (E : nth (N.to_nat (y * 4 + x)) (repeat (mk_texel 7 7 7 7) 16) (mk_texel 0 0 0 0) = mk_texel 7 7 7 7).
  { rewrite (nth_indep _ _ (mk_texel 7 7 7 7)) by (rewrite repeat_length; lia); apply nth_repeat. }
  rewrite E; destruct C as [-> | [-> | [-> | ->]]]; cbn; lia.
Qed.

Lemma first_level : forall values side m, texture_of values side m ->
  exists l f, level_at m 0 = Ok l /\ shows l side f /\ forall x y, x < side -> y < side -> f x y = picture_of values side x y.
Proof.
  intros values side m T; destruct (texture_levels _ _ _ T) as (pics & Lm & P0 & H & _).
  destruct (H O ltac:(lia)) as (l & N & SH); change (2 ^ N.of_nat 0) with 1 in SH; rewrite N.div_1_r in SH.
  exists l, (pics O); split; [exact (level_at_nth m O l N) | split; [exact SH | exact P0]].
Qed.

(* C82.  The unfiltered lookup of a coordinate in [0,1] reads inside the texture: the
   texel whose column and row are the coordinates less half a texel, rounded down, or the
   first. *)
Theorem unfiltered_texel : forall values side m u v, texture_of values side m ->
  (0 <= u)%Q -> (u <= 1)%Q -> (0 <= v)%Q -> (v <= 1)%Q ->
  exists x y, x < side /\ y < side /\ unfiltered m u v = Ok (picture_of values side x y) /\
    ((u * qN side < (1 # 2))%Q -> x = 0) /\
    ((1 # 2) <= u * qN side -> qN x <= place side u /\ place side u < qN x + 1)%Q /\
    ((v * qN side < (1 # 2))%Q -> y = 0) /\
    ((1 # 2) <= v * qN side -> qN y <= place side v /\ place side v < qN y + 1)%Q.
Proof.
  intros values side m u v T U0 U1 V0 V1; pose proof T as (L & S & _).
  destruct (first_level _ _ _ T) as (l & f & EL & (SL & SF) & P0).
  destruct (coord side u L S U0 U1) as (x & _ & EX & X & _ & AX & BX).
  destruct (coord side v L S V0 V1) as (y & _ & EY & Y & _ & AY & BY).
  exists x, y; split; [exact X | split; [exact Y | split; [| split; [exact BX | split; [exact AX | split; [exact BY | exact AY]]]]]].
  - unfold unfiltered; rewrite EL; cbn [bind]; rewrite SL, EX; cbn [bind]; rewrite EY; cbn [bind].
    rewrite SF by assumption; rewrite P0 by assumption; reflexivity.
Qed.
Print Assumptions unfiltered_texel.

(* a 2 x 2 texture used in the examples *)
Definition checker : list texel := [mk_texel 255 0 0 0; mk_texel 255 200 200 200; mk_texel 255 100 100 100; mk_texel 255 50 50 50].
Lemma checker_texture : exists m, texture_of checker 2 m.
Proof.
  destruct (image_map_ok checker 2 ltac:(lia) ltac:(vm_compute; discriminate) ltac:(vm_compute; discriminate)) as (m & E & _).
  exists m; split; [lia | split; [vm_compute; discriminate | split; [vm_compute; discriminate | exact E]]].
Qed.
Example unfiltered_texel_ex : (exists m, texture_of checker 2 m) /\ (0 <= 3 # 4)%Q /\ ((3 # 4) <= 1)%Q.
Proof. split; [exact checker_texture | lra]. Qed.

(* C83.  In the first half of every column but the first, the unfiltered lookup returns the
   texel before the one that covers the coordinate. *)
Theorem unfiltered_nearest_refuted : forall values side m k u v y, texture_of values side m ->
  1 <= k < side -> covers side k u -> (u * qN side < qN k + (1 # 2))%Q ->
  y < side -> (place side v == qN y)%Q ->
  unfiltered m u v = Ok (picture_of values side (k - 1) y).
Proof.
  intros values side m k u v y T K (C0 & C1) C2 Y EV; pose proof T as (L & S & _).
  assert (SQ : (1 <= qN side)%Q) by (change 1%Q with (qN 1); apply qN_le, L).
  assert (KQ : (1 <= qN k)%Q) by (change 1%Q with (qN 1); apply qN_le; lia).
  assert (KS : (qN k + 1 <= qN side)%Q).
  { unfold qN; change 1%Q with (inject_Z 1); rewrite <- inject_Z_plus; apply inject_le; lia. }
  assert (YS : (qN y + 1 <= qN side)%Q).
  { unfold qN; change 1%Q with (inject_Z 1); rewrite <- inject_Z_plus; apply inject_le; lia. }
  pose proof (qN_pos y) as YP.
  assert (B : forall w, (0 <= w * qN side)%Q -> (w * qN side <= qN side)%Q -> (0 <= w)%Q /\ (w <= 1)%Q).
  { intros w W0 W1; split.
    - apply (Qmult_le_r 0 w (qN side)); lra.
    - apply (Qmult_le_r w 1 (qN side)); lra. }
  unfold place in EV.
  destruct (B u) as [U0 U1]; [lra | lra |]; destruct (B v) as [V0 V1]; [lra | lra |].
  destruct (unfiltered_texel values side m u v T U0 U1 V0 V1) as (x' & y' & X' & Y' & E & _ & PX & _ & PY).
  specialize (PX ltac:(lra)); specialize (PY ltac:(lra)); unfold place in PX, PY.
  assert (EX : x' = k - 1).
  { assert (A : (qN x' < qN k)%Q) by lra; assert (A' : (qN k < qN x' + 2)%Q) by lra.
    unfold qN in A, A'; apply inv_lt in A; change 2%Q with (inject_Z 2) in A'.
    rewrite <- inject_Z_plus in A'; apply inv_lt in A'; clear - A A' K; lia. }
  assert (EY : y' = y).
  { assert (A : (qN y' <= qN y)%Q) by lra; assert (A' : (qN y < qN y' + 1)%Q) by lra.
    unfold qN in A, A'; apply inv_le in A; change 1%Q with (inject_Z 1) in A'.
    rewrite <- inject_Z_plus in A'; apply inv_lt in A'; clear - A A'; lia. }
  subst x' y'; exact E.
Qed.
Print Assumptions unfiltered_nearest_refuted.
Example unfiltered_nearest_ex : (exists m, texture_of checker 2 m) /\ covers 2 1 (1 # 2) /\
  ((1 # 2) * qN 2 < qN 1 + (1 # 2))%Q /\ (place 2 (1 # 4) == qN 0)%Q /\
  picture_of checker 2 0 0 <> picture_of checker 2 1 0.
Proof. split; [exact checker_texture |]; unfold covers, place; vm_compute; repeat split; discriminate. Qed.

(* C84.  Bilinear interpolation of a coordinate in [0,1] reads inside the texture and its
   value lies in the range of the texture; half a texel away from the border it is the
   exact interpolation of the repeated picture, rounded down. *)
Theorem bilinear_value : forall values side m u v lo hi, texture_of values side m ->
  within (picture_of values side) side lo hi -> hi < 256 ->
  (0 <= u)%Q -> (u <= 1)%Q -> (0 <= v)%Q -> (v <= 1)%Q ->
  exists t, bilinear m u v 0 = Ok t /\
    (forall c, channel c -> lo <= c t <= hi) /\
    ((1 # 2) <= u * qN side -> (1 # 2) <= v * qN side -> forall c, channel c ->
      c t = Z.to_N (Qfloor (interpolated (picture_of values side) side c (place side u) (place side v))))%Q.
Proof.
  intros values side m u v lo hi T W H U0 U1 V0 V1; pose proof T as (L & S & _).
  destruct (first_level _ _ _ T) as (l & f & EL & SH & P0).
  assert (W' : within f side lo hi) by (intros c C x y X Y; rewrite P0 by assumption; apply W; assumption).
  destruct (bilinear_ok m 0 l side f lo hi u v EL SH L S W' H U0 U1 V0 V1) as (x & y & t & E & EX & EY & X & Y & CT).
  exists t; split; [exact E | split; [intros c C; exact (proj1 (CT c C)) |]].
  intros BU BV c C; rewrite (proj2 (CT c C)); clear CT E.
  destruct (coord side u L S U0 U1) as (x' & EX' & _ & _ & _ & AX & _).
  destruct (coord side v L S V0 V1) as (y' & EY' & _ & _ & _ & AY & _).
  fold (place side u) in EX', AX; fold (place side v) in EY', AY.
  assert (x' = x) by (rewrite EX in EX'; injection EX' as Q; lia); subst x'.
  assert (y' = y) by (rewrite EY in EY'; injection EY' as Q; lia); subst y'.
  destruct (AX BU) as [AX0 AX1]; destruct (AY BV) as [AY0 AY1]; clear AX AY.
  assert (FX : Qfloor (place side u) = Z.of_N x) by (apply floor_is; assumption).
  assert (FY : Qfloor (place side v) = Z.of_N y) by (apply floor_is; assumption).
  assert (WR : forall k, k < side -> wrapped side (Z.of_N k) = k).
  { intros k K; unfold wrapped; rewrite Z.mod_small by lia; apply N2Z.id. }
  assert (WN : forall k, k < side -> wrapped side (Z.of_N k + 1) = if k + 1 <? side then k + 1 else 0).
  { intros k K; unfold wrapped; destruct (k + 1 <? side) eqn:Q.
    - rewrite Z.mod_small by lia; lia.
    - replace (Z.of_N k + 1)%Z with (Z.of_N side) by lia; rewrite Z.mod_same by lia; reflexivity. }
  f_equal; apply Qfloor_comp; unfold interpolated; rewrite FX, FY, !WR, !WN by assumption.
  change (inject_Z (Z.of_N x)) with (qN x); change (inject_Z (Z.of_N y)) with (qN y).
  rewrite (Qabs_pos (place side u - qN x)), (Qabs_pos (place side v - qN y)) by lra.
  assert (NX : (if x + 1 <? side then x + 1 else 0) < side) by (destruct (x + 1 <? side) eqn:Q; lia).
  assert (NY : (if y + 1 <? side then y + 1 else 0) < side) by (destruct (y + 1 <? side) eqn:Q; lia).
  rewrite !P0 by assumption; ring.
Qed.
Print Assumptions bilinear_value.
Lemma checker_within : within (picture_of checker 2) 2 0 255.
Proof.
  intros c C x y X Y.
  assert (XX : x = 0 \/ x = 1) by lia; assert (YY : y = 0 \/ y = 1) by lia.
  destruct C as [-> | [-> | [-> | ->]]]; destruct XX as [-> | ->]; destruct YY as [-> | ->]; vm_compute; split; discriminate.
Qed.
Example bilinear_value_ex : (exists m, texture_of checker 2 m) /\ within (picture_of checker 2) 2 0 255 /\
  ((1 # 2) <= (1 # 2) * qN 2)%Q.
Proof. split; [exact checker_texture | split; [exact checker_within | vm_compute; discriminate]]. Qed.

Lemma row_of : forall side y v, 1 <= side -> side <= 2 ^ 15 -> y < side -> (place side v == qN y)%Q ->
  (0 <= v)%Q /\ (v <= 1)%Q /\ to_int (place side v) = Ok (Z.of_N y).
Proof.
  intros side y v L S Y EV; unfold place in *.
  assert (SQ : (1 <= qN side)%Q) by (change 1%Q with (qN 1); apply qN_le, L).
  assert (YS : (qN y + 1 <= qN side)%Q).
  { unfold qN; change 1%Q with (inject_Z 1); rewrite <- inject_Z_plus; apply inject_le; lia. }
  pose proof (qN_pos y) as YP.
  assert (V0 : (0 <= v)%Q) by (apply (Qmult_le_r 0 v (qN side)); lra).
  assert (V1 : (v <= 1)%Q) by (apply (Qmult_le_r v 1 (qN side)); lra).
  split; [exact V0 | split; [exact V1 |]].
  destruct (coord side v L S V0 V1) as (y' & EY & _ & _ & _ & A & _).
  destruct (A ltac:(lra)) as [A0 A1].
  assert (B0 : (qN y' <= qN y)%Q) by lra; assert (B1 : (qN y < qN y' + 1)%Q) by lra.
  unfold qN in B0, B1; apply inv_le in B0; change 1%Q with (inject_Z 1) in B1.
  rewrite <- inject_Z_plus in B1; apply inv_lt in B1.
  rewrite EY; f_equal; clear - B0 B1; lia.
Qed.

Lemma half_mean : forall a b c d du dv, (du == 1 # 2)%Q -> (dv == 0)%Q ->
  Z.to_N (Qfloor ((qN a * (1 - du) + qN b * du) * (1 - dv) + (qN c * (1 - du) + qN d * du) * dv)) = (a + b) / 2.
Proof.
  intros a b c d du dv DU DV.
  assert (E : ((qN a * (1 - du) + qN b * du) * (1 - dv) + (qN c * (1 - du) + qN d * du) * dv == (qN a + qN b) * (1 # 2))%Q)
    by (rewrite DU, DV; ring).
  rewrite (Qfloor_comp _ _ E).
  assert (F : Qfloor ((qN a + qN b) * (1 # 2)) = Z.of_N ((a + b) / 2)).
  { assert (P : exists r, a + b = 2 * ((a + b) / 2) + r /\ r < 2).
    { exists ((a + b) mod 2); split; [apply N.div_mod; lia | apply N.mod_lt; lia]. }
    destruct P as (r & P & R); set (k := (a + b) / 2) in *.
    assert (Q : (qN a + qN b == 2 * inject_Z (Z.of_N k) + qN r)%Q).
    { unfold qN; change 2%Q with (inject_Z 2); rewrite <- inject_Z_mult, <- !inject_Z_plus.
      apply inject_Z_injective; lia. }
    assert (R0 := qN_pos r).
    assert (R1 : (qN r <= 1)%Q) by (change 1%Q with (qN 1); apply qN_le; lia).
    apply floor_is; lra. }
  rewrite F; apply N2Z.id.
Qed.

(* C85.  The interpolation does not tile: on the left border a texel is mixed with its
   right neighbour, on the right border with the first texel of the row, so the two
   borders differ although repeating makes them the same place. *)
Theorem bilinear_seam_refuted : forall values side m y v c, texture_of values side m ->
  within (picture_of values side) side 0 255 -> 2 <= side -> y < side -> (place side v == qN y)%Q -> channel c ->
  let f := fun x => c (picture_of values side x y) in
  exists t0 t1, bilinear m 0 v 0 = Ok t0 /\ bilinear m 1 v 0 = Ok t1 /\
    c t0 = (f 0 + f 1) / 2 /\ c t1 = (f (side - 1) + f 0) / 2 /\
    ((f 0 + f 1) / 2 <> (f (side - 1) + f 0) / 2 -> c t0 <> c t1).
Proof.
  intros values side m y v c T W L2 Y EV C f; pose proof T as (L & S & _).
  destruct (row_of side y v L S Y EV) as (V0 & V1 & EY).
  destruct (first_level _ _ _ T) as (l & g & EL & SH & P0).
  assert (W' : within g side 0 255) by (intros c' C' x' y' X' Y'; rewrite P0 by assumption; apply W; assumption).
  assert (SQ : (1 <= qN side)%Q) by (change 1%Q with (qN 1); apply qN_le, L).
  assert (ABS : (Qabs (place side v - qN y) == 0)%Q) by (rewrite Qabs_pos; lra).
  assert (E0 : exists t, bilinear m 0 v 0 = Ok t /\ c t = (f 0 + f 1) / 2).
  { destruct (bilinear_ok m 0 l side g 0 255 0 v EL SH L S W' ltac:(lia) ltac:(lra) ltac:(lra) V0 V1)
      as (x & y' & t & E & EX & EY' & X & Y' & CT).
    assert (y' = y) by (rewrite EY in EY'; injection EY' as Q; lia); subst y'.
    destruct (coord side 0 L S ltac:(lra) ltac:(lra)) as (x' & EX' & _ & _ & _ & _ & B).
    assert (x' = x) by (unfold place in EX; rewrite EX in EX'; injection EX' as Q; lia); subst x'.
    assert (x = 0) by (apply B; lra); subst x.
    exists t; split; [exact E |]; rewrite (proj2 (CT c C)), half_mean.
    - replace (0 + 1 <? side) with true by lia; rewrite !P0 by lia; reflexivity.
    - assert (Z0 : (place side 0 - qN 0 == - (1 # 2))%Q) by (unfold place; change (qN 0) with 0%Q; ring).
      rewrite Qabs_neg; lra.
    - exact ABS. }
  assert (E1 : exists t, bilinear m 1 v 0 = Ok t /\ c t = (f (side - 1) + f 0) / 2).
  { destruct (bilinear_ok m 0 l side g 0 255 1 v EL SH L S W' ltac:(lia) ltac:(lra) ltac:(lra) V0 V1)
      as (x & y' & t & E & EX & EY' & X & Y' & CT).
    assert (y' = y) by (rewrite EY in EY'; injection EY' as Q; lia); subst y'.
    destruct (coord side 1 L S ltac:(lra) ltac:(lra)) as (x' & EX' & _ & _ & _ & A & _).
    assert (x' = x) by (unfold place in EX; rewrite EX in EX'; injection EX' as Q; lia); subst x'.
    destruct (A ltac:(lra)) as [A0 A1].
    assert (SX : x = side - 1).
    { assert (B1 : (qN side < qN x + 2)%Q) by lra.
      unfold qN in B1; change 2%Q with (inject_Z 2) in B1; rewrite <- inject_Z_plus in B1; apply inv_lt in B1.
      clear - X B1; lia. }
    subst x; exists t; split; [exact E |]; rewrite (proj2 (CT c C)), half_mean.
    - replace (side - 1 + 1 <? side) with false by lia; rewrite !P0 by lia; reflexivity.
    - assert (QS : (qN (side - 1) == qN side - 1)%Q).
      { unfold qN; replace (Z.of_N (side - 1)) with (Z.of_N side + - (1))%Z by lia; rewrite inject_Z_plus; reflexivity. }
      rewrite Qabs_pos; unfold place; lra.
    - exact ABS. }
  destruct E0 as (t0 & E0 & C0); destruct E1 as (t1 & E1 & C1).
  exists t0, t1; split; [exact E0 | split; [exact E1 | split; [exact C0 | split; [exact C1 |]]]].
  intro D; rewrite C0, C1; exact D.
Qed.
Print Assumptions bilinear_seam_refuted.

Definition stripes : list texel :=
  let k := mk_texel 255 0 0 0 in let w := mk_texel 255 200 200 200 in
  [k; w; k; k; k; w; k; k; k; w; k; k; k; w; k; k].
Example bilinear_seam_ex : exists m, texture_of stripes 4 m /\ (place 4 (1 # 8) == qN 0)%Q /\
  let f := fun x => t_r (picture_of stripes 4 x 0) in (f 0 + f 1) / 2 <> (f 3 + f 0) / 2.
Proof.
  destruct (image_map_ok stripes 4 ltac:(lia) ltac:(vm_compute; discriminate) ltac:(vm_compute; discriminate)) as (m & E & _).
  exists m; split; [split; [lia | split; [vm_compute; discriminate | split; [vm_compute; discriminate | exact E]]] |].
  split; [reflexivity | vm_compute; discriminate].
Qed.

(* ----- trilinear ----- *)

(* every level can be interpolated *)
Lemma level_bilinear : forall values side m lo hi i u v, texture_of values side m ->
  within (picture_of values side) side lo hi -> hi < 256 -> (i < length m)%nat ->
  (0 <= u)%Q -> (u <= 1)%Q -> (0 <= v)%Q -> (v <= 1)%Q ->
  exists t, bilinear m u v (Z.of_nat i) = Ok t /\ forall c, channel c -> lo <= c t <= hi.
Proof.
  intros values side m lo hi i u v T W H I U0 U1 V0 V1; pose proof T as (L & S & _).
  destruct (texture_levels _ _ _ T) as (pics & Lm & _ & HL & WI).
  destruct (HL i I) as (l & N & SH).
  assert (LS : 1 <= side / 2 ^ N.of_nat i).
  { apply N.div_le_lower_bound; [apply N.pow_nonzero; lia |].
    rewrite N.mul_1_r; apply N.le_trans with (2 ^ N.log2 side); [apply N.pow_le_mono_r; lia | apply N.log2_spec; lia]. }
  assert (SS : side / 2 ^ N.of_nat i <= 2 ^ 15).
  { apply N.le_trans with side; [| exact S]; apply N.div_le_upper_bound; [apply N.pow_nonzero; lia |].
    assert (2 ^ N.of_nat i <> 0) by (apply N.pow_nonzero; lia).
    assert (1 * side <= 2 ^ N.of_nat i * side) by (apply N.mul_le_mono_r; lia); lia. }
  destruct (bilinear_ok m (Z.of_nat i) l _ (pics i) lo hi u v (level_at_nth _ _ _ N) SH LS SS (WI i lo hi W) H U0 U1 V0 V1)
    as (x & y & t & E & _ & _ & _ & _ & CT).
  exists t; split; [exact E | intros c C; exact (proj1 (CT c C))].
Qed.

(* C86.  Unless the footprint is exactly the whole texture, trilinear filtering reads
   inside the levels and its result is at most the greatest and at least the least texel
   less one. *)
Theorem trilinear_safe : forall lg values side m lo hi u v dudx dvdx dudy dvdy, texture_of values side m ->
  within (picture_of values side) side lo hi -> hi < 256 ->
  (0 <= u)%Q -> (u <= 1)%Q -> (0 <= v)%Q -> (v <= 1)%Q ->
  ~ (lg (footprint dudx dvdx dudy dvdy) == 0)%Q ->
  exists t, trilinear lg m u v dudx dvdx dudy dvdy = Ok t /\
    forall c, channel c -> lo <= c t + 1 /\ c t <= hi.
Proof.
  intros lg values side m lo hi u v a b c' d T W H U0 U1 V0 V1 NE; pose proof T as (L & S & _).
  destruct (texture_levels _ _ _ T) as (pics & Lm & _ & HL & WI).
  unfold trilinear; set (w := lg (footprint a b c' d)) in *; clearbody w.
  set (last := (Z.of_nat (length m) - 1)%Z).
  destruct (Qle_bool (inject_Z last + w) 0) eqn:E1.
  { destruct (level_bilinear _ _ _ lo hi O u v T W H ltac:(lia) U0 U1 V0 V1) as (t & E & C).
    exists t; split; [exact E | intros c Cc; pose proof (C c Cc); lia]. }
  assert (P1 : (0 < inject_Z last + w)%Q).
  { apply Qnot_le_lt; intro X; apply Qle_bool_iff in X; congruence. }
  destruct (Qle_bool (inject_Z last + w) (inject_Z last)) eqn:E2; cbn [negb].
  - apply Qle_bool_iff in E2.
    assert (P2 : (inject_Z last + w < inject_Z last)%Q).
    { apply Qnot_le_lt; intro X; apply NE; lra. }
    set (ch := (inject_Z last + w)%Q) in *; clearbody ch.
    pose proof (floor_ge ch 0 ltac:(change (inject_Z 0) with 0%Q; lra)) as F0.
    pose proof (floor_below ch last P2) as F1.
    assert (LB : N.log2 side <= 15) by (rewrite <- (N.log2_pow2 15) by lia; apply N.log2_le_mono, S).
    unfold to_range; rewrite trunc_pos by lra.
    replace ((0 <=? Qfloor ch) && (Qfloor ch <? 256))%Z with true by lia; cbn [bind].
    pose proof (floor_le ch); pose proof (floor_lt ch).
    destruct (level_bilinear _ _ _ lo hi (Z.to_nat (Qfloor ch)) u v T W H ltac:(lia) U0 U1 V0 V1) as (t0 & B0 & C0).
    destruct (level_bilinear _ _ _ lo hi (Datatypes.S (Z.to_nat (Qfloor ch))) u v T W H ltac:(lia) U0 U1 V0 V1) as (t1 & B1 & C1).
    rewrite Z2Nat.id in B0 by lia; rewrite Nat2Z.inj_succ, Z2Nat.id in B1 by lia; unfold Z.succ in B1.
    rewrite B0, B1; cbn [bind].
    destruct (blend_texel_ok t0 t1 (ch - inject_Z (Qfloor ch)) lo hi) as (t & Et & Ct); [lra | lra | exact H | |].
    + intros c Cc; split; [apply C0, Cc | apply C1, Cc].
    + exists t; split; [exact Et |]; intros c Cc; exact (proj2 (Ct c Cc)).
  - destruct (HL (length m - 1)%nat ltac:(lia)) as (l & N & SL & SF).
    assert (EL : level_at m last = Ok l).
    { unfold last; replace (Z.of_nat (length m) - 1)%Z with (Z.of_nat (length m - 1)) by lia; apply level_at_nth, N. }
    rewrite EL; cbn [bind].
    assert (SD : side / 2 ^ N.of_nat (length m - 1) = 1).
    { replace (N.of_nat (length m - 1)) with (N.log2 side) by lia; apply last_side, L. }
    rewrite SD in SF; exists (pics (length m - 1)%nat 0 0); split; [exact (SF 0 0 ltac:(lia) ltac:(lia)) |].
    intros c Cc; pose proof (WI (length m - 1)%nat lo hi W c Cc 0 0 ltac:(lia) ltac:(lia)); lia.
Qed.
Print Assumptions trilinear_safe.
Example trilinear_safe_ex : (exists m, texture_of checker 2 m) /\ within (picture_of checker 2) 2 0 255 /\
  ~ ((fun q : Q => q - 1) (footprint (1 # 4) 0 0 (1 # 8)) == 0)%Q.
Proof. split; [exact checker_texture | split; [exact checker_within | vm_compute; discriminate]]. Qed.

(* C87.  A footprint of exactly the whole texture (log2 zero) reads one level past the
   last, for every texture of more than one texel and every place. *)
Theorem trilinear_whole_refuted : forall lg values side m u v dudx dvdx dudy dvdy, texture_of values side m ->
  within (picture_of values side) side 0 255 -> 2 <= side ->
  (0 <= u)%Q -> (u <= 1)%Q -> (0 <= v)%Q -> (v <= 1)%Q ->
  (lg (footprint dudx dvdx dudy dvdy) == 0)%Q ->
  trilinear lg m u v dudx dvdx dudy dvdy = UB.
Proof.
  intros lg values side m u v a b c' d T W L2 U0 U1 V0 V1 NE; pose proof T as (L & S & _).
  destruct (texture_levels _ _ _ T) as (pics & Lm & _ & HL & WI).
  unfold trilinear; set (w := lg (footprint a b c' d)) in *; clearbody w.
  set (last := (Z.of_nat (length m) - 1)%Z).
  assert (LG : 1 <= N.log2 side) by (rewrite <- (N.log2_pow2 1) by lia; apply N.log2_le_mono; exact L2).
  assert (LB : N.log2 side <= 15) by (rewrite <- (N.log2_pow2 15) by lia; apply N.log2_le_mono, S).
  assert (LQ : (1 <= inject_Z last)%Q) by (change 1%Q with (inject_Z 1); apply inject_le; lia).
  destruct (Qle_bool (inject_Z last + w) 0) eqn:E1; [apply Qle_bool_iff in E1; lra |].
  replace (Qle_bool (inject_Z last + w) (inject_Z last)) with true by (symmetry; apply Qle_bool_iff; lra).
  cbn [negb]; unfold to_range; rewrite trunc_pos by lra.
  assert (F : Qfloor (inject_Z last + w) = last) by (apply floor_is; lra).
  rewrite F; replace ((0 <=? last) && (last <? 256))%Z with true by lia; cbn [bind].
  destruct (level_bilinear _ _ _ 0 255 (length m - 1)%nat u v T W ltac:(lia) ltac:(lia) U0 U1 V0 V1) as (t0 & B0 & _).
  replace (Z.of_nat (length m - 1)) with last in B0 by lia; rewrite B0; cbn [bind].
  unfold bilinear at 1, level_at; replace (last + 1 <? 0)%Z with false by lia.
  replace (nth_error m (Z.to_nat (last + 1))) with (@None level); [reflexivity |].
  symmetry; apply nth_error_None; lia.
Qed.
Print Assumptions trilinear_whole_refuted.
Example trilinear_whole_ex : (exists m, texture_of checker 2 m) /\
  ((fun q : Q => q - 1) (footprint 1 0 0 (1 # 8)) == 0)%Q.
Proof. split; [exact checker_texture | vm_compute; reflexivity]. Qed.

(* C88.  Half way between two levels, every channel of odd value of a constant texture
   comes out one less. *)
Theorem trilinear_constant_refuted : forall lg values side m k u v dudx dvdx dudy dvdy c, texture_of values side m ->
  within (picture_of values side) side k k -> N.odd k = true -> k < 256 -> 2 <= side -> channel c ->
  (0 <= u)%Q -> (u <= 1)%Q -> (0 <= v)%Q -> (v <= 1)%Q ->
  (lg (footprint dudx dvdx dudy dvdy) == - (1 # 2))%Q ->
  exists t, trilinear lg m u v dudx dvdx dudy dvdy = Ok t /\ c t = k - 1.
Proof.
  intros lg values side m k u v a b c' d c T W OD K L2 C U0 U1 V0 V1 NE; pose proof T as (L & S & _).
  destruct (texture_levels _ _ _ T) as (pics & Lm & _ & HL & WI).
  unfold trilinear; set (w := lg (footprint a b c' d)) in *; clearbody w.
  set (last := (Z.of_nat (length m) - 1)%Z).
  assert (LG : 1 <= N.log2 side) by (rewrite <- (N.log2_pow2 1) by lia; apply N.log2_le_mono; exact L2).
  assert (LB : N.log2 side <= 15) by (rewrite <- (N.log2_pow2 15) by lia; apply N.log2_le_mono, S).
  assert (LQ : (1 <= inject_Z last)%Q) by (change 1%Q with (inject_Z 1); apply inject_le; lia).
  destruct (Qle_bool (inject_Z last + w) 0) eqn:E1; [apply Qle_bool_iff in E1; lra |].
  replace (Qle_bool (inject_Z last + w) (inject_Z last)) with true by (symmetry; apply Qle_bool_iff; lra).
  cbn [negb]; unfold to_range; rewrite trunc_pos by lra.
  assert (IL : (inject_Z (last - 1) == inject_Z last - 1)%Q) by (unfold Z.sub; rewrite inject_Z_plus; reflexivity).
  assert (F : Qfloor (inject_Z last + w) = (last - 1)%Z) by (apply floor_is; lra).
  rewrite F; replace ((0 <=? last - 1) && (last - 1 <? 256))%Z with true by lia; cbn [bind].
  destruct (level_bilinear _ _ _ k k (length m - 2)%nat u v T W K ltac:(lia) U0 U1 V0 V1) as (t0 & B0 & C0).
  destruct (level_bilinear _ _ _ k k (length m - 1)%nat u v T W K ltac:(lia) U0 U1 V0 V1) as (t1 & B1 & C1).
  replace (Z.of_nat (length m - 2)) with (last - 1)%Z in B0 by lia; rewrite B0; cbn [bind].
  replace (Z.of_nat (length m - 1)) with (last - 1 + 1)%Z in B1 by lia; rewrite B1; cbn [bind].
  set (dd := (inject_Z last + w - inject_Z (last - 1))%Q); assert (DD : (dd == 1 # 2)%Q) by (unfold dd; lra); clearbody dd.
  destruct (blend_texel_ok t0 t1 dd k k ltac:(lra) ltac:(lra) K) as (t & Et & Ct).
  { intros c0 X; split; [apply C0, X | apply C1, X]. }
  exists t; split; [exact Et |].
  destruct (Ct c C) as (Eb & _ & _).
  pose proof (C0 c C) as K0; pose proof (C1 c C) as K1.
  replace (c t0) with k in Eb by lia; replace (c t1) with k in Eb by lia.
  destruct (blend_ok k k dd k k ltac:(lra) ltac:(lra) K ltac:(lia) ltac:(lia)) as (r & Er & R & _).
  assert (c t = r) by congruence; subst r; rewrite H; clear H.
  assert (OK : exists j, k = 2 * j + 1) by (apply N.odd_spec in OD; exact OD).
  destruct OK as (j & ->).
  assert (QK : (qN (2 * j + 1) == 2 * qN j + 1)%Q).
  { unfold qN; rewrite N2Z.inj_add, N2Z.inj_mul, inject_Z_plus, inject_Z_mult; reflexivity. }
  assert (FA : Qfloor (qN (2 * j + 1) * (1 - dd)) = Z.of_N j).
  { apply floor_is; rewrite QK, DD; fold (qN j); lra. }
  assert (FB : Qfloor (qN (2 * j + 1) * dd) = Z.of_N j).
  { apply floor_is; rewrite QK, DD; fold (qN j); lra. }
  rewrite FA, FB; lia.
Qed.
Print Assumptions trilinear_constant_refuted.
Example trilinear_constant_ex : (exists m, texture_of (repeat (mk_texel 255 255 255 255) 16) 4 m) /\
  ((fun q : Q => q - 1) (footprint (1 # 2) 0 0 (1 # 8)) == - (1 # 2))%Q.
Proof.
  split; [| vm_compute; reflexivity].
  destruct (image_map_ok (repeat (mk_texel 255 255 255 255) 16) 4 ltac:(lia) ltac:(vm_compute; discriminate) ltac:(vm_compute; discriminate)) as (m & E & _).
  exists m; split; [lia | split; [vm_compute; discriminate | split; [vm_compute; discriminate | exact E]]].
Qed.

(* ----- coordinates, derivatives and files ----- *)

(* C89.  Coordinates from 0 on are brought into [0,1] by a whole number, and the lookup of
   an unfiltered texture reads a texel. *)
Theorem repeat_in_range : forall u, (0 <= u)%Q -> (u < inject_Z (2 ^ 31))%Q ->
  exists w k, repeat1 u = Ok w /\ (0 <= w <= 1)%Q /\ (u == w + inject_Z k)%Q.
Proof.
  intros u U0 U1; unfold repeat1; destruct (Qle_bool u 1) eqn:E; cbn [negb].
  - apply Qle_bool_iff in E; exists u, 0%Z; split; [reflexivity | split; [lra |]].
    change (inject_Z 0) with 0%Q; ring.
  - unfold to_int, to_range; rewrite trunc_pos by lra.
    pose proof (floor_ge u 0 ltac:(change (inject_Z 0) with 0%Q; lra)) as F0.
    pose proof (floor_below u (2 ^ 31) U1) as F1.
    replace ((- 2 ^ 31 <=? Qfloor u) && (Qfloor u <? 2 ^ 31))%Z with true by lia; cbn [bind].
    exists (u - inject_Z (Qfloor u))%Q, (Qfloor u); split; [reflexivity |].
    pose proof (floor_le u); pose proof (floor_lt u); split; [lra | ring].
Qed.
Print Assumptions repeat_in_range.
Example repeat_in_range_ex : (0 <= 7 # 2)%Q /\ ((7 # 2) < inject_Z (2 ^ 31))%Q .
Proof. split; [lra | reflexivity]. Qed.

Theorem image_lookup_safe : forall values side m shift scale uv diff isu, texture_of values side m ->
  let a := (v_x uv * v_x scale + v_x shift)%Q in let b := (v_y uv * v_y scale + v_y shift)%Q in
  (0 <= a)%Q -> (a < inject_Z (2 ^ 31))%Q -> (0 <= b)%Q -> (b < inject_Z (2 ^ 31))%Q ->
  exists x y, x < side /\ y < side /\
    map_value (fun u v _ _ _ _ => unfiltered m u v) isu shift scale uv diff = Ok (picture_of values side x y).
Proof.
  intros values side m shift scale uv diff isu T a b A0 A1 B0 B1.
  destruct (repeat_in_range a A0 A1) as (u & ku & EU & (U0 & U1) & _).
  destruct (repeat_in_range b B0 B1) as (v & kv & EV & (V0 & V1) & _).
  destruct (unfiltered_texel _ _ _ u v T U0 U1 V0 V1) as (x & y & X & Y & E & _).
  exists x, y; split; [exact X | split; [exact Y |]].
  unfold map_value; fold a b; rewrite EU; cbn [bind]; rewrite EV; cbn [bind].
  destruct isu; destruct diff as [[du dv] |]; exact E.
Qed.
Print Assumptions image_lookup_safe.
Example image_lookup_safe_ex : (exists m, texture_of checker 2 m) /\
  (0 <= (5 # 2) * 3 + (1 # 3))%Q /\ ((5 # 2) * 3 + (1 # 3) < inject_Z (2 ^ 31))%Q.
Proof. split; [exact checker_texture | split; [lra | reflexivity]]. Qed.

(* C90.  Coordinates half a texel or more below 0 are not repeated: the lookup converts a
   negative number to an unsigned one. *)
Theorem image_negative_refuted : forall values side m shift scale uv diff isu, texture_of values side m ->
  let a := (v_x uv * v_x scale + v_x shift)%Q in let b := (v_y uv * v_y scale + v_y shift)%Q in
  (a * qN side <= - (1 # 2))%Q -> (b <= 1)%Q ->
  map_value (fun u v _ _ _ _ => unfiltered m u v) isu shift scale uv diff = UB.
Proof.
  intros values side m shift scale uv diff isu T a b A B; pose proof T as (L & S & _).
  assert (SQ : (1 <= qN side)%Q) by (change 1%Q with (qN 1); apply qN_le, L).
  assert (A1 : (a <= 1)%Q).
  { destruct (Qlt_le_dec 1 a) as [G | G]; [exfalso | exact G].
    assert ((1 * qN side <= a * qN side)%Q) by (apply Qmult_le_compat_r; lra); lra. }
  destruct (first_level _ _ _ T) as (l & f & EL & (SL & SF) & P0).
  assert (U : unfiltered m a b = UB).
  { unfold unfiltered; rewrite EL; cbn [bind]; rewrite SL; unfold to_u16 at 1, to_range, qtrunc.
    replace (Qle_bool 0 (a * qN side - (1 # 2))) with false.
    - assert (C : (Qceiling (a * qN side - (1 # 2)) <= -1)%Z).
      { unfold Qceiling. pose proof (floor_ge (- (a * qN side - (1 # 2))) 1 ltac:(change (inject_Z 1) with 1%Q; lra)); lia. }
      replace ((0 <=? Qceiling (a * qN side - (1 # 2))) && (Qceiling (a * qN side - (1 # 2)) <? 2 ^ 16))%Z with false by lia.
      reflexivity.
    - symmetry; destruct (Qle_bool 0 (a * qN side - (1 # 2))) eqn:E; [apply Qle_bool_iff in E; lra | reflexivity]. }
  unfold map_value; fold a b; unfold repeat1.
  replace (Qle_bool a 1) with true by (symmetry; apply Qle_bool_iff; exact A1).
  replace (Qle_bool b 1) with true by (symmetry; apply Qle_bool_iff; exact B).
  cbn [negb bind]; destruct isu; destruct diff as [[du dv] |]; exact U.
Qed.
Print Assumptions image_negative_refuted.
Example image_negative_ex : (exists m, texture_of checker 2 m) /\ (- (1 # 4) * qN 2 <= - (1 # 2))%Q.
Proof. split; [exact checker_texture | vm_compute; discriminate]. Qed.

(* C91.  The borders of the repeated texture: coordinate 1 reads the last column, while
   coordinate 2, and every other whole coordinate, reads the first. *)
Theorem repeat_border_refuted : forall values side m y v k, texture_of values side m ->
  y < side -> (place side v == qN y)%Q -> (1 < k < 2 ^ 31)%Z ->
  let one := mk_vec2 1 1 in let zero := mk_vec2 0 0 in
  let look := fun u => map_value (fun u v _ _ _ _ => unfiltered m u v) true zero one (mk_vec2 u v) None in
  look 1%Q = Ok (picture_of values side (side - 1) y) /\
  look (inject_Z k) = Ok (picture_of values side 0 y).
Proof.
  intros values side m y v k T Y EV K one zero look; pose proof T as (L & S & _).
  destruct (row_of side y v L S Y EV) as (V0 & V1 & EY).
  assert (SQ : (1 <= qN side)%Q) by (change 1%Q with (qN 1); apply qN_le, L).
  assert (YR : forall u x' y', (unfiltered m u v = Ok (picture_of values side x' y')) ->
    ((v * qN side < (1 # 2))%Q -> y' = 0) ->
    ((1 # 2) <= v * qN side -> qN y' <= place side v /\ place side v < qN y' + 1)%Q -> y' = y).
  { intros u x' y' _ A B; pose proof (qN_pos y) as YP; unfold place in EV, B.
    destruct (B ltac:(lra)) as [B0 B1]; rewrite EV in B0, B1.
    unfold qN in B0, B1; apply inv_le in B0; change 1%Q with (inject_Z 1) in B1.
    rewrite <- inject_Z_plus in B1; apply inv_lt in B1; clear - B0 B1; lia. }
  assert (VE : ((v * 1 + 0) == v)%Q) by ring.
  assert (LV : forall w u, (w == u)%Q -> forall w' v', (w' == v')%Q -> unfiltered m w w' = unfiltered m u v').
  { assert (TR : forall p q lo hi, (p == q)%Q -> to_range lo hi p = to_range lo hi q).
    { intros p q lo hi PQ; unfold to_range, qtrunc.
      replace (Qle_bool 0 p) with (Qle_bool 0 q) by (rewrite PQ; reflexivity).
      rewrite (Qfloor_comp _ _ PQ), (Qceiling_comp _ _ PQ); reflexivity. }
    intros w u W w' v' W'; unfold unfiltered, to_u16; destruct (level_at m 0) as [l | |]; cbn [bind]; [| reflexivity | reflexivity].
    rewrite (TR (w * qN (l_side l) - (1 # 2))%Q (u * qN (l_side l) - (1 # 2))%Q) by (rewrite W; reflexivity).
    rewrite (TR (w' * qN (l_side l) - (1 # 2))%Q (v' * qN (l_side l) - (1 # 2))%Q) by (rewrite W'; reflexivity).
    reflexivity. }
  assert (R1 : forall w, (w <= 1)%Q -> repeat1 w = Ok w).
  { intros w W; unfold repeat1; replace (Qle_bool w 1) with true by (symmetry; apply Qle_bool_iff; exact W); reflexivity. }
  split.
  - unfold look, map_value, one, zero; cbn [v_x v_y].
    rewrite (R1 (1 * 1 + 0)%Q), (R1 (v * 1 + 0)%Q) by lra; cbn [bind].
    rewrite (LV (1 * 1 + 0)%Q 1%Q ltac:(lra) _ v VE).
    destruct (unfiltered_texel _ _ _ 1%Q v T ltac:(lra) ltac:(lra) V0 V1) as (x & y' & X & Y' & E & _ & AX & BY & AY).
    rewrite E; rewrite (YR _ _ _ E BY AY); do 2 f_equal.
    destruct (AX ltac:(lra)) as [A0 A1]; unfold place in A1.
    assert (B1 : (qN side < qN x + 2)%Q) by lra.
    unfold qN in B1; change 2%Q with (inject_Z 2) in B1; rewrite <- inject_Z_plus in B1; apply inv_lt in B1.
    clear - X B1; lia.
  - unfold look, map_value, one, zero; cbn [v_x v_y].
    rewrite (R1 (v * 1 + 0)%Q) by lra; unfold repeat1.
    assert (KQ : (1 < inject_Z k)%Q) by (change 1%Q with (inject_Z 1); apply inject_lt; lia).
    replace (Qle_bool (inject_Z k * 1 + 0) 1) with false.
    2: { symmetry; destruct (Qle_bool (inject_Z k * 1 + 0) 1) eqn:E; [apply Qle_bool_iff in E; lra | reflexivity]. }
    cbn [negb]; unfold to_int, to_range; rewrite trunc_pos by lra.
    assert (F : Qfloor (inject_Z k * 1 + 0) = k) by (apply floor_is; lra).
    rewrite F; replace ((- 2 ^ 31 <=? k) && (k <? 2 ^ 31))%Z with true by lia; cbn [bind].
    rewrite (LV (inject_Z k * 1 + 0 - inject_Z k)%Q 0%Q ltac:(lra) _ v VE).
    destruct (unfiltered_texel _ _ _ 0%Q v T ltac:(lra) ltac:(lra) V0 V1) as (x & y' & X & Y' & E & BX & _ & BY & AY).
    rewrite E; rewrite (YR _ _ _ E BY AY); do 2 f_equal; apply BX; lra.
Qed.
Print Assumptions repeat_border_refuted.
Example repeat_border_ex : (exists m, texture_of checker 2 m) /\ (place 2 (3 # 4) == qN 1)%Q /\
  picture_of checker 2 1 1 <> picture_of checker 2 0 1.
Proof. split; [exact checker_texture | split; [reflexivity | vm_compute; discriminate]]. Qed.

(* C92.  Scaling the texture by sx and sy scales the derivatives of u by sx and those of v
   by sy; the lookup scales du/dy by sy.  When u changes by d from row to row, the texture
   is repeated so often along u that a pixel covers it all, and sy is small, the lookup
   returns sharp texels; with the right derivatives it returns the mean texel. *)
Theorem derivative_scale_refuted : forall lg values side m scale uv d, texture_of values side m ->
  (forall p q, (p == q)%Q -> (lg p == lg q)%Q) ->
  let a := (v_x uv * v_x scale + 0)%Q in let b := (v_y uv * v_y scale + 0)%Q in
  (a <= 1)%Q -> (b <= 1)%Q ->
  (0 < lg (footprint 0 0 (d * v_x scale) 0))%Q ->
  (inject_Z (Z.of_N (N.log2 side)) + lg (footprint 0 0 (d * v_y scale) 0) <= 0)%Q ->
  map_value (trilinear lg m) false (mk_vec2 0 0) scale uv (Some (mk_vec2 0 d, mk_vec2 0 0)) = bilinear m a b 0 /\
  exists pics, (forall x y, x < side -> y < side -> pics O x y = picture_of values side x y) /\
    (forall i, (i < N.to_nat (N.log2 side))%nat -> halves (pics i) (pics (Datatypes.S i))) /\
    trilinear lg m a b (0 * v_x scale) (0 * v_y scale) (d * v_x scale) (0 * v_y scale) =
      Ok (pics (N.to_nat (N.log2 side)) 0 0).
Proof.
  intros lg values side m scale uv d T PL a b A B G1 G2; pose proof T as (L & S & V & E0).
  assert (FP : forall p q r s p' q' r' s', (p == p')%Q -> (q == q')%Q -> (r == r')%Q -> (s == s')%Q ->
    (footprint p q r s == footprint p' q' r' s')%Q).
  { intros p q r s p' q' r' s' H1 H2 H3 H4; unfold footprint.
    apply Q.max_compat; [| reflexivity]; apply Q.max_compat; apply Q.max_compat; apply Qabs_wd; assumption. }
  destruct (image_map_ok values side L S V) as (m' & E' & Lm & H).
  assert (m' = m) by congruence; subst m'.
  assert (LZ : (Z.of_nat (length m) - 1 = Z.of_N (N.log2 side))%Z) by lia.
  split.
  - unfold map_value; cbn [v_x v_y]; fold a b; unfold repeat1.
    replace (Qle_bool a 1) with true by (symmetry; apply Qle_bool_iff; exact A).
    replace (Qle_bool b 1) with true by (symmetry; apply Qle_bool_iff; exact B); cbn [negb bind].
    unfold trilinear; rewrite LZ.
    match goal with |- context [lg ?w] => pose proof (PL w (footprint 0 0 (d * v_y scale) 0)) as P end.
    specialize (P ltac:(apply FP; ring)).
    match goal with |- context [Qle_bool ?x 0] => replace (Qle_bool x 0) with true by (symmetry; apply Qle_bool_iff; lra) end.
    reflexivity.
  - exists (fun i => Nat.iter i halve (picture_of (firstn (N.to_nat (side * side)) values) side)).
    split; [intros x y X Y; apply picture_firstn; assumption | split; [intros i _; apply halve_halves |]].
    unfold trilinear; rewrite LZ.
    match goal with |- context [lg ?w] => pose proof (PL w (footprint 0 0 (d * v_x scale) 0)) as P; set (w0 := lg w) in * end.
    specialize (P ltac:(apply FP; ring)).
    assert (IQ : (0 <= inject_Z (Z.of_N (N.log2 side)))%Q) by (change 0%Q with (inject_Z 0); apply inject_le; lia).
    destruct (Qle_bool (inject_Z (Z.of_N (N.log2 side)) + w0) 0) eqn:Q1; [apply Qle_bool_iff in Q1; lra |].
    destruct (Qle_bool (inject_Z (Z.of_N (N.log2 side)) + w0) (inject_Z (Z.of_N (N.log2 side)))) eqn:Q2;
      [apply Qle_bool_iff in Q2; lra |]; cbn [negb].
    destruct (H (N.to_nat (N.log2 side)) ltac:(lia)) as (l & N & SL & SF).
    assert (EL : level_at m (Z.of_N (N.log2 side)) = Ok l).
    { replace (Z.of_N (N.log2 side)) with (Z.of_nat (N.to_nat (N.log2 side))) by lia; apply level_at_nth, N. }
    rewrite EL; cbn [bind].
    assert (SD : side / 2 ^ N.of_nat (N.to_nat (N.log2 side)) = 1) by (rewrite N2Nat.id; apply last_side, L).
    rewrite SD in SF; exact (SF 0 0 ltac:(lia) ltac:(lia)).
Qed.
Print Assumptions derivative_scale_refuted.
Example derivative_scale_ex : (exists m, texture_of checker 2 m) /\
  let lg := fun q : Q => (2 * q - 2)%Q in
  (0 < lg (footprint 0 0 ((1 # 2) * 8) 0))%Q /\
  (inject_Z (Z.of_N (N.log2 2)) + lg (footprint 0 0 ((1 # 2) * 0) 0) <= 0)%Q.
Proof. split; [exact checker_texture | split; vm_compute; first [reflexivity | discriminate]]. Qed.

(* C93.  Square files with a power of two side from 1 to 32768 give a texture of that side. *)
Theorem file_texture : forall k pixels, k <= 15 -> 2 ^ k * 2 ^ k <= N.of_nat (length pixels) ->
  exists m, image_from_file (Z.of_N (2 ^ k)) (Z.of_N (2 ^ k)) pixels = Some (Ok m) /\ texture_of pixels (2 ^ k) m.
Proof.
  intros k pixels K P.
  assert (B : 1 <= 2 ^ k) by (change 1 with (2 ^ 0); apply N.pow_le_mono_r; lia).
  assert (S : 2 ^ k <= 2 ^ 15) by (apply N.pow_le_mono_r; lia).
  destruct (image_map_ok pixels (2 ^ k) B S P) as (m & E & _).
  exists m; split; [| split; [exact B | split; [exact S | split; [exact P | exact E]]]].
  unfold image_from_file; rewrite Z.eqb_refl; cbn [andb].
  assert (LZ : Z.land (Z.of_N (2 ^ k)) (Z.of_N (2 ^ k) - 1) = 0%Z).
  { rewrite N2Z.inj_pow; change (Z.of_N 2) with 2%Z.
    replace (2 ^ Z.of_N k - 1)%Z with (Z.ones (Z.of_N k)) by (rewrite Z.ones_equiv; lia).
    rewrite Z.land_ones by lia; apply Z.mod_same; apply Z.pow_nonzero; lia. }
  rewrite LZ, Z.eqb_refl.
  replace (Z.of_N (2 ^ k) * Z.of_N (2 ^ k) <? 2 ^ 31)%Z with true by (clear - S; nia).
  f_equal; rewrite Z.mod_small by (clear - S; lia); rewrite N2Z.id; exact E.
Qed.
Print Assumptions file_texture.
Example file_texture_ex : 1 <= 15 /\ 2 ^ 1 * 2 ^ 1 <= N.of_nat (length checker).
Proof. vm_compute; intuition discriminate. Qed.

(* C94.  Files without pixels and files of side 65536 pass the check of the sides as well,
   and reading them is undefined. *)
Theorem file_sides_refuted : forall pixels,
  image_from_file 0 0 pixels = Some UB /\ image_from_file 65536 65536 pixels = Some UB.
Proof.
  intro pixels; split; reflexivity.
Qed.
Print Assumptions file_sides_refuted.

(* C95.  The first texture of a file decides the filter: later textures of the same file
   share its map, whatever filter they ask for. *)
Theorem texture_filter_kept : forall lib path f filter t lib', get_map lib path = None ->
  texture_image lib path (Some f) filter = Ok (t, lib') ->
  (ti_map t = None /\ lib' = lib) \/
  (exists m, ti_map t = Some (filter, m) /\ get_map lib' path = Some (filter, m) /\
     forall p, p <> path -> get_map lib' p = get_map lib p).
Proof.
  intros lib path f filter t lib' G E; unfold texture_image in E; rewrite G in E.
  destruct (image_from_file (tf_width f) (tf_height f) (tf_pixels f)) as [[m | |] |]; cbn [bind] in E; try discriminate E.
  - right; exists m; injection E as <- <-; split; [reflexivity | split].
    + cbn [get_map]; destruct (list_eq_dec N.eq_dec path path); [reflexivity | congruence].
    + intros p P; cbn [get_map]; destruct (list_eq_dec N.eq_dec path p); [congruence | reflexivity].
  - left; injection E as <- <-; split; reflexivity.
Qed.
Print Assumptions texture_filter_kept.

Theorem texture_filter_refuted : forall lib path file filter filter' m, get_map lib path = Some (filter', m) ->
  exists t, texture_image lib path file filter = Ok (t, lib) /\ ti_map t = Some (filter', m).
Proof.
  intros lib path file filter filter' m G; unfold texture_image; rewrite G; eexists; split; reflexivity.
Qed.
Print Assumptions texture_filter_refuted.
(* a file loaded with the trilinear filter, then asked for unfiltered *)
Example texture_filter_ex :
  let file := Some (mk_tex_file 2 2 checker) in
  match texture_image [] [1] file Trilinear with
  | Ok (t, lib) =>
      match texture_image lib [1] file Unfiltered with
      | Ok (t', _) => ti_unfiltered t' = true /\ ti_map t' = ti_map t /\ ti_map t <> None
      | _ => False
      end
  | _ => False
  end.
Proof. vm_compute; intuition discriminate. Qed.
