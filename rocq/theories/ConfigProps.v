(* C39: resolution and sample count after the configuration checks. *)
From Verif Require Import Common TilesModel ConfigModel ConfigProofs.
Local Open Scope Z_scope.

(* The width becomes a multiple of the tile size, increased by less than one
   tile; the height never shrinks, is even when it had to change, and grows in
   proportion to the width: the exact increment is (w' - w) * h / w. *)
Theorem resolution_checked : forall w h w' h', 1 <= w -> 1 <= h ->
  check_resolution w h = Ok (w', h') ->
  w' mod 32 = 0 /\ w <= w' < w + 32 /\ h <= h' /\
  (w mod 32 = 0 -> w' = w /\ h' = h) /\
  (w mod 32 <> 0 -> Z.even h' = true /\
     (h' - h - 1) * w * 2 ^ 21 <= (w' - w) * h * (2 ^ 21 + 1) /\
     (w' - w) * h * (2 ^ 21 - 1) <= (h' - h + 1) * w * 2 ^ 21).
Proof.
  intros w h w' h' Hw Hh E. unfold check_resolution in E.
  assert (B := Z.mod_pos_bound w 32 ltac:(lia)).
  destruct (Z.eqb_spec (w mod 32) 0) as [H0 | H0].
  - injection E as <- <-. split; [exact H0 |]. split; [lia |]. split; [lia |].
    split; [auto | intros C; contradiction].
  - destruct (Z.eqb_spec h 0) as [C | _]; [lia |].
    assert (I := resolution_inc w h (32 - w mod 32) ltac:(lia) ltac:(lia) ltac:(lia)).
    destruct (fl_frac (fl_int w) (fl_int h)) as [an ad].
    destruct (fl_frac ((32 - w mod 32) * ad) an) as [n d].
    destruct I as (I0 & I1 & I2). set (t := n / d) in *. clearbody t. cbn zeta in E.
    destruct (int_max <? w + (32 - w mod 32)); [discriminate |]. cbn [orb] in E.
    destruct (int_max <? t); [discriminate |]. cbn [orb] in E.
    destruct (int_max <? h + t); [discriminate |].
    assert (Hw' : (w + (32 - w mod 32)) mod 32 = 0) by (Z.div_mod_to_equations; lia).
    destruct (Z.odd (h + t)) eqn:Ho.
    + destruct (int_max <? h + t + 1); [discriminate |].
      assert (Ew : w' = w + (32 - w mod 32)) by congruence. assert (Eh : h' = h + t + 1) by congruence.
      clear E. subst w' h'.
      split; [exact Hw' |]. split; [lia |]. split; [lia |]. split; [intros; lia |]. intros _.
      split; [| split].
      * rewrite Z.add_1_r, Z.even_succ. exact Ho.
      * replace (h + t + 1 - h - 1) with t by lia.
        replace (w + (32 - w mod 32) - w) with (32 - w mod 32) by lia. exact I1.
      * replace (w + (32 - w mod 32) - w) with (32 - w mod 32) by lia.
        etransitivity; [exact I2 |]. apply Z.mul_le_mono_nonneg_r; [lia |].
        apply Z.mul_le_mono_nonneg_r; lia.
    + assert (Ew : w' = w + (32 - w mod 32)) by congruence. assert (Eh : h' = h + t) by congruence.
      clear E. subst w' h'.
      split; [exact Hw' |]. split; [lia |]. split; [lia |]. split; [intros; lia |]. intros _.
      split; [| split].
      * rewrite <- Z.negb_odd, Ho. reflexivity.
      * replace (w + (32 - w mod 32) - w) with (32 - w mod 32) by lia.
        etransitivity; [| exact I1]. apply Z.mul_le_mono_nonneg_r; [lia |].
        apply Z.mul_le_mono_nonneg_r; lia.
      * replace (w + (32 - w mod 32) - w) with (32 - w mod 32) by lia.
        replace (h + t - h + 1) with (t + 1) by lia. exact I2.
Qed.

(* no int overflows for any image up to 32 million rows *)
Theorem resolution_safe : forall w h, 1 <= w <= 2 ^ 31 - 32 -> 1 <= h <= 2 ^ 25 ->
  exists w' h', check_resolution w h = Ok (w', h').
Proof.
  intros w h Hw Hh. unfold check_resolution.
  assert (B := Z.mod_pos_bound w 32 ltac:(lia)).
  destruct (Z.eqb_spec (w mod 32) 0) as [H0 | H0]; [eauto |].
  destruct (Z.eqb_spec h 0) as [C | _]; [lia |].
  assert (I := resolution_inc w h (32 - w mod 32) ltac:(lia) ltac:(lia) ltac:(lia)).
  destruct (fl_frac (fl_int w) (fl_int h)) as [an ad].
  destruct (fl_frac ((32 - w mod 32) * ad) an) as [n d].
  destruct I as (I0 & I1 & _). set (t := n / d) in *. clearbody t. cbn zeta.
  assert (T : t <= 2 ^ 30 + 2 ^ 29).
  { assert (t <= t * w) by nia. assert ((32 - w mod 32) * h <= 31 * 2 ^ 25) by nia. lia. }
  assert (W : w + (32 - w mod 32) <= 2 ^ 31 - 1).
  { assert (w mod 32 = w - 32 * (w / 32)) by (Z.div_mod_to_equations; lia).
    assert (w / 32 <= 67108862) by (Z.div_mod_to_equations; lia). lia. }
  unfold int_max. destruct (Z.ltb_spec (2 ^ 31 - 1) (w + (32 - w mod 32))); [lia |].
  destruct (Z.ltb_spec (2 ^ 31 - 1) t); [lia |]. cbn [orb].
  destruct (Z.ltb_spec (2 ^ 31 - 1) (h + t)); [lia |].
  destruct (Z.odd (h + t)); [| eauto].
  destruct (Z.ltb_spec (2 ^ 31 - 1) (h + t + 1)); [lia | eauto].
Qed.

(* The height is not made a multiple of the tile size: any height is accepted
   as it is when the width needs no change, and may be an odd multiple of 2
   otherwise. *)
Theorem resolution_height_refuted :
  (forall w h, w mod 32 = 0 -> check_resolution w h = Ok (w, h)) /\
  check_resolution 801 600 = Ok (832, 624) /\ 624 mod 32 <> 0.
Proof.
  split; [| split; [vm_compute; reflexivity | discriminate]].
  intros w h H. unfold check_resolution. now rewrite H.
Qed.

Example resolution_example : check_resolution 500 333 = Ok (512, 340).
Proof. reflexivity. Qed.

(* After the check the number of samples of the stratified sampler is a
   positive perfect square close to the requested one. *)
Theorem spp_checked : forall spp, 1 <= spp <= 2147441269 ->
  exists k, check_spp true spp = Ok (k * k) /\ 1 <= k /\
    Z.abs (k * k - spp) <= k + 3 * k / 256 + 129.
Proof.
  intros spp Hs. unfold check_spp. cbn [negb].
  destruct (near_root_bounds spp ltac:(lia)) as (K1 & B1 & B2 & B3).
  set (m := fl_int spp) in *. clearbody m.
  destruct (Z.eqb_spec spp 0) as [C | _]; [lia |].
  assert (RX := int_root_max spp ltac:(lia)).
  unfold int_max. destruct (Z.ltb_spec (2 ^ 31 - 1) (int_root spp * int_root spp)) as [C | _]; [nia |].
  destruct (Z.eqb_spec (int_root spp * int_root spp) spp) as [Es | _].
  - exists (int_root spp). rewrite Es. split; [reflexivity |]. split; [nia |].
    rewrite Z.sub_diag. cbn [Z.abs]. assert (0 <= 3 * int_root spp / 256) by (apply Z.div_pos; lia). lia.
  - exists (near_root spp). set (k := near_root spp) in *. clearbody k. clear RX.
    assert (K2 : k <= 46340) by (clear - B1 B2 B3 Hs K1; nia).
    destruct (Z.ltb_spec (2 ^ 31 - 1) (k * k)) as [C | _]; [nia |].
    split; [reflexivity |]. split; [exact K1 |]. clear - B1 B2 B3 K1.
    assert (k / 256 <= 3 * k / 256) by (apply Z.div_le_mono; lia).
    set (kk := k * k) in *. clearbody kk. Z.div_mod_to_equations. lia.
Qed.

(* up to four million it is the square nearest to the requested number *)
Theorem spp_nearest_square : forall spp, 1 <= spp <= 4000000 ->
  exists k, check_spp true spp = Ok (k * k) /\ k * k - k + 1 <= spp <= k * k + k.
Proof.
  intros spp Hs. unfold check_spp. cbn [negb].
  destruct (Z.eqb_spec spp 0) as [C | _]; [lia |].
  assert (RX := int_root_max spp ltac:(lia)).
  unfold int_max. destruct (Z.ltb_spec (2 ^ 31 - 1) (int_root spp * int_root spp)) as [C | _]; [nia |].
  destruct (Z.eqb_spec (int_root spp * int_root spp) spp) as [Es | _].
  - exists (int_root spp). rewrite Es. split; [reflexivity | nia].
  - destruct (Z.sqrt_spec spp ltac:(lia)) as [S1 S2]. set (q := Z.sqrt spp) in *.
    assert (Q0 : 0 <= q) by apply Z.sqrt_nonneg. clearbody q. unfold Z.succ in S2.
    assert (X : exists k, 1 <= k /\ k * k - k + 1 <= spp <= k * k + k).
    { destruct (Z_le_gt_dec spp (q * q + q)); [exists q | exists (q + 1)]; nia. }
    destruct X as (k & K1 & Hk). exists k. rewrite (near_root_nearest spp k Hs K1 Hk).
    assert (k <= 2001) by nia.
    destruct (Z.ltb_spec (2 ^ 31 - 1) (k * k)) as [C | _]; [nia |]. auto.
Qed.

(* perfect squares are kept, and the sampler then finds the exact root *)
Theorem spp_square_kept : forall k, 1 <= k <= 46340 -> check_spp true (k * k) = Ok (k * k).
Proof.
  intros k Hk. unfold check_spp. cbn [negb]. rewrite (int_root_square k Hk).
  destruct (Z.eqb_spec (k * k) 0) as [C | _]; [nia |]. unfold int_max.
  destruct (Z.ltb_spec (2 ^ 31 - 1) (k * k)) as [C | _]; [nia |]. now rewrite Z.eqb_refl.
Qed.

Theorem spp_strata_exact : forall k, 1 <= k <= 46340 -> int_root (k * k) = strata (k * k).
Proof. intros k Hk. rewrite (int_root_square k Hk). unfold strata. rewrite Z.sqrt_square; lia. Qed.

(* the highest sample counts overflow *)
Theorem spp_overflow_refuted : forall spp, 2147442250 <= spp < 2 ^ 31 -> check_spp true spp = UB.
Proof.
  intros spp Hs. unfold check_spp. cbn [negb].
  destruct (near_root_bounds spp ltac:(lia)) as (K1 & B1 & B2 & B3).
  destruct (Z.eqb_spec spp 0) as [C | _]; [lia |].
  assert (RX := int_root_max spp ltac:(lia)). unfold int_max.
  destruct (Z.ltb_spec (2 ^ 31 - 1) (int_root spp * int_root spp)) as [_ | _]; [reflexivity |].
  destruct (Z.eqb_spec (int_root spp * int_root spp) spp) as [Es | _]; [nia |].
  set (k := near_root spp) in *. clearbody k. set (m := fl_int spp) in *. clearbody m.
  assert (46341 <= k) by (clear - B1 B3 Hs K1; nia).
  destruct (Z.ltb_spec (2 ^ 31 - 1) (k * k)) as [_ | C]; [reflexivity | nia].
Qed.

(* other samplers keep the requested number *)
Theorem spp_random_kept : forall spp, check_spp false spp = Ok spp.
Proof. reflexivity. Qed.

Example spp_examples : check_spp true 10 = Ok 9 /\ check_spp true 13 = Ok 16 /\
  check_spp true 2147395599 = Ok 2147395600.
Proof. vm_compute. auto. Qed.

Print Assumptions resolution_checked.
Print Assumptions resolution_safe.
Print Assumptions resolution_height_refuted.
Print Assumptions spp_checked.
Print Assumptions spp_nearest_square.
Print Assumptions spp_square_kept.
Print Assumptions spp_random_kept.
Print Assumptions spp_strata_exact.
Print Assumptions spp_overflow_refuted.
