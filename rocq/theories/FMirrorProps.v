(* Values of smooth mirrors in single precision, and the choice of a layer. *)
From Coq Require Import ZArith Reals List Lra Lia Bool.
From Flocq Require Import Core.Core IEEE754.BinarySingleNaN.
From Verif Require Import Common FltModel FltFacts FltProps FltSumProps FExtFacts FRayModel FRayFacts FSphereProps FBoxMarginProps FMatProps FMatBoundProps FFilmProps FQuadProps FQuadRootProps FFresModel FFresProps FFresNearProps FTexModel FTexProps FSpecModel FSpecProps.
Local Open Scope R_scope.

Lemma amplitude_left : forall x y, fin x -> fin y -> 0 < val x <= bpow radix2 60 -> 0 <= val y <= bpow radix2 60 ->
  fin (fdiv (fsub x y) (fadd x y)) /\ Rabs (val (fdiv (fsub x y) (fadd x y))) <= 1.
Proof.
  intros x y FX FY X Y.
  assert (D : Rabs (val x - val y) <= val x + val y) by (apply Rabs_le; lra).
  assert (B : Rabs (val x + val y) <= bpow radix2 127).
  { apply (small_127 _ 61); [lia|]. rewrite Rabs_pos_eq by lra. change 61%Z with (60 + 1)%Z. rewrite bpow_plus. change (bpow radix2 1) with 2. lra. }
  destruct (fadd_val x y FX FY B) as (FS & VS).
  destruct (fsub_val x y FX FY) as (FD & VD). { eapply Rle_trans; [exact D|]. rewrite Rabs_pos_eq in B by lra. exact B. }
  assert (P : 0 < val (fadd x y)).
  { rewrite VS. apply Rlt_le_trans with (val x); [lra|]. rewrite <- (rnd_fits (val x)) at 1 by apply fits_val. apply rnd_le; lra. }
  assert (Q : Rabs (val (fsub x y) / val (fadd x y)) <= 1).
  { apply unit_ratio; [|exact P]. rewrite VD, VS. apply rnd_abs_le; exact D. }
  destruct (fdiv_val (fsub x y) (fadd x y) FD) as (FQ & VQ); [lra|apply one_127; exact Q|].
  split; [exact FQ|]. rewrite VQ, <- rnd_one. apply rnd_abs_le; exact Q.
Qed.

Lemma terms_range_c : forall ei et c k, index ei -> index et -> fin c -> fin k -> bpow radix2 (-60) <= val c <= 2 -> 0 <= val k <= 1 ->
  fin (f_fresnel_terms ei et c k) /\ 0 <= val (f_fresnel_terms ei et c k) <= 1.
Proof.
  intros ei et c k EI ET FC FK C K. pose proof (bpow_gt_0 radix2 (-60)) as P60.
  assert (PR : forall e c, index e -> fin c -> 0 <= val c <= 2 -> fin (fmul e c) /\ val (fmul e c) = rnd (val e * val c) /\ 0 <= val (fmul e c) <= bpow radix2 60).
  { clear. intros e c (FE & E) FC C. assert (0 < bpow radix2 (-20)) by apply bpow_gt_0.
    assert (P : 0 <= val e * val c <= bpow radix2 21).
    { split; [apply Rmult_le_pos; lra|]. change 21%Z with (20 + 1)%Z. rewrite bpow_plus. change (bpow radix2 1) with 2. apply Rmult_le_compat; lra. }
    destruct (fmul_val e c FE FC) as (F & V). { apply (small_127 _ 21); [lia|]. rewrite Rabs_pos_eq; lra. }
    split; [exact F|]. split; [exact V|]. rewrite V. split; [apply rnd_nonneg; lra|]. apply Rle_trans with (bpow radix2 21); [|apply bpow_le; lia].
    rewrite <- (rnd_fits (bpow radix2 21)) by (apply fits_bpow; lia). apply rnd_le; lra. }
  assert (PS : forall e, index e -> fin (fmul e c) /\ 0 < val (fmul e c) <= bpow radix2 60).
  { intros e E. destruct (PR e c E FC) as (F & V & U); [lra|]. split; [exact F|]. split; [|lra]. destruct E as (FE & E).
    assert (P : bpow radix2 (-80) <= val e * val c).
    { change (-80)%Z with (-20 + -60)%Z. rewrite bpow_plus. apply Rmult_le_compat; try apply bpow_ge_0; lra. }
    rewrite V. apply Rlt_le_trans with (bpow radix2 (-80)); [apply bpow_gt_0|]. rewrite <- (rnd_fits (bpow radix2 (-80))) by (apply fits_bpow; lia). apply rnd_le; exact P. }
  unfold f_fresnel_terms. cbv zeta.
  destruct (PS ei EI) as (F1 & B1). destruct (PS et ET) as (F2 & B2).
  destruct (PR ei k EI FK) as (F3 & _ & B3); [lra|]. destruct (PR et k ET FK) as (F4 & _ & B4); [lra|].
  destruct (amplitude_left _ _ F1 F4 B1 B4) as (FA & A). destruct (amplitude_left _ _ F2 F3 B2 B3) as (FB & B).
  apply mean_fraction; assumption.
Qed.

(* a fraction divided by a cosine *)
Lemma over_cosine : forall x c, fin x -> -1 <= val x <= 1 -> bpow radix2 (-60) <= val c <= 2 ->
  fin (fdiv x c) /\ (0 <= val x -> 0 <= val (fdiv x c)) /\ Rabs (val (fdiv x c) * val c - val x) <= bpow radix2 (-23).
Proof.
  intros x c FX X C. pose proof (bpow_gt_0 radix2 (-60)) as P60.
  assert (IC : 0 < / val c <= bpow radix2 60). { split; [apply Rinv_0_lt_compat; lra|]. change 60%Z with (- - 60)%Z. rewrite bpow_opp. apply Rinv_le; lra. }
  assert (AX : Rabs (val x) <= 1) by (apply Rabs_le; lra).
  assert (B : Rabs (val x / val c) <= bpow radix2 60).
  { unfold Rdiv. rewrite Rabs_mult, (Rabs_pos_eq (/ val c)) by lra. rewrite <- (Rmult_1_l (bpow radix2 60)). apply Rmult_le_compat; try apply Rabs_pos; lra. }
  destruct (fdiv_val x c FX) as (FD & VD); [lra|apply (small_127 _ 60); [lia|exact B]|]. split; [exact FD|]. rewrite VD. split.
  - intro H. apply rnd_nonneg. apply Rmult_le_pos; lra.
  - pose proof (rerr (val x / val c)) as E.
    replace (rnd (val x / val c) * val c - val x) with ((rnd (val x / val c) - val x / val c) * val c) by (field; lra).
    rewrite Rabs_mult, (Rabs_pos_eq (val c)) by lra. apply Rle_trans with ((u24 * Rabs (val x / val c) + h150) * val c); [apply Rmult_le_compat_r; lra|].
    replace ((u24 * Rabs (val x / val c) + h150) * val c) with (u24 * (Rabs (val x / val c) * val c) + h150 * val c) by ring.
    assert (EQ : Rabs (val x / val c) * val c = Rabs (val x)). { unfold Rdiv. rewrite Rabs_mult, (Rabs_pos_eq (/ val c)) by lra. rewrite Rmult_assoc, Rinv_l by lra. ring. }
    rewrite EQ. destruct h150_u24 as (H0 & H1). assert (h150 * val c <= h150 * 2) by (apply Rmult_le_compat_l; lra).
    assert (B23 : bpow radix2 (-23) = 2 * u24) by (unfold u24; cbn; lra). rewrite B23. unfold u24 in *; lra.
Qed.

(* For indices between 2^-20 and 2^20, absorptions up to 2^20 and directions whose cosine is at
   least 2^-60: the values of mirrors of glass (from both sides) and of metal (from outside) are
   finite, and the value times the cosine, the part of the light that goes on, exceeds 1 by at
   most 2^-22 (or the excess of a cosine above 1) and is below 0 by at most 2^-20 for metals and
   not at all for glass. *)
Theorem float_mirror_bounded : forall wo, fin (fz wo) ->
  (forall eta_i eta_t, index eta_i -> index eta_t -> bpow radix2 (-60) <= Rabs (val (fz wo)) <= 2 ->
     let v := fb_value (f_glass_mirror eta_i eta_t wo) in
     fin v /\ 0 <= val v * Rabs (val (fz wo)) <= Rmax 1 (Rabs (val (fz wo))) + bpow radix2 (-22)) /\
  (forall n k, index n -> fin k -> 0 <= val k <= bpow radix2 20 -> bpow radix2 (-60) <= val (fz wo) <= 1 ->
     let v := fb_value (f_metal_mirror n k wo) in
     fin v /\ - bpow radix2 (-20) <= val v * val (fz wo) <= 1 + bpow radix2 (-22)).
Proof.
  intros wo FZ. destruct (abs_val _ FZ) as (FA & VA). destruct fone_val as (FO & VO). destruct fzero_val as (F0 & V0).
  pose proof (bpow_gt_0 radix2 (-60)) as P60. assert (B22 : bpow radix2 (-23) <= bpow radix2 (-22)) by (apply bpow_le; lia). pose proof (bpow_gt_0 radix2 (-23)) as P23. split.
  - intros i t II IT Z. cbv zeta. unfold f_glass_mirror. cbv zeta. cbn [fb_value].
    set (b := fle (fz wo) fzero). set (ei := if b then t else i). set (et := if b then i else t). set (c := if b then fabs (fz wo) else fz wo).
    assert (C : fin c /\ val c = Rabs (val (fz wo))).
    { unfold c. destruct b eqn:E; [split; assumption|]. split; [exact FZ|]. symmetry. apply Rabs_pos_eq. destruct (Rle_or_lt (val (fz wo)) 0) as [L|L]; [|lra].
      exfalso. rewrite <- V0 in L. apply (fle_val _ _ FZ F0) in L. unfold b in E. congruence. }
    destruct C as (FC & C). assert (IE : index ei) by (unfold ei; destruct b; assumption). assert (IT' : index et) by (unfold et; destruct b; assumption).
    clearbody ei et c b. destruct (snell_val ei et c IE IT' FC) as (FS & S). { rewrite C, Rabs_Rabsolu. lra. }
    set (s := f_snell ei et c) in *. clearbody s. unfold fgt. fold (flt fone s). destruct (flt fone s) eqn:E.
    + split; [exact FO|]. rewrite VO, Rmult_1_l. split; [apply Rabs_pos|]. pose proof (Rmax_r 1 (Rabs (val (fz wo)))). lra.
    + assert (S1 : val s <= 1). { apply Rnot_lt_le. intro L. rewrite <- VO in L. apply (flt_val _ _ FO FS) in L. congruence. }
      destruct (cosine_of s FS) as (FK & _ & K). { rewrite Rabs_pos_eq; lra. } cbv zeta in *.
      set (k := fsqrt (fmax fzero (fsub fone (fmul s s)))) in *. clearbody k.
      destruct (terms_range_c ei et c k IE IT' FC FK) as (FT & T); [rewrite C; exact Z|exact K|].
      set (f := f_fresnel_terms ei et c k) in *. clearbody f. destruct (over_cosine f (fabs (fz wo)) FT) as (FD & D0 & DE); [lra|rewrite VA; exact Z|].
      rewrite VA in DE. split; [exact FD|]. split; [apply Rmult_le_pos; [apply D0; lra|apply Rabs_pos]|]. apply abs_both in DE.
      pose proof (Rmax_l 1 (Rabs (val (fz wo)))). lra.
  - intros n k IN FK K Z. cbv zeta. unfold f_metal_mirror. cbn [fb_value]. destruct (float_conductor_fraction n k (fz wo) IN FK FZ K) as (FM & M & _); [lra|].
    set (f := f_conductor n k (fz wo)) in *. clearbody f. assert (B21 : bpow radix2 (-20) = 2 * bpow radix2 (-21)) by (cbn; lra). assert (bpow radix2 (-21) <= 1) by (cbn; lra).
    assert (bpow radix2 (-23) <= bpow radix2 (-21)) by (apply bpow_le; lia). rewrite (Rabs_pos_eq (val (fz wo))) in VA by lra.
    destruct (over_cosine f (fabs (fz wo)) FM) as (FD & _ & DE); [lra|rewrite VA; lra|]. rewrite VA in DE. split; [exact FD|]. apply abs_both in DE. lra.
Qed.
Print Assumptions float_mirror_bounded.

Lemma over_zero : forall x z, fin x -> 0 < val x -> fin z -> val z = 0 -> fdiv x (fabs z) = B754_infinity false.
Proof.
  intros x z FX X FZ Z. destruct z as [sz| | |sz mz ez bz]; try discriminate.
  - destruct x as [sx| | |sx mx ex bx]; try discriminate; [cbn in X; lra|]. destruct sx; [|reflexivity]. exfalso.
    unfold val, B2R in X. assert (Defs.F2R (Defs.Float radix2 (cond_Zopp true (Z.pos mx)) ex) < 0) by (apply F2R_lt_0; reflexivity). lra.
  - exfalso. unfold val, B2R in Z. apply eq_0_F2R in Z. destruct sz; discriminate.
Qed.

Lemma never_finite : forall v adot pdf rr, is_finite v = false -> is_finite (f_power_factor v adot pdf rr) = false.
Proof.
  assert (M : forall x y, is_finite x = false -> is_finite (fmul x y) = false) by (intros [ | | | ] [ | | | ] H; try discriminate; reflexivity).
  assert (D : forall x y, is_finite x = false -> is_finite (fdiv x y) = false) by (intros [ | | | ] [ | | | ] H; try discriminate; reflexivity).
  intros v a p r H. unfold f_power_factor. apply M, D, M, H.
Qed.

(* fz wo = 0, of either sign, the light passes exactly along the surface *)
Lemma metal_grazing : forall n k z, index n -> fin k -> 0 <= val k <= bpow radix2 20 -> fin z -> val z = 0 -> fin (f_conductor n k z) /\ val (f_conductor n k z) = 1.
Proof.
  intros n k z IN FK K FZ Z. pose proof (metal_numbers n k z IN FK FZ K ltac:(lra)) as N. cbv zeta in N. destruct N as (FT & FC & FE & T & C & CE & E0 & EE).
  destruct (of_Z_exact 2) as (F2 & V2); [cbn; lia|]. destruct fone_val as (FO & VO).
  assert (VC : val (fmul z z) = 0). { destruct (fmul_val z z FZ FZ) as (_ & V); [rewrite Z, Rmult_0_r, Rabs_R0; apply bpow_ge_0|]. rewrite V, Z, Rmult_0_r. apply rnd_0. }
  assert (VE : val (fmul n (fmul z (of_Z 2))) = 0).
  { destruct (fmul_val z (of_Z 2) FZ F2) as (F & V); [rewrite Z, Rmult_0_l, Rabs_R0; apply bpow_ge_0|]. rewrite Z, Rmult_0_l, rnd_0 in V.
    destruct (fmul_val n _ (proj1 IN) F) as (_ & V'); [rewrite V, Rmult_0_r, Rabs_R0; apply bpow_ge_0|]. rewrite V', V, Rmult_0_r. apply rnd_0. }
  unfold f_conductor. cbv zeta. set (t := fadd (fmul n n) (fmul k k)) in *. set (c := fmul z z) in *. set (e := fmul n (fmul z (of_Z 2))) in *. clearbody c e.
  assert (TB : 0 < val t <= bpow radix2 60).
  { destruct IN as (_ & IN). pose proof (bpow_gt_0 radix2 (-20)) as P20. assert (N1 : 0 < val n * val n) by (apply Rmult_lt_0_compat; lra). assert (K1 : 0 <= val k * val k) by apply Rle_0_sqr.
    assert (N2 : val n * val n <= bpow radix2 40) by (change 40%Z with (20 + 20)%Z; rewrite bpow_plus; apply Rmult_le_compat; lra).
    assert (K2 : val k * val k <= bpow radix2 40) by (change 40%Z with (20 + 20)%Z; rewrite bpow_plus; apply Rmult_le_compat; lra).
    set (a := val n * val n + val k * val k) in *. assert (A : 0 < a) by (unfold a; lra). assert (A2 : a <= 2 * bpow radix2 40) by (unfold a; lra). clearbody a. split.
    - apply Rlt_le_trans with (a * (1 - 21 / 10 * u24)); [apply Rmult_lt_0_compat; [exact A|unfold u24; lra]|apply T].
    - apply Rle_trans with (a * (1 + 21 / 10 * u24)); [apply T|]. apply Rle_trans with (2 * bpow radix2 40 * 2); [apply Rmult_le_compat; unfold u24 in *; lra|].
      replace (2 * bpow radix2 40 * 2) with (bpow radix2 42) by (change 42%Z with (40 + 2)%Z; rewrite bpow_plus; change (bpow radix2 2) with 4; ring). apply bpow_le; lia. }
  clearbody t. clear T CE EE E0.
  assert (ID : forall x, rnd (val x) = val x) by (intro; apply rnd_fits, fits_val).
  assert (SM : forall x, 0 <= val x <= bpow radix2 60 -> Rabs (val x) <= bpow radix2 127) by (intros x X; apply (small_127 _ 60); [lia|rewrite Rabs_pos_eq; lra]).
  assert (AD : forall x y, fin x -> fin y -> val y = 0 -> 0 <= val x <= bpow radix2 60 -> fin (fadd x y) /\ val (fadd x y) = val x).
  { intros x y FX FY Y X. destruct (fadd_val x y FX FY) as (F & V); [rewrite Y, Rplus_0_r; apply SM, X|]. rewrite Y, Rplus_0_r, ID in V. auto. }
  assert (SB : forall x y, fin x -> fin y -> val y = 0 -> 0 <= val x <= bpow radix2 60 -> fin (fsub x y) /\ val (fsub x y) = val x).
  { intros x y FX FY Y X. destruct (fsub_val x y FX FY) as (F & V); [rewrite Y, Rminus_0_r; apply SM, X|]. rewrite Y, Rminus_0_r, ID in V. auto. }
  assert (ONE : forall x y, fin x -> fin y -> 0 < val y -> val x = val y -> fin (fdiv x y) /\ val (fdiv x y) = 1).
  { intros x y FX FY Y X. assert (Q : val x / val y = 1) by (rewrite X; field; lra). destruct (fdiv_val x y FX) as (F & V); [lra|rewrite Q; apply one_127; rewrite Rabs_pos_eq; lra|]. rewrite Q, rnd_one in V. auto. }
  destruct (SB t e FT FE VE) as (A1 & B1); [lra|]. destruct (AD _ c A1 FC VC) as (A2 & B2); [lra|]. destruct (AD t e FT FE VE) as (A3 & B3); [lra|]. destruct (AD _ c A3 FC VC) as (A4 & B4); [lra|].
  destruct (ONE _ _ A2 A4) as (R1 & Q1); [lra|lra|].
  destruct (fmul_val t c FT FC) as (M1 & M2); [rewrite VC, Rmult_0_r, Rabs_R0; apply bpow_ge_0|]. rewrite VC, Rmult_0_r, rnd_0 in M2.
  pose proof (bpow_gt_0 radix2 60). destruct (SB _ e M1 FE VE) as (A5 & B5); [lra|]. destruct (AD _ e M1 FE VE) as (A6 & B6); [lra|].
  assert (ADO : forall x, fin x -> val x = 0 -> fin (fadd x fone) /\ val (fadd x fone) = 1).
  { intros x FX X. destruct (fadd_val x fone FX FO) as (F & V); [rewrite X, VO, Rplus_0_l; apply one_127; rewrite Rabs_pos_eq; lra|]. rewrite X, VO, Rplus_0_l, rnd_one in V. auto. }
  destruct (ADO _ A5) as (A7 & B7); [lra|]. destruct (ADO _ A6) as (A8 & B8); [lra|]. destruct (ONE _ _ A7 A8) as (R2 & Q2); [lra|lra|].
  set (p := fdiv (fadd (fsub t e) c) (fadd (fadd t e) c)) in *. set (r := fdiv (fadd (fsub (fmul t c) e) fone) (fadd (fadd (fmul t c) e) fone)) in *. clearbody p r.
  destruct (fadd_val p r R1 R2) as (FS & VS). { rewrite Q1, Q2. apply (small_127 _ 1); [lia|]. rewrite Rabs_pos_eq by lra. cbn; lra. }
  replace (val p + val r) with 2 in VS by lra. assert (TWO : rnd 2 = 2) by (apply rnd_fits; apply (fits_Z 2); cbn; lia). rewrite TWO in VS.
  apply ONE; lra || assumption.
Qed.

Lemma glass_grazing : forall ei et k, index ei -> index et -> fin k -> bpow radix2 (-12) <= val k <= 1 -> forall c, fin c -> val c = 0 ->
  fin (f_fresnel_terms ei et c k) /\ val (f_fresnel_terms ei et c k) = 1.
Proof.
  intros ei et k IE IT FK K c FC C. destruct (of_Z_exact 2) as (F2 & V2); [cbn; lia|]. pose proof (bpow_gt_0 radix2 (-12)) as P12.
  assert (Z : forall e, index e -> fin (fmul e c) /\ val (fmul e c) = 0).
  { intros e (FE & E). destruct (fmul_val e c FE FC) as (F & V); [rewrite C, Rmult_0_r, Rabs_R0; apply bpow_ge_0|]. rewrite C, Rmult_0_r, rnd_0 in V. auto. }
  assert (P : forall e, index e -> fin (fmul e k) /\ bpow radix2 (-32) <= val (fmul e k) <= bpow radix2 20).
  { intros e (FE & E). pose proof (bpow_gt_0 radix2 (-20)).
    assert (B : bpow radix2 (-32) <= val e * val k <= bpow radix2 20).
    { split; [change (-32)%Z with (-20 + -12)%Z; rewrite bpow_plus|rewrite <- (Rmult_1_r (bpow radix2 20))]; apply Rmult_le_compat; lra. }
    pose proof (bpow_gt_0 radix2 (-32)). destruct (fmul_val e k FE FK) as (F & V); [apply (small_127 _ 20); [lia|rewrite Rabs_pos_eq; lra]|]. split; [exact F|]. rewrite V. apply pow_between; [lia|lia|exact B]. }
  assert (A : forall x y, fin x -> fin y -> val x = 0 -> bpow radix2 (-32) <= val y <= bpow radix2 20 -> let r := fdiv (fsub x y) (fadd x y) in fin r /\ val (fmul r r) = 1 /\ fin (fmul r r)).
  { intros x y FX FY X Y. cbv zeta. pose proof (bpow_gt_0 radix2 (-32)). assert (S : Rabs (val y) <= bpow radix2 127) by (apply (small_127 _ 20); [lia|rewrite Rabs_pos_eq; lra]).
    destruct (fadd_val x y FX FY) as (F3 & V3); [rewrite X, Rplus_0_l; exact S|]. destruct (fsub_val x y FX FY) as (F4 & V4); [rewrite X, Rminus_0_l, Rabs_Ropp; exact S|].
    rewrite X, Rplus_0_l, (rnd_fits _ (fits_val y)) in V3. rewrite X, Rminus_0_l, rnd_neg, (rnd_fits _ (fits_val y)) in V4.
    assert (Q : val (fsub x y) / val (fadd x y) = - (1)) by (rewrite V3, V4; field; lra).
    destruct (fdiv_val (fsub x y) (fadd x y) F4) as (F5 & V5); [lra|rewrite Q; apply one_127; rewrite Rabs_Ropp, Rabs_pos_eq; lra|]. rewrite Q, rnd_neg, rnd_one in V5.
    set (r := fdiv (fsub x y) (fadd x y)) in *. clearbody r. split; [exact F5|]. assert (RR : val r * val r = 1) by (rewrite V5; ring).
    destruct (fmul_val r r F5 F5) as (F6 & V6); [rewrite RR; apply one_127; rewrite Rabs_pos_eq; lra|]. rewrite RR, rnd_one in V6. auto. }
  destruct (Z ei IE) as (F3 & V3). destruct (Z et IT) as (F4 & V4). destruct (P ei IE) as (F5 & V5). destruct (P et IT) as (F6 & V6).
  destruct (A _ _ F3 F6 V3 V6) as (_ & R1 & G1). destruct (A _ _ F4 F5 V4 V5) as (_ & R2 & G2). unfold f_fresnel_terms. cbv zeta.
  set (p := fmul (fdiv (fsub (fmul et c) (fmul ei k)) (fadd (fmul et c) (fmul ei k))) (fdiv (fsub (fmul et c) (fmul ei k)) (fadd (fmul et c) (fmul ei k)))) in *.
  set (q := fmul (fdiv (fsub (fmul ei c) (fmul et k)) (fadd (fmul ei c) (fmul et k))) (fdiv (fsub (fmul ei c) (fmul et k)) (fadd (fmul ei c) (fmul et k)))) in *. clearbody p q.
  destruct (fadd_val p q G2 G1) as (FS & VS). { rewrite R1, R2. apply (small_127 _ 1); [lia|]. rewrite Rabs_pos_eq by lra. cbn; lra. }
  replace (val p + val q) with 2 in VS by lra. assert (TWO : rnd 2 = 2) by (apply rnd_fits; apply (fits_Z 2); cbn; lia). rewrite TWO in VS.
  assert (Q : val (fadd p q) / val (of_Z 2) = 1) by (rewrite VS, V2; field).
  destruct (fdiv_val (fadd p q) (of_Z 2) FS) as (F & V); [lra|rewrite Q; apply one_127; rewrite Rabs_pos_eq; lra|]. rewrite Q, rnd_one in V. auto.
Qed.

(* The full statement is that values of mirrors are finite for every direction. It is false for
   light along the surface (cosine exactly 0, of either sign): the value of every metal, and of
   glass that is optically thinner than its surroundings by at least 2^-20 of their index, is
   infinite, and so no number is left of the power of the path, whatever the other factors are. *)
Theorem float_mirror_grazing_refuted : forall wo, fin (fz wo) -> val (fz wo) = 0 -> 
  (forall n k, index n -> fin k -> 0 <= val k <= bpow radix2 20 -> fb_value (f_metal_mirror n k wo) = B754_infinity false) /\
  (forall eta_i eta_t, index eta_i -> index eta_t -> val eta_t <= val eta_i * (1 - bpow radix2 (-20)) -> fb_value (f_glass_mirror eta_i eta_t wo) = B754_infinity false) /\
  (forall adot pdf rrprob, is_finite (f_power_factor (B754_infinity false) adot pdf rrprob) = false).
Proof.
  intros wo FZ Z. destruct (abs_val _ FZ) as (FA & VA). destruct fone_val as (FO & VO). destruct fzero_val as (F0 & V0). split; [|split].
  - intros n k IN FK K. unfold f_metal_mirror. cbn [fb_value]. destruct (metal_grazing n k (fz wo) IN FK K FZ Z) as (F & V). apply over_zero; try assumption. lra.
  - intros i t II IT L. unfold f_glass_mirror. cbv zeta. cbn [fb_value].
    assert (E : fle (fz wo) fzero = true) by (apply (fle_val _ _ FZ F0); lra). rewrite E. rewrite Z, Rabs_R0 in VA.
    destruct (index_ratio t i IT II) as (Q0 & _). destruct (snell_val t i (fabs (fz wo)) IT II FA) as (FS & S); [rewrite VA, Rabs_R0; lra|].
    assert (SV : val (f_snell t i (fabs (fz wo))) < 1).
    { unfold f_snell. destruct (cosine_of (fabs (fz wo)) FA) as (FK & VK & K); [rewrite VA, Rabs_R0; lra|]. cbv zeta in *. set (k := fsqrt (fmax fzero (fsub fone (fmul (fabs (fz wo)) (fabs (fz wo)))))) in *. clearbody k.
      destruct II as (FI & I). destruct IT as (FT & T). pose proof (bpow_gt_0 radix2 (-20)) as P20. pose proof (bpow_gt_0 radix2 (-40)) as P40.
      assert (Q : val t / val i <= 1 - bpow radix2 (-20)).
      { apply (Rmult_le_reg_r (val i)); [lra|]. unfold Rdiv. rewrite Rmult_assoc, Rinv_l by lra. lra. }
      destruct (fdiv_val t i FT) as (FE & VE); [lra|apply one_127; rewrite Rabs_pos_eq; lra|].
      assert (F1 : fits (1 - bpow radix2 (-20))). { replace (1 - bpow radix2 (-20)) with (IZR 1048575 * bpow radix2 (-20)) by (cbn; lra). apply fits_scaled; cbn; lia. }
      assert (EB : 0 <= val (fdiv t i) <= 1 - bpow radix2 (-20)) by (rewrite VE; apply rnd_between; [apply fits_0|exact F1|lra]).
      set (e := fdiv t i) in *. clearbody e. assert (EK : 0 <= val e * val k <= 1 - bpow radix2 (-20)).
      { split; [apply Rmult_le_pos; lra|]. rewrite <- (Rmult_1_r (1 - bpow radix2 (-20))). apply Rmult_le_compat; lra. }
      destruct (fmul_val e k FE FK) as (_ & V); [apply one_127; rewrite Rabs_pos_eq; lra|]. rewrite V. pose proof (rnd_between _ _ _ fits_0 F1 EK). lra. }
    set (s := f_snell t i (fabs (fz wo))) in *. clearbody s. unfold fgt. fold (flt fone s).
    assert (N : flt fone s = false). { destruct (flt fone s) eqn:G; [|reflexivity]. apply (flt_val _ _ FO FS) in G. lra. } rewrite N.
    destruct (sine_below_one s FS (conj (proj1 S) SV)) as (FK & K). cbv zeta in *. set (k := fsqrt (fmax fzero (fsub fone (fmul s s)))) in *. clearbody k.
    destruct (glass_grazing t i k IT II FK K (fabs (fz wo)) FA VA) as (F & V). apply over_zero; try assumption. lra.
  - intros a p r. apply never_finite. reflexivity.
Qed.
Print Assumptions float_mirror_grazing_refuted.

(* For up to 2^20 layers and a random number in [0, 1], 1 included, a layer is chosen that exists,
   and it is the one of that share of the interval up to rounding at its ends. *)
Theorem float_layer : forall r n, fin r -> 0 <= val r <= 1 -> (1 <= n <= 2 ^ 20)%Z ->
  exists i, f_layer r n = Ok i /\ (0 <= i < n)%Z /\ IZR i - / 8 <= IZR n * val r <= IZR i + 1 + / 8.
Proof.
  intros r n F B N. destruct (float_light r n F B N) as (i & L & I & E). exists i. split; [|split; [exact I|exact E]].
  unfold f_light, f_layer in *. destruct (to_int (fmul r (of_Z n))) as [c| |] eqn:T; cbn [bind] in *; try discriminate.
  injection L as <-. f_equal. destruct (Z.eqb_spec c n); [lia|]. apply Z.min_case_strong; [lia|]. intro G.
  (* c is at most n: the product is at most n *)
  destruct (of_Z_exact n) as (FN & VN); [lia|]. assert (NR : 1 <= IZR n <= 1048576) by (split; [apply (IZR_le 1); lia | apply (IZR_le n 1048576); lia]).
  assert (P : 0 <= val r * IZR n <= IZR n). { split; [apply Rmult_le_pos; lra |]; rewrite <- (Rmult_1_l (IZR n)) at 2; apply Rmult_le_compat_r; lra. }
  destruct (fmul_val r (of_Z n) F FN) as (FM & VM). { rewrite VN. apply (small_127 _ 20); [lia|]. rewrite Rabs_pos_eq by lra. change (bpow radix2 20) with 1048576. lra. }
  rewrite VN in VM. assert (Q : 0 <= rnd (val r * IZR n) <= IZR n) by (apply rnd_between; [apply fits_0 | apply fits_Z; lia | exact P]).
  unfold to_int, to_range in T. rewrite FM in T. cbv zeta in T. destruct ((- 2 ^ 31 <=? Btrunc (fmul r (of_Z n))) && (Btrunc (fmul r (of_Z n)) <=? 2 ^ 31 - 1))%Z; [|discriminate]. injection T as T.
  rewrite trunc_eq, VM, Ztrunc_floor in T by apply Q. assert (Zfloor (rnd (val r * IZR n)) <= n)%Z by (apply le_IZR; pose proof (Zfloor_lb (rnd (val r * IZR n))); lra). lia.
Qed.
Print Assumptions float_layer.

(* a metal with index 1/2 and absorption 3 at a cosine of 1/8: the value is below 8; and light along
   the surface of it *)
Example metal_case : index (fnum 1 (-1)) /\ fin (fnum 1 (-3)) /\ val (fnum 1 (-3)) = / 8 /\
  B2SF (fb_value (f_metal_mirror (fnum 1 (-1)) (of_Z 3) (mk_fvec fone fzero (fnum 1 (-3))))) = SpecFloat.S754_finite false 14901982 (-21) /\
  B2SF (fb_value (f_metal_mirror (fnum 1 (-1)) (of_Z 3) (mk_fvec fone fzero fzero))) = SpecFloat.S754_infinity false.
Proof.
  assert (A : val (fnum 1 (-1)) = / 2) by (erewrite lit_val by (vm_compute; reflexivity); cbn; lra).
  assert (B : val (fnum 1 (-3)) = / 8) by (erewrite lit_val by (vm_compute; reflexivity); cbn; lra).
  split; [split; [reflexivity|rewrite A; cbn; lra]|]. split; [reflexivity|]. split; [exact B|]. split; vm_compute; reflexivity.
Qed.
