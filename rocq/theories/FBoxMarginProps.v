(* The box test in single precision finds every box that the ray crosses by a margin. *)
From Coq Require Import ZArith Reals Lra Lia List Bool Psatz.
From Flocq Require Import Core.Core IEEE754.BinarySingleNaN.
From Verif Require Import Common FltModel FltFacts FltProps FExtFacts FRayModel FRayFacts FRayProps FKdSpec FKdProps.
Import ListNotations.
Local Open Scope R_scope.

(* the point of the ray at the exact distance t is between the faces across axis k *)
Definition crosses (r : fray) (b : fbox) (k : nat) (t : R) : Prop :=
  val (fcoord k (fb_lo b)) <= val (fcoord k (fr_o r)) + val (fcoord k (fr_d r)) * t <= val (fcoord k (fb_hi b)).

Definition margin : R := / 1048576.
(* also a millionth of the distance before and after *)
Definition crosses_well (r : fray) (b : fbox) (k : nat) (t : R) : Prop :=
  crosses r b k (t * (1 - margin)) /\ crosses r b k (t * (1 + margin)).
(* a box without thickness that contains the point *)
Definition crosses_flat (r : fray) (b : fbox) (k : nat) (t : R) : Prop :=
  val (fcoord k (fb_lo b)) = val (fcoord k (fb_hi b)) /\ crosses r b k t /\ val (fcoord k (fr_d r)) <> 0.

(* nothing overflows or vanishes *)
Definition tame (r : fray) (b : fbox) : Prop :=
  forall k, Rabs (val (fcoord k (fb_lo b)) - val (fcoord k (fr_o r))) <= bpow radix2 60 /\
            Rabs (val (fcoord k (fb_hi b)) - val (fcoord k (fr_o r))) <= bpow radix2 60 /\
            (val (fcoord k (fr_d r)) = 0 \/ bpow radix2 (-60) <= Rabs (val (fcoord k (fr_d r)))).

Definition h150 : R := bpow radix2 (-150).

Lemma rerr : forall x, Rabs (rnd x - x) <= u24 * Rabs x + h150.
Proof. intro x; rewrite <- u24_bpow; apply rnd_err. Qed.

Lemma three_errors : forall s x i j m h, 0 <= h -> Rabs (s - x) <= u24 * Rabs x + h -> Rabs (i - j) <= 2 * u24 * Rabs j ->
  Rabs (m - s * i) <= u24 * Rabs (s * i) + h ->
  Rabs (m - x * j) <= 5 * u24 * Rabs (x * j) + 3 * h * Rabs j + h.
Proof.
  intros s x i j m h H E1 E2 E3.
  assert (U : 0 < u24 < / 1000) by (unfold u24; lra).
  pose proof (Rabs_pos x) as PX; pose proof (Rabs_pos j) as PJ.
  assert (I : Rabs i <= (1 + 2 * u24) * Rabs j).
  { replace i with (j + (i - j)) by ring; eapply Rle_trans; [apply Rabs_triang | lra]. }
  assert (D : Rabs (s * i - x * j) <= (u24 * Rabs x + h) * ((1 + 2 * u24) * Rabs j) + Rabs x * (2 * u24 * Rabs j)).
  { replace (s * i - x * j) with ((s - x) * i + x * (i - j)) by ring; eapply Rle_trans; [apply Rabs_triang |].
    rewrite !Rabs_mult; apply Rplus_le_compat; apply Rmult_le_compat; try apply Rabs_pos; try assumption; lra. }
  rewrite (Rabs_mult x j).
  assert (PP : 0 <= Rabs x * Rabs j) by (apply Rmult_le_pos; assumption).
  assert (HJ : 0 <= h * Rabs j) by (apply Rmult_le_pos; assumption).
  replace ((u24 * Rabs x + h) * ((1 + 2 * u24) * Rabs j) + Rabs x * (2 * u24 * Rabs j))
    with ((3 * u24 + 2 * (u24 * u24)) * (Rabs x * Rabs j) + (1 + 2 * u24) * (h * Rabs j)) in D by ring.
  assert (S : Rabs (s * i) <= Rabs (x * j) + Rabs (s * i - x * j)).
  { replace (s * i) with (x * j + (s * i - x * j)) at 1 by ring; apply Rabs_triang. }
  rewrite (Rabs_mult x j) in S.
  assert (M : Rabs (m - x * j) <= Rabs (m - s * i) + Rabs (s * i - x * j)).
  { replace (m - x * j) with ((m - s * i) + (s * i - x * j)) by ring; apply Rabs_triang. }
  assert (UU : u24 * u24 <= / 1000 * u24) by (apply Rmult_le_compat_r; lra).
  set (P := Rabs x * Rabs j) in *; set (Q := h * Rabs j) in *; set (W := Rabs (s * i - x * j)) in *; set (V := Rabs (s * i)) in *.
  replace (3 * h * Rabs j) with (3 * Q) by (unfold Q; ring).
  assert (UP : 0 <= u24 * P) by (apply Rmult_le_pos; lra).
  assert (D' : W <= 301 / 100 * (u24 * P) + 11 / 10 * Q).
  { assert (u24 * u24 * P <= / 1000 * u24 * P) by (apply Rmult_le_compat_r; assumption).
    assert (u24 * Q <= / 1000 * Q) by (apply Rmult_le_compat_r; lra). lra. }
  assert (UW : u24 * W <= / 1000 * (301 / 100 * (u24 * P) + 11 / 10 * Q)).
  { apply Rle_trans with (/ 1000 * W); [apply Rmult_le_compat_r; [apply Rabs_pos | lra] | lra]. }
  assert (UV : u24 * V <= u24 * (P + W)) by (apply Rmult_le_compat_l; lra).
  clearbody P Q W V; lra.
Qed.

Lemma meet_close : forall r k p, fin p -> fin (fcoord k (fr_o r)) -> fin (fcoord k (fr_d r)) ->
  Rabs (val p - val (fcoord k (fr_o r))) <= bpow radix2 60 ->
  bpow radix2 (-60) <= Rabs (val (fcoord k (fr_d r))) <= 3 / 2 ->
  fin (f_inv r k) /\ fin (f_meet r k p) /\
  Rabs (val (f_meet r k p) - (val p - val (fcoord k (fr_o r))) / val (fcoord k (fr_d r))) <=
    5 * u24 * Rabs ((val p - val (fcoord k (fr_o r))) / val (fcoord k (fr_d r))) + bpow radix2 (-80).
Proof.
  intros r k p FP FO FD B1 [B2 B3]; set (o := fcoord k (fr_o r)) in *; set (d := fcoord k (fr_d r)) in *.
  assert (LE : forall m n, (m <= n)%Z -> bpow radix2 m <= bpow radix2 n) by (intros; apply bpow_le; assumption).
  pose proof (bpow_gt_0 radix2 (-60)) as P60; pose proof (bpow_gt_0 radix2 60) as Q60.
  assert (NZ : val d <> 0) by (intro Z; rewrite Z, Rabs_R0 in B2; lra).
  assert (AD : 0 < Rabs (val d)) by lra.
  assert (J : 2 / 3 <= Rabs (/ val d) <= bpow radix2 60).
  { rewrite Rabs_inv; split.
    - apply Rmult_le_reg_r with (Rabs (val d)); [exact AD |]; rewrite Rinv_l by lra; lra.
    - change 60%Z with (- -60)%Z; rewrite bpow_opp; apply Rinv_le; [exact P60 | exact B2]. }
  destruct fone_val as [F1 V1].
  destruct (fdiv_val fone d F1 NZ) as [FI VI].
  { rewrite V1; unfold Rdiv; rewrite Rmult_1_l; eapply Rle_trans; [apply J | apply LE; lia]. }
  rewrite V1 in VI; unfold Rdiv in VI; rewrite Rmult_1_l in VI; fold d in FI, VI.
  destruct (fsub_val p o FP FO) as [FS VS]; [eapply Rle_trans; [exact B1 | apply LE; lia] |].
  assert (HU : h150 <= u24 * / 8).
  { unfold h150; rewrite <- u24_bpow; change (/ 8) with (bpow radix2 (-3)); rewrite <- bpow_plus; apply LE; lia. }
  assert (EI : Rabs (val (fdiv fone d) - / val d) <= 2 * u24 * Rabs (/ val d)).
  { rewrite VI; eapply Rle_trans; [apply rerr |]; assert (0 < u24) by (unfold u24; lra); nra. }
  assert (IB : Rabs (val (fdiv fone d)) <= bpow radix2 61).
  { replace (val (fdiv fone d)) with (/ val d + (val (fdiv fone d) - / val d)) by ring.
    eapply Rle_trans; [apply Rabs_triang |].
    replace (bpow radix2 61) with (2 * bpow radix2 60) by (change 2 with (bpow radix2 1); rewrite <- bpow_plus; reflexivity).
    unfold u24 in EI; lra. }
  assert (SB : Rabs (val (fsub p o)) <= bpow radix2 61).
  { rewrite VS; apply abs_bounds in B1; apply abs_bounds; pose proof (LE 60%Z 61%Z ltac:(lia)).
    pose proof (rnd_between (val p - val o) (- bpow radix2 60) (bpow radix2 60)) as Q.
    destruct Q; [apply fits_opp, fits_bpow; lia | apply fits_bpow; lia | exact B1 | lra]. }
  destruct (fmul_val (fsub p o) (fdiv fone d) FS FI) as [FM VM].
  { rewrite Rabs_mult; apply Rle_trans with (bpow radix2 61 * bpow radix2 61).
    - apply Rmult_le_compat; try apply Rabs_pos; assumption.
    - rewrite <- bpow_plus; apply LE; lia. }
  split; [exact FI | split; [exact FM |]].
  change (f_meet r k p) with (fmul (fsub p o) (fdiv fone d)).
  assert (E : Rabs (val (fmul (fsub p o) (fdiv fone d)) - (val p - val o) * / val d) <=
              5 * u24 * Rabs ((val p - val o) * / val d) + 3 * h150 * Rabs (/ val d) + h150).
  { apply three_errors with (s := val (fsub p o)) (i := val (fdiv fone d)).
    - apply bpow_ge_0.
    - rewrite VS; apply rerr.
    - exact EI.
    - rewrite VM; apply rerr. }
  unfold Rdiv; eapply Rle_trans; [exact E |]; rewrite Rplus_assoc; apply Rplus_le_compat_l.
  assert (H1 : h150 * Rabs (/ val d) <= bpow radix2 (-90)).
  { replace (bpow radix2 (-90)) with (h150 * bpow radix2 60) by (unfold h150; rewrite <- bpow_plus; reflexivity).
    apply Rmult_le_compat_l; [apply bpow_ge_0 | apply J]. }
  assert (H2 : h150 <= bpow radix2 (-90)) by (apply LE; lia).
  replace (bpow radix2 (-80)) with (1024 * bpow radix2 (-90)) by (change 1024 with (bpow radix2 10); rewrite <- bpow_plus; reflexivity).
  pose proof (bpow_gt_0 radix2 (-90)); lra.
Qed.

Lemma small80 : 0 < bpow radix2 (-80) <= / 1000 * u24 * / 1000.
Proof.
  split; [apply bpow_gt_0 |]; apply Rle_trans with (bpow radix2 (-50)); [apply bpow_le; lia |].
  unfold u24; cbn [bpow]; change (Z.pow_pos radix2 50) with 1125899906842624%Z; lra.
Qed.

(* what rounding makes of an upper and of a lower bound of the distance *)
Lemma upper_bound : forall m x t h, / 1000 <= t -> 0 < h <= / 1000 * u24 * / 1000 -> Rabs (m - x) <= 5 * u24 * Rabs x + h ->
  (x <= t -> m <= t * (1 + 6 * u24)) /\ (x <= t * (1 - margin) -> m <= t * (1 - 8 * u24)).
Proof.
  intros m x t h T H E; unfold margin, u24 in *; apply abs_bounds in E.
  destruct (Rle_or_lt 0 x) as [P | P]; [rewrite Rabs_pos_eq in E by lra | rewrite Rabs_left in E by lra]; split; intro L; lra.
Qed.

Lemma lower_bound : forall m x t h, / 1000 <= t -> 0 < h <= / 1000 * u24 * / 1000 -> Rabs (m - x) <= 5 * u24 * Rabs x + h ->
  (t <= x -> t * (1 - 6 * u24) <= m) /\ (t * (1 + margin) <= x -> t * (1 + 8 * u24) <= m).
Proof.
  intros m x t h T H E; unfold margin, u24 in *; apply abs_bounds in E.
  destruct (Rle_or_lt 0 x) as [P | P]; [rewrite Rabs_pos_eq in E by lra | rewrite Rabs_left in E by lra]; split; intro L; lra.
Qed.

Lemma div_le : forall p o d t, 0 < d -> (p <= o + d * t <-> (p - o) / d <= t).
Proof.
  intros p o d t D; split; intro L.
  - apply Rmult_le_reg_r with d; [exact D |]; replace ((p - o) / d * d) with (p - o) by (field; lra); lra.
  - apply Rmult_le_compat_r with (r := d) in L; [| lra]; replace ((p - o) / d * d) with (p - o) in L by (field; lra); lra.
Qed.

Lemma div_ge : forall p o d t, 0 < d -> (o + d * t <= p <-> t <= (p - o) / d).
Proof.
  intros p o d t D; split; intro L.
  - apply Rmult_le_reg_r with d; [exact D |]; replace ((p - o) / d * d) with (p - o) by (field; lra); lra.
  - apply Rmult_le_compat_r with (r := d) in L; [| lra]; replace ((p - o) / d * d) with (p - o) in L by (field; lra); lra.
Qed.

Lemma div_neg : forall p o d, d < 0 -> (p - o) / d = (- p - - o) / - d.
Proof. intros; field; lra. Qed.

Lemma axis_bounds : forall r b k t, ray_ok r -> faces_ok r b -> tame r b -> / 1000 <= t <= bpow radix2 120 ->
  (crosses_well r b k t -> ev (f_near b r k) <= t * (1 - 8 * u24) /\ t * (1 + 8 * u24) <= ev (f_far b r k)) /\
  (crosses_flat r b k t -> t * (1 - 6 * u24) <= ev (f_near b r k) <= t * (1 + 6 * u24) /\ ev (f_far b r k) = ev (f_near b r k)).
Proof.
  intros r b k t OK FB TM [T1 T2]; destruct (OK k) as (FO & FD & BD), (FB k) as ((FL & AL) & (FH & AH) & LH), (TM k) as (TL & TH & TD).
  unfold crosses_well, crosses_flat, crosses.
  pose proof small80 as S80.
  destruct (Req_dec (val (fcoord k (fr_d r))) 0) as [Z | NZ].
  - split; [| intros (_ & _ & C); contradiction].
    rewrite Z, !Rmult_0_l, Rplus_0_r; intros [L _].
    assert (EI : exists s, f_inv r k = B754_infinity s).
    { destruct (inv_cases _ FD BD) as [(_ & C & _) | X]; [rewrite Z, Rmult_0_r in C; lra | exact X]. }
    destruct EI as [s EI]; unfold f_near, f_far; rewrite (isneg_inf r k s EI); rewrite EI in AL, AH.
    destruct AL as [X | AL]; [discriminate |]; destruct AH as [X | AH]; [discriminate |].
    destruct (fsub_sign _ _ FL FO) as [L1 L2], (fsub_sign _ _ FH FO) as [H1 H2].
    destruct (fsub_ev _ _ FL FO) as [NL _], (fsub_ev _ _ FH FO) as [NH _].
    assert (EL : ev (fsub (fcoord k (fb_lo b)) (fcoord k (fr_o r))) < 0) by (apply L2; lra).
    assert (EH : 0 < ev (fsub (fcoord k (fb_hi b)) (fcoord k (fr_o r)))) by (apply H1; lra).
    assert (TOP : t * (1 + 8 * u24) <= top).
    { unfold top; assert (bpow radix2 128 = 256 * bpow radix2 120) by (change 256 with (bpow radix2 8); rewrite <- bpow_plus; reflexivity).
      unfold u24; lra. }
    assert (ML : f_meet r k (fcoord k (fb_lo b)) = B754_infinity (negb s)).
    { unfold f_meet; rewrite EI, fmul_by_inf by (assumption || lra); destruct (Rlt_dec _ _); [reflexivity | lra]. }
    assert (MH : f_meet r k (fcoord k (fb_hi b)) = B754_infinity s).
    { unfold f_meet; rewrite EI, fmul_by_inf by (assumption || lra); destruct (Rlt_dec _ _); [lra | reflexivity]. }
    assert (NT : - top <= t * (1 - 8 * u24)) by (pose proof top_pos; unfold u24; lra).
    destruct s; rewrite ML, MH; cbn [negb ev]; split; assumption.
  - assert (D : bpow radix2 (-60) <= Rabs (val (fcoord k (fr_d r))) <= 3 / 2) by (split; [destruct TD; [contradiction | assumption] | exact BD]).
    destruct (meet_close r k _ FL FO FD TL D) as (FI & FML & CL); destruct (meet_close r k _ FH FO FD TH D) as (_ & FMH & CH).
    destruct (inv_cases _ FD BD) as [(_ & PI & _) | [s E]]; [| change (fdiv fone (fcoord k (fr_d r))) with (f_inv r k) in E; rewrite E in FI; discriminate].
    fold (f_inv r k) in PI; pose proof (isneg_fin r k FI) as IS; unfold f_near, f_far.
    set (lo := fcoord k (fb_lo b)) in *; set (hi := fcoord k (fb_hi b)) in *; set (o := val (fcoord k (fr_o r))) in *; set (d := val (fcoord k (fr_d r))) in *.
    destruct (f_isneg r k).
    + assert (NI : val (f_inv r k) < 0) by (apply IS; reflexivity).
      assert (ND : d < 0) by nra.
      rewrite !ev_fin by assumption; rewrite (div_neg (val lo) _ _ ND) in CL; rewrite (div_neg (val hi) _ _ ND) in CH; split.
      * intros [(W1 & W2) (W3 & W4)]; split.
        -- apply (upper_bound _ _ t _ T1 S80 CH), div_le; lra.
        -- apply (lower_bound _ _ t _ T1 S80 CL), div_ge; lra.
      * intros (EQ & (W1 & W2) & _); split; [split |].
        -- apply (lower_bound _ _ t _ T1 S80 CH), div_ge; lra.
        -- apply (upper_bound _ _ t _ T1 S80 CH), div_le; lra.
        -- pose proof (meet_mono r OK k lo hi (conj FL AL) (conj FH AH)) as M1; pose proof (meet_mono r OK k hi lo (conj FH AH) (conj FL AL)) as M2.
           fold lo hi; rewrite !ev_fin in M1, M2 by assumption; destruct (f_isneg r k); specialize (M1 ltac:(lra)); specialize (M2 ltac:(lra)); lra.
    + assert (NI : ~ val (f_inv r k) < 0) by (intro H; apply IS in H; discriminate).
      assert (PD : 0 < d) by nra.
      rewrite !ev_fin by assumption; split.
      * intros [(W1 & W2) (W3 & W4)]; split.
        -- apply (upper_bound _ _ t _ T1 S80 CL), div_le; assumption.
        -- apply (lower_bound _ _ t _ T1 S80 CH), div_ge; assumption.
      * intros (EQ & (W1 & W2) & _); split; [split |].
        -- apply (lower_bound _ _ t _ T1 S80 CL), div_ge; lra.
        -- apply (upper_bound _ _ t _ T1 S80 CL), div_le; lra.
        -- pose proof (meet_mono r OK k lo hi (conj FL AL) (conj FH AH)) as M1; pose proof (meet_mono r OK k hi lo (conj FH AH) (conj FL AL)) as M2.
           fold lo hi; rewrite !ev_fin in M1, M2 by assumption; destruct (f_isneg r k); specialize (M1 ltac:(lra)); specialize (M2 ltac:(lra)); lra.
Qed.

(* every axis is crossed by the margin; one may be flat instead *)
Definition crossed (r : fray) (b : fbox) (t : R) : Prop :=
  exists k0, (k0 < 3)%nat /\ (crosses_well r b k0 t \/ crosses_flat r b k0 t) /\
    forall k, (k < 3)%nat -> k <> k0 -> crosses_well r b k t.

Theorem float_box_margin : forall r b t, ray_ok r -> faces_ok r b -> tame r b -> / 1000 <= t <= bpow radix2 120 ->
  crossed r b t ->
  exists p1 p2, f_slab b r = Some (p1, p2) /\ ev p1 <= t * (1 + margin) /\ t * (1 - margin) <= ev p2.
Proof.
  intros r b t OK FB TM T (k0 & K0 & C0 & CK).
  pose proof (slab_spec b r (near_far r b OK FB)) as S.
  assert (T0 : / 1000 <= t) by apply T.
  assert (AX : forall k, (k < 3)%nat -> k <> k0 ->
            ev (f_near b r k) <= t * (1 - 8 * u24) /\ t * (1 + 8 * u24) <= ev (f_far b r k)).
  { intros k K N; apply axis_bounds; try assumption; apply CK; assumption. }
  assert (A0 : ev (f_near b r k0) <= t * (1 + 6 * u24) /\ t * (1 - 6 * u24) <= ev (f_far b r k0) /\ ev (f_near b r k0) <= ev (f_far b r k0)).
  { destruct (axis_bounds r b k0 t OK FB TM T) as [W F]; destruct C0 as [C0 | C0].
    - destruct (W C0) as [W1 W2]; unfold u24 in *; lra.
    - destruct (F C0) as [F1 F2]; rewrite F2; lra. }
  assert (G : nears b r <= fars b r /\ nears b r <= t * (1 + margin) /\ t * (1 - margin) <= fars b r).
  { clear S; unfold nears, fars, margin.
    assert (k0 = 0 \/ k0 = 1 \/ k0 = 2)%nat as [-> | [-> | ->]] by lia.
    - destruct (AX 1%nat ltac:(lia) ltac:(lia)), (AX 2%nat ltac:(lia) ltac:(lia)); unfold u24 in *; clear - T0 A0 H H0 H1 H2.
      unfold Rmax, Rmin; repeat destruct (Rle_dec _ _); lra.
    - destruct (AX 0%nat ltac:(lia) ltac:(lia)), (AX 2%nat ltac:(lia) ltac:(lia)); unfold u24 in *; clear - T0 A0 H H0 H1 H2.
      unfold Rmax, Rmin; repeat destruct (Rle_dec _ _); lra.
    - destruct (AX 0%nat ltac:(lia) ltac:(lia)), (AX 1%nat ltac:(lia) ltac:(lia)); unfold u24 in *; clear - T0 A0 H H0 H1 H2.
      unfold Rmax, Rmin; repeat destruct (Rle_dec _ _); lra. }
  destruct G as (G1 & G2 & G3); destruct (f_slab b r) as [[p1 p2] |]; [| lra].
  destruct S as (_ & _ & E1 & E2 & _); exists p1, p2; split; [reflexivity |].
  rewrite E1, E2; auto.
Qed.
Print Assumptions float_box_margin.

(* ----- vectors of whole numbers, for the cases ----- *)

Definition ivec (a b c : Z) : fvec := mk_fvec (of_Z a) (of_Z b) (of_Z c).
Definition icoord (k : nat) (a b c : Z) : Z := match k with 0%nat => a | 1%nat => b | _ => c end.

Lemma ivec_val : forall a b c k, (Z.abs a <= 2 ^ 24)%Z -> (Z.abs b <= 2 ^ 24)%Z -> (Z.abs c <= 2 ^ 24)%Z ->
  fin (fcoord k (ivec a b c)) /\ val (fcoord k (ivec a b c)) = IZR (icoord k a b c).
Proof. intros a b c [|[|k]] A B C; apply of_Z_exact; assumption. Qed.

Ltac ivals := rewrite ?(fun k a b c A B C => proj2 (ivec_val a b c k A B C)) by (cbn; lia).

(* a ray along the first axis, which is parallel to four faces of each box *)
Definition ray_x : fray := mk_fray (ivec (-4) 1 2) (ivec 1 0 0).

Lemma ray_x_ok : ray_ok ray_x.
Proof.
  intro k; unfold ray_x; cbn [fr_o fr_d].
  destruct (ivec_val (-4) 1 2 k) as [F V]; try (cbn; lia); destruct (ivec_val 1 0 0 k) as [G W]; try (cbn; lia).
  split; [exact F | split; [exact G |]]; rewrite W; destruct k as [|[|k]]; cbn [icoord]; rewrite Rabs_pos_eq; lra.
Qed.

Lemma ray_x_faces : forall x0 y0 z0 x1 y1 z1, (Z.abs x0 <= 1000)%Z -> (Z.abs x1 <= 1000)%Z -> (x0 <= x1)%Z ->
  (-1000 <= y0 < 1)%Z -> (1 < y1 <= 1000)%Z -> (-1000 <= z0 < 2)%Z -> (2 < z1 <= 1000)%Z ->
  faces_ok ray_x (mk_fbox (ivec x0 y0 z0) (ivec x1 y1 z1)).
Proof.
  intros x0 y0 z0 x1 y1 z1 X0 X1 X Y0 Y1 Z0 Z1 k; cbn [fb_lo fb_hi]; unfold plane_ok, ray_x; cbn [fr_o fr_d].
  destruct (ivec_val x0 y0 z0 k) as [F V]; try (cbn; lia); destruct (ivec_val x1 y1 z1 k) as [G W]; try (cbn; lia).
  destruct (ivec_val (-4) 1 2 k) as [_ U]; try (cbn; lia); rewrite V, W, U.
  destruct k as [|[|k]]; cbn [icoord].
  - split; [split; [exact F | left; vm_compute; reflexivity] | split; [split; [exact G | left; vm_compute; reflexivity] |]]; apply IZR_le; lia.
  - split; [split; [exact F | right; apply IZR_neq; lia] | split; [split; [exact G | right; apply IZR_neq; lia] |]]; apply IZR_le; lia.
  - split; [split; [exact F | right; apply IZR_neq; lia] | split; [split; [exact G | right; apply IZR_neq; lia] |]]; apply IZR_le; lia.
Qed.

Definition small_box : fbox := mk_fbox (ivec 0 0 0) (ivec 2 3 3).
Definition big_box : fbox := mk_fbox (ivec (-1) (-1) (-1)) (ivec 5 5 5).

(* the hypotheses of FRayProps.float_box_nested *)
Example float_box_nested_case :
  ray_ok ray_x /\ faces_ok ray_x small_box /\ faces_ok ray_x big_box /\ inside_of small_box big_box /\
  exists p1 p2, f_slab small_box ray_x = Some (p1, p2) /\ Beqb p1 (of_Z 4) = true /\ Beqb p2 (of_Z 6) = true.
Proof.
  split; [exact ray_x_ok | split; [apply ray_x_faces; lia | split; [apply ray_x_faces; lia | split]]].
  - intro k; unfold small_box, big_box; cbn [fb_lo fb_hi]; ivals; destruct k as [|[|k]]; cbn [icoord]; lra.
  - destruct (f_slab small_box ray_x) as [[p1 p2] |] eqn:E.
    + exists p1, p2; split; [reflexivity |].
      assert (X : match f_slab small_box ray_x with Some (p1, p2) => Beqb p1 (of_Z 4) && Beqb p2 (of_Z 6) | None => false end = true) by (vm_compute; reflexivity).
      rewrite E in X; apply andb_true_iff in X; exact X.
    + assert (X : match f_slab small_box ray_x with Some _ => true | None => false end = true) by (vm_compute; reflexivity).
      rewrite E in X; discriminate.
Qed.

(* and of float_box_inside: a ray without a direction *)
Example float_box_inside_case : holds_point big_box (ivec 0 1 2) /\
  match f_slab big_box (mk_fray (ivec 0 1 2) (mk_fvec B754_nan fzero (of_Z 3))) with Some _ => true | None => false end = true.
Proof.
  split; [| vm_compute; reflexivity].
  intro k; unfold big_box; cbn [fb_lo fb_hi].
  destruct (ivec_val (-1) (-1) (-1) k) as [F V]; try (cbn; lia); destruct (ivec_val 5 5 5 k) as [G W]; try (cbn; lia).
  destruct (ivec_val 0 1 2 k) as [H U]; try (cbn; lia); rewrite V, W, U; split; [exact F | split; [exact G | split; [exact H |]]].
  destruct k as [|[|k]]; cbn [icoord]; lra.
Qed.

(* a floor: the box has no thickness across the first axis *)
Definition wall : fbox := mk_fbox (ivec 3 (-7) (-5)) (ivec 3 9 8).
Example float_box_margin_case : ray_ok ray_x /\ faces_ok ray_x wall /\ tame ray_x wall /\ crossed ray_x wall 7.
Proof.
  split; [exact ray_x_ok | split; [apply ray_x_faces; lia | split]].
  - intro k; unfold wall, ray_x; cbn [fb_lo fb_hi fr_o fr_d]; ivals.
    assert (B : IZR 100 <= bpow radix2 60) by (change (bpow radix2 60) with (IZR (2 ^ 60)); apply IZR_le; lia).
    destruct k as [|[|k]]; cbn [icoord]; rewrite <- !minus_IZR, <- !abs_IZR; cbn [Z.abs Z.sub Z.add Z.opp Z.pos_sub Z.succ_double Z.pred_double Z.double Pos.add Pos.succ];
      (split; [apply Rle_trans with (2 := B), IZR_le; lia | split; [apply Rle_trans with (2 := B), IZR_le; lia |]]); [right | left; lra | left; lra].
    apply Rle_trans with (bpow radix2 0); [apply bpow_le; lia | cbn; lra].
  - exists 0%nat; split; [lia | split].
    + right; unfold crosses_flat, crosses, wall, ray_x; cbn [fb_lo fb_hi fr_o fr_d]; ivals; cbn [icoord]; lra.
    + intros k K N; unfold crosses_well, crosses, margin, wall, ray_x; cbn [fb_lo fb_hi fr_o fr_d]; ivals.
      destruct k as [|[|k]]; [lia | |]; cbn [icoord]; lra.
Qed.

(* ----- without a margin the test can miss ----- *)

Definition slanted : fray := mk_fray (ivec 0 0 0) (mk_fvec (fnum 1 (-1)) (fnum 113511 (-17)) fzero).
Definition grazed : fbox := mk_fbox (mk_fvec (fnum 15740381 (-21)) (of_Z (-1)) (of_Z (-1))) (ivec 9 13 1).

Lemma lit_neg : forall x m e, B2SF x = SpecFloat.S754_finite true m e -> val x = - (IZR (Zpos m) * bpow radix2 e).
Proof.
  intros x m e E; destruct x as [s | s | | s m' e' b]; cbn in E; try discriminate; injection E as -> -> ->.
  unfold val; cbn [B2R]; unfold F2R; cbn [Fnum Fexp cond_Zopp]; change (Z.neg m) with (- Z.pos m)%Z; rewrite opp_IZR; ring.
Qed.

(* the exact ray is inside the box, strictly, at a positive distance; the test says no *)
Theorem float_box_miss_refuted : exists r b t, ray_ok r /\ faces_ok r b /\ 0 < t /\
  (forall k, val (fcoord k (fb_lo b)) < val (fcoord k (fr_o r)) + val (fcoord k (fr_d r)) * t < val (fcoord k (fb_hi b))) /\
  f_slab b r = None.
Proof.
  assert (V1 : val (fnum 1 (-1)) = / 2) by (rewrite (lit_val _ 8388608 (-24)) by (vm_compute; reflexivity); cbn; lra).
  assert (V2 : val (fnum 113511 (-17)) = 113511 / 131072) by (rewrite (lit_val _ 14529408 (-24)) by (vm_compute; reflexivity); cbn; lra).
  assert (V3 : val (fnum 15740381 (-21)) = 15740381 / 2097152) by (rewrite (lit_val _ 15740381 (-21)) by (vm_compute; reflexivity); cbn; lra).
  destruct (of_Z_exact 0 ltac:(lia)) as [F0 E0], (of_Z_exact 1 ltac:(lia)) as [F1 E1], (of_Z_exact (-1) ltac:(lia)) as [F2 E2],
    (of_Z_exact 9 ltac:(lia)) as [F9 E9], (of_Z_exact 13 ltac:(lia)) as [F13 E13].
  exists slanted, grazed, ((15740381 / 1048576 + 13 * 131072 / 113511) / 2).
  split; [| split; [| split; [lra | split]]].
  - intros [|[|k]]; unfold slanted, ivec; cbn [fr_o fr_d fcoord fx fy fz]; (split; [exact F0 | split; [vm_compute; reflexivity |]]).
    + rewrite V1, Rabs_pos_eq; lra.
    + rewrite V2, Rabs_pos_eq; lra.
    + change fzero with (of_Z 0); rewrite E0, Rabs_R0; lra.
  - intros [|[|k]]; unfold plane_ok, slanted, grazed, ivec; cbn [fr_o fr_d fb_lo fb_hi fcoord fx fy fz].
    + split; [split; [vm_compute; reflexivity | left; vm_compute; reflexivity] | split; [split; [exact F9 | left; vm_compute; reflexivity] |]]; rewrite V3, E9; lra.
    + split; [split; [exact F2 | left; vm_compute; reflexivity] | split; [split; [exact F13 | left; vm_compute; reflexivity] |]]; rewrite E2, E13; lra.
    + split; [split; [exact F2 | right; rewrite E2, E0; lra] | split; [split; [exact F1 | right; rewrite E1, E0; lra] |]]; rewrite E2, E1; lra.
  - intros [|[|k]]; unfold slanted, grazed, ivec; cbn [fr_o fr_d fb_lo fb_hi fcoord fx fy fz]; change fzero with (of_Z 0);
      rewrite ?V1, ?V2, ?V3, ?E0, ?E1, ?E2, ?E9, ?E13; lra.
  - vm_compute; reflexivity.
Qed.
Print Assumptions float_box_miss_refuted.

(* ----- cracks ----- *)

(* the exact ray meets the triangle strictly inside *)
Definition pierces (r : fray) (a b c : fvec) : Prop :=
  exists t u v, 0 < t /\ 0 < u /\ 0 < v /\ u + v < 1 /\
    forall k, val (fcoord k (fr_o r)) + val (fcoord k (fr_d r)) * t =
      val (fcoord k a) + u * (val (fcoord k b) - val (fcoord k a)) + v * (val (fcoord k c) - val (fcoord k a)).

(* two triangles with a common edge, both pierced, neither reported *)
Theorem float_crack_refuted : exists r a b c e, ray_ok r /\ pierces r a b c /\ pierces r e c b /\
  f_triangle a b c r f_max = None /\ f_triangle e c b r f_max = None.
Proof.
  set (r := mk_fray (ivec 0 0 0) (mk_fvec (fnum 9505532 (-25)) (fnum (-12190861) (-25)) (fnum 14890666 (-24)))).
  assert (V1 : val (fnum 9505532 (-25)) = 9505532 / 33554432) by (rewrite (lit_val _ 9505532 (-25)) by (vm_compute; reflexivity); cbn; lra).
  assert (V2 : val (fnum (-12190861) (-25)) = - (12190861 / 33554432)) by (rewrite (lit_neg _ 12190861 (-25)) by (vm_compute; reflexivity); cbn; lra).
  assert (V3 : val (fnum 14890666 (-24)) = 14890666 / 16777216) by (rewrite (lit_val _ 14890666 (-24)) by (vm_compute; reflexivity); cbn; lra).
  exists r, (ivec (-11) (-15) 24), (ivec 7 (-10) 20), (ivec 5 (-2) 24), (ivec (-1) 0 30).
  split; [| split; [| split; [| split; vm_compute; reflexivity]]].
  - intro k; unfold r; cbn [fr_o fr_d]; destruct (ivec_val 0 0 0 k) as [F _]; try (cbn; lia); split; [exact F |].
    destruct k as [|[|k]]; cbn [fcoord fx fy fz]; (split; [vm_compute; reflexivity |]).
    + rewrite V1, Rabs_pos_eq; lra.
    + rewrite V2, Rabs_Ropp, Rabs_pos_eq; lra.
    + rewrite V3, Rabs_pos_eq; lra.
  - exists (17129537536 / 732603487), (169936693 / 209315282), (137825049 / 732603487).
    repeat (split; [lra |]); intro k; unfold r; cbn [fr_o fr_d]; ivals.
    destruct k as [|[|k]]; cbn [fcoord fx fy fz icoord]; rewrite ?V1, ?V2, ?V3; lra.
  - exists (2147483648 / 91844511), (11519163 / 61229674), (149131523 / 183689022).
    repeat (split; [lra |]); intro k; unfold r; cbn [fr_o fr_d]; ivals.
    destruct k as [|[|k]]; cbn [fcoord fx fy fz icoord]; rewrite ?V1, ?V2, ?V3; lra.
Qed.
Print Assumptions float_crack_refuted.

(* ----- the whole walk ----- *)

(* an object whose hit is inside its box by the margin is never lost: what is found is not
   further than that hit and a millionth *)
Theorem float_kd_margin : forall A (box : A -> fbox) first hit r scene t,
  ray_ok r -> reports_first first hit -> faces_ok r scene -> planes_ok r t ->
  (forall a, In a (fassets t) -> faces_ok r (box a) /\ inside_of (box a) scene /\ listed t a (box a)) ->
  exists found best, f_kd box hit (fsize t) scene t r = Ok (found, best) /\
    (forall a d, In a (fassets t) -> first a r = Some d -> fin d -> / 1000 <= val d <= bpow radix2 120 ->
       tame r (box a) -> crossed r (box a) (val d) -> ev best <= val d * (1 + margin)) /\
    match found with
    | None => best = f_max
    | Some a => In a (fassets t) /\ first a r = Some best /\ fle best f_max = true
    end.
Proof.
  intros A box first hit r scene t OK HIT FS PO AS.
  destruct (float_kd_complete A box first hit r scene t OK HIT FS PO AS) as (f & b & E & CO & SO).
  exists f, b; split; [exact E | split; [| exact SO]]; clear E.
  intros a d I F FD RD TM CR; destruct (AS a I) as (FB & _ & _).
  assert (M : 0 < margin < / 1000) by (unfold margin; lra).
  destruct (float_box_margin r (box a) (val d) OK FB TM RD CR) as (p1 & p2 & ES & B1 & B2).
  destruct (slab_axis r OK (box a) p1 p2 0 FB ES) as (N1 & N2 & _ & _ & L).
  assert (NM : number f_max) by (vm_compute; reflexivity).
  assert (NB : number b).
  { destruct f as [x |]; [| rewrite SO; exact NM]; destruct SO as (_ & S & _); specialize (HIT x r f_max NM); rewrite S in HIT; apply HIT. }
  assert (P : exists p, within_box (box a) r p /\ number p /\ ev p <= val d * (1 + margin)).
  { destruct (Rlt_or_le 0 (ev p1)) as [Q | Q].
    - exists p1; split; [exists p1, p2; split; [exact ES | split; [exact Q | lra]] | split; [exact N1 | exact B1]].
    - destruct (Rle_or_lt (ev d) (ev p2)) as [H | H].
      + exists d; pose proof (ev_fin d FD) as ED; split; [exists p1, p2; split; [exact ES | rewrite ED in *; split; [lra | split; lra]] |].
        split; [apply fin_number, FD | nra].
      + exists p2; rewrite (ev_fin d FD) in H; split; [exists p1, p2; split; [exact ES | split; [nra | lra]] | split; [exact N2 | nra]]. }
  destruct P as (p & W & NP & BP); destruct (CO a d p I F W) as [X | X].
  - apply fle_ev in X; [| exact NB | apply fin_number, FD]; rewrite (ev_fin d FD) in X; nra.
  - apply fle_ev in X; [| exact NB | exact NP]; lra.
Qed.
Print Assumptions float_kd_margin.
