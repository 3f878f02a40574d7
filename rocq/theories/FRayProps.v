(* Boxes and rays in single precision. *)
From Coq Require Import ZArith Reals Lra Lia List Bool.
From Flocq Require Import Core.Core IEEE754.BinarySingleNaN.
From Verif Require Import Common FltModel FltFacts FExtFacts FRayModel FRayFacts.
Local Open Scope R_scope.

(* the faces of the box are planes the ray can be compared with *)
Definition faces_ok (r : fray) (b : fbox) : Prop :=
  forall k, plane_ok r k (fcoord k (fb_lo b)) /\ plane_ok r k (fcoord k (fb_hi b)) /\
            val (fcoord k (fb_lo b)) <= val (fcoord k (fb_hi b)).

(* one box inside the other *)
Definition inside_of (small big : fbox) : Prop :=
  forall k, val (fcoord k (fb_lo big)) <= val (fcoord k (fb_lo small)) /\
            val (fcoord k (fb_hi small)) <= val (fcoord k (fb_hi big)).

Definition nears (b : fbox) (r : fray) : R :=
  Rmax (Rmax (ev (f_near b r 0)) (ev (f_near b r 1))) (ev (f_near b r 2)).
Definition fars (b : fbox) (r : fray) : R :=
  Rmin (Rmin (ev (f_far b r 0)) (ev (f_far b r 1))) (ev (f_far b r 2)).

Lemma near_far : forall r b, ray_ok r -> faces_ok r b -> forall k,
  number (f_near b r k) /\ number (f_far b r k) /\ ev (f_near b r k) <= ev (f_far b r k).
Proof.
  intros r b OK F k; destruct (F k) as (PL & PH & L); unfold f_near, f_far.
  pose proof (meet_number r OK k _ PL); pose proof (meet_number r OK k _ PH).
  pose proof (meet_mono r OK k _ _ PL PH L); destruct (f_isneg r k); auto.
Qed.

Lemma pick_max : forall a b : f32, number a -> number b ->
  number (if fgt b a then b else a) /\ ev (if fgt b a then b else a) = Rmax (ev a) (ev b).
Proof.
  intros a b NA NB; pose proof (flt_ev a b NA NB) as H; change (fgt b a) with (flt a b).
  destruct (flt a b); split; try assumption; unfold Rmax; destruct (Rle_dec (ev a) (ev b)) as [L | L]; try reflexivity.
  - assert (ev a < ev b) by (apply H; reflexivity); lra.
  - destruct (Req_dec (ev a) (ev b)) as [E | E]; [exact E |].
    assert (C : ev a < ev b) by lra; apply H in C; discriminate.
Qed.

Lemma pick_min : forall a b : f32, number a -> number b ->
  number (if flt b a then b else a) /\ ev (if flt b a then b else a) = Rmin (ev a) (ev b).
Proof.
  intros a b NA NB; pose proof (flt_ev b a NB NA) as H.
  destruct (flt b a); split; try assumption; unfold Rmin; destruct (Rle_dec (ev a) (ev b)) as [L | L]; try reflexivity.
  - assert (ev b < ev a) by (apply H; reflexivity); lra.
  - assert (C : ev b < ev a) by lra; apply H in C; discriminate.
Qed.

Lemma slab_spec : forall b r,
  (forall k, number (f_near b r k) /\ number (f_far b r k) /\ ev (f_near b r k) <= ev (f_far b r k)) ->
  match f_slab b r with
  | Some (m, M) => number m /\ number M /\ ev m = nears b r /\ ev M = fars b r /\ nears b r <= fars b r
  | None => fars b r < nears b r
  end.
Proof.
  intros b r H; unfold f_slab, nears, fars; cbv zeta.
  destruct (H 0%nat) as (N0 & F0 & L0), (H 1%nat) as (N1 & F1 & L1), (H 2%nat) as (N2 & F2 & L2); clear H.
  generalize dependent (f_near b r 0); generalize dependent (f_far b r 0); generalize dependent (f_near b r 1);
    generalize dependent (f_far b r 1); generalize dependent (f_near b r 2); generalize dependent (f_far b r 2).
  intros f2 F2 n2 N2 L2 f1 F1 n1 N1 L1 f0 F0 n0 N0 L0.
  destruct (fgt n0 f1 || fgt n1 f0) eqn:E.
  { apply orb_true_iff in E; destruct E as [E | E]; change fgt with (fun x y => flt y x) in E; cbv beta in E;
      apply flt_ev in E; try assumption; unfold Rmax, Rmin; repeat destruct (Rle_dec _ _); lra. }
  apply orb_false_iff in E; destruct E as [E1 E2]; change fgt with (fun x y => flt y x) in E1, E2; cbv beta in E1, E2;
    apply flt_false_ev in E1; try assumption; apply flt_false_ev in E2; try assumption.
  destruct (pick_max n0 n1 N0 N1) as [NM EM], (pick_min f0 f1 F0 F1) as [FM GM].
  set (mx := if fgt n1 n0 then n1 else n0) in *; set (mn := if flt f1 f0 then f1 else f0) in *; clearbody mx mn.
  destruct (fgt mx f2 || fgt n2 mn) eqn:E.
  { apply orb_true_iff in E; destruct E as [E | E]; change fgt with (fun x y => flt y x) in E; cbv beta in E;
      apply flt_ev in E; try assumption; rewrite <- EM, <- GM; unfold Rmax, Rmin; repeat destruct (Rle_dec _ _); lra. }
  apply orb_false_iff in E; destruct E as [E3 E4]; change fgt with (fun x y => flt y x) in E3, E4; cbv beta in E3, E4;
    apply flt_false_ev in E3; try assumption; apply flt_false_ev in E4; try assumption.
  destruct (pick_max mx n2 NM N2) as [N3 M3], (pick_min mn f2 FM F2) as [N4 M4].
  split; [exact N3 | split; [exact N4 |]]; rewrite M3, M4, EM, GM; split; [reflexivity | split; [reflexivity |]].
  rewrite <- EM, <- GM; assert (X : ev mx <= ev mn) by (rewrite EM, GM; unfold Rmax, Rmin; repeat destruct (Rle_dec _ _); lra).
  unfold Rmax, Rmin; repeat destruct (Rle_dec _ _); lra.
Qed.

(* ----- a box inside a box ----- *)

Theorem float_box_nested : forall r small big, ray_ok r -> faces_ok r small -> faces_ok r big ->
  inside_of small big ->
  forall p1 p2, f_slab small r = Some (p1, p2) ->
  exists q1 q2, f_slab big r = Some (q1, q2) /\ fle q1 p1 = true /\ fle p2 q2 = true /\ fle p1 p2 = true.
Proof.
  intros r small big OK FS FB IN p1 p2 E.
  pose proof (slab_spec small r (near_far r small OK FS)) as S; rewrite E in S.
  destruct S as (N1 & N2 & E1 & E2 & LE).
  assert (M : forall k, ev (f_near big r k) <= ev (f_near small r k) /\ ev (f_far small r k) <= ev (f_far big r k)).
  { intro k; destruct (FS k) as (SL & SH & _), (FB k) as (BL & BH & _), (IN k) as (I1 & I2); unfold f_near, f_far.
    pose proof (meet_mono r OK k _ _ BL SL I1); pose proof (meet_mono r OK k _ _ SH BH I2).
    destruct (f_isneg r k); split; assumption. }
  pose proof (M 0%nat); pose proof (M 1%nat); pose proof (M 2%nat).
  assert (A : nears big r <= nears small r /\ fars small r <= fars big r).
  { clear E1 E2 LE; unfold nears, fars; split.
    - apply Rmax_lub; [apply Rmax_lub |].
      + apply Rle_trans with (ev (f_near small r 0)); [tauto |]; eapply Rle_trans; [apply Rmax_l | apply Rmax_l].
      + apply Rle_trans with (ev (f_near small r 1)); [tauto |]; eapply Rle_trans; [apply Rmax_r | apply Rmax_l].
      + apply Rle_trans with (ev (f_near small r 2)); [tauto |]; apply Rmax_r.
    - apply Rmin_glb; [apply Rmin_glb |].
      + apply Rle_trans with (ev (f_far small r 0)); [| tauto]; eapply Rle_trans; [apply Rmin_l | apply Rmin_l].
      + apply Rle_trans with (ev (f_far small r 1)); [| tauto]; eapply Rle_trans; [apply Rmin_l | apply Rmin_r].
      + apply Rle_trans with (ev (f_far small r 2)); [| tauto]; apply Rmin_r. }
  pose proof (slab_spec big r (near_far r big OK FB)) as S; destruct (f_slab big r) as [[q1 q2] |]; [| lra].
  destruct S as (N3 & N4 & E3 & E4 & _); exists q1, q2; split; [reflexivity |].
  rewrite !fle_ev by assumption; lra.
Qed.
Print Assumptions float_box_nested.

(* ----- a ray from inside a box ----- *)

Lemma fmul_bsign : forall a c : f32, is_nan (fmul a c) = false -> Bsign (fmul a c) = xorb (Bsign a) (Bsign c).
Proof.
  intros a c N; pose proof (Bmult_correct 24 128 prec24 emax128 mode_NE a c) as C; fold (fmul a c) in C.
  destruct (Rlt_bool _ _); [apply C, N |].
  apply sf_infinity in C; rewrite C; reflexivity.
Qed.

Lemma ev_bsign : forall x : f32, if Bsign x then ev x <= 0 else 0 <= ev x.
Proof.
  intro x; pose proof top_pos as P; pose proof (sign_val x) as S.
  destruct x as [s | s | | s m e b]; cbn [ev Bsign] in *; try exact S; destruct s; lra.
Qed.

Lemma zero_ev : forall x : f32, number x -> ev x = 0 -> exists s, x = B754_zero s.
Proof.
  intros x N E; pose proof top_pos as P; destruct x as [s | s | | s m e b]; try discriminate; [eauto | |].
  - exfalso; destruct s; cbn [ev] in E; lra.
  - exfalso; cbn [ev] in E; unfold val in E; cbn in E; destruct s.
    + pose proof (F2R_lt_0 radix2 (Float radix2 (Z.neg m) e) eq_refl) as L; cbn in L, E; lra.
    + pose proof (F2R_gt_0 radix2 (Float radix2 (Z.pos m) e) eq_refl) as L; cbn in L, E; lra.
Qed.

Lemma product_sign : forall a c : f32, number a -> number c -> is_nan (fmul a c) = false ->
  (0 <= ev a * ev c -> 0 <= ev (fmul a c)) /\ (ev a * ev c <= 0 -> ev (fmul a c) <= 0).
Proof.
  intros a c NA NC N; pose proof (fmul_bsign a c N) as S.
  pose proof (ev_bsign a) as SA; pose proof (ev_bsign c) as SC; pose proof (ev_bsign (fmul a c)) as SM; rewrite S in SM.
  assert (Z : ev a * ev c = 0 -> ev (fmul a c) = 0).
  { intro Z; apply Rmult_integral in Z; destruct Z as [Z | Z]; apply zero_ev in Z; try assumption; destruct Z as [s ->].
    - destruct c; try discriminate; reflexivity.
    - destruct a; try discriminate; reflexivity. }
  destruct (Req_dec (ev a * ev c) 0) as [E | E]; [rewrite (Z E); lra |]; clear Z.
  destruct (Bsign a), (Bsign c); cbn [xorb] in SM; split; intro H; try exact SM; exfalso; apply E; nra.
Qed.

Lemma from_inside : forall r k p q,
  fin (fcoord k (fr_o r)) -> fin p -> fin q ->
  val p <= val (fcoord k (fr_o r)) -> val (fcoord k (fr_o r)) <= val q ->
  (is_nan (f_meet r k (if f_isneg r k then q else p)) = true \/ ev (f_meet r k (if f_isneg r k then q else p)) <= 0) /\
  (is_nan (f_meet r k (if f_isneg r k then p else q)) = true \/ 0 <= ev (f_meet r k (if f_isneg r k then p else q))).
Proof.
  intros r k p q FO FP FQ LP LQ.
  destruct (fsub_ev p _ FP FO) as [NP _], (fsub_ev q _ FQ FO) as [NQ _].
  destruct (fsub_sign p _ FP FO) as [P1 P2], (fsub_sign q _ FQ FO) as [Q1 Q2].
  assert (EP : ev (fsub p (fcoord k (fr_o r))) <= 0) by lra.
  assert (EQ : 0 <= ev (fsub q (fcoord k (fr_o r)))) by lra.
  destruct (is_nan (f_inv r k)) eqn:NI.
  { assert (NAN : forall x, is_nan (f_meet r k x) = true).
    { intro x; unfold f_meet; destruct (f_inv r k); try discriminate; destruct (fsub x _); reflexivity. }
    split; left; apply NAN. }
  destruct fzero_val as [FZ VZ].
  assert (I : if f_isneg r k then ev (f_inv r k) <= 0 else 0 <= ev (f_inv r k)).
  { unfold f_isneg; destruct (flt (f_inv r k) fzero) eqn:E.
    - apply flt_ev in E; [| exact NI | apply fin_number, FZ]; rewrite (ev_fin _ FZ), VZ in E; lra.
    - apply flt_false_ev in E; [| exact NI | apply fin_number, FZ]; rewrite (ev_fin _ FZ), VZ in E; lra. }
  unfold f_meet; destruct (f_isneg r k); split;
    match goal with |- is_nan ?x = true \/ _ => destruct (is_nan x) eqn:N; [left; reflexivity | right] end;
    apply product_sign; try assumption; nra.
Qed.

Definition holds_point (b : fbox) (p : fvec) : Prop :=
  forall k, fin (fcoord k (fb_lo b)) /\ fin (fcoord k (fb_hi b)) /\ fin (fcoord k p) /\
            val (fcoord k (fb_lo b)) <= val (fcoord k p) <= val (fcoord k (fb_hi b)).

Lemma not_above : forall n f : f32, (is_nan n = true \/ ev n <= 0) -> (is_nan f = true \/ 0 <= ev f) -> fgt n f = false.
Proof.
  intros n f N F; change (fgt n f) with (flt f n); destruct (flt f n) eqn:E; [exfalso | reflexivity].
  destruct (flt_nan _ _ E) as [X Y]; apply flt_ev in E; [| exact X | exact Y].
  unfold number in *; destruct N as [N | N]; [congruence |]; destruct F as [F | F]; [congruence | lra].
Qed.

(* whatever the direction: zero, infinite, undefined *)
Theorem float_box_inside : forall b o d, holds_point b o -> exists p1 p2, f_slab b (mk_fray o d) = Some (p1, p2).
Proof.
  intros b o d H; set (r := mk_fray o d).
  assert (A : forall k, (is_nan (f_near b r k) = true \/ ev (f_near b r k) <= 0) /\ (is_nan (f_far b r k) = true \/ 0 <= ev (f_far b r k))).
  { intro k; destruct (H k) as (FL & FH & FO & L & U).
    pose proof (from_inside r k _ _ FO FL FH L U) as X; unfold f_near, f_far.
    destruct (f_isneg r k); exact X. }
  clearbody r; destruct (A 0%nat) as [N0 F0], (A 1%nat) as [N1 F1], (A 2%nat) as [N2 F2]; unfold f_slab; cbv zeta.
  rewrite (not_above _ _ N0 F1), (not_above _ _ N1 F0); cbn [orb].
  destruct (fgt (f_near b r 1) (f_near b r 0)), (flt (f_far b r 1) (f_far b r 0));
    rewrite !not_above by assumption; cbn [orb]; eauto.
Qed.
Print Assumptions float_box_inside.
