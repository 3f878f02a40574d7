(* The order of the floats with the infinities, and operations that keep it when they
   overflow: [ev] puts the infinities at +-2^128, beyond all finite floats. *)
From Coq Require Import ZArith Reals Lra Lia List.
From Flocq Require Import Core.Core IEEE754.BinarySingleNaN.
From Verif Require Import Common FltModel FltFacts.
Local Open Scope R_scope.

Definition top : R := bpow radix2 128.
Definition ev (x : f32) : R :=
  match x with B754_infinity s => if s then - top else top | _ => val x end.
Definition number (x : f32) : Prop := is_nan x = false.
Definition clip (t : R) : R := Rmax (- top) (Rmin top t).

Lemma top_pos : 0 < top.
Proof. apply bpow_gt_0. Qed.

Lemma clip_le : forall a b, a <= b -> clip a <= clip b.
Proof. intros a b L; unfold clip, Rmax, Rmin; repeat destruct (Rle_dec _ _); lra. Qed.

Lemma clip_id : forall a, Rabs a < top -> clip a = a.
Proof.
  intros a L; apply Rabs_def2 in L; unfold clip, Rmax, Rmin; repeat destruct (Rle_dec _ _); lra.
Qed.

Lemma clip_range : forall a, - top <= clip a <= top.
Proof. intro a; pose proof top_pos; unfold clip, Rmax, Rmin; repeat destruct (Rle_dec _ _); lra. Qed.

Lemma clip_pos : forall a, 0 < a <-> 0 < clip a.
Proof. intro a; pose proof top_pos; unfold clip, Rmax, Rmin; repeat destruct (Rle_dec _ _); lra. Qed.

Lemma clip_neg : forall a, a < 0 <-> clip a < 0.
Proof. intro a; pose proof top_pos; unfold clip, Rmax, Rmin; repeat destruct (Rle_dec _ _); lra. Qed.

Lemma fin_number : forall x, fin x -> number x.
Proof. intros x F; destruct x; try discriminate; reflexivity. Qed.

Lemma ev_fin : forall x, fin x -> ev x = val x.
Proof. intros x F; destruct x; try discriminate; reflexivity. Qed.

Lemma val_lt_top : forall x : f32, Rabs (val x) < top.
Proof. intro x; apply abs_B2R_lt_emax. Qed.

Lemma ev_lt_top : forall x, fin x -> Rabs (ev x) < top.
Proof. intros x F; rewrite ev_fin by exact F; apply val_lt_top. Qed.

Lemma ev_range : forall x, - top <= ev x <= top.
Proof.
  intro x; pose proof top_pos as P; pose proof (val_lt_top x) as L; apply Rabs_def2 in L.
  destruct x as [s | s | | s m e b]; cbn [ev]; [lra | destruct s; lra | lra | lra].
Qed.

Lemma fle_ev : forall x y, number x -> number y -> (fle x y = true <-> ev x <= ev y).
Proof.
  intros x y NX NY; pose proof top_pos as P.
  destruct (is_finite x) eqn:FX; destruct (is_finite y) eqn:FY.
  - rewrite !ev_fin by assumption; apply fle_val; assumption.
  - pose proof (ev_lt_top x FX) as L; apply Rabs_def2 in L.
    destruct y as [s | s | | s m e b]; try discriminate.
    destruct x as [t | t | | t n f c]; try discriminate; destruct s; cbn [ev] in *;
      cbv [fle Bleb SpecFloat.SFleb SpecFloat.SFcompare B2SF]; split; intro H; try discriminate; try reflexivity; lra.
  - pose proof (ev_lt_top y FY) as L; apply Rabs_def2 in L.
    destruct x as [s | s | | s m e b]; try discriminate.
    destruct y as [t | t | | t n f c]; try discriminate; destruct s; cbn [ev] in *;
      cbv [fle Bleb SpecFloat.SFleb SpecFloat.SFcompare B2SF]; split; intro H; try discriminate; try reflexivity; lra.
  - destruct x as [s | s | | s m e b]; try discriminate; destruct y as [t | t | | t n f c]; try discriminate.
    destruct s, t; cbn [ev]; cbv [fle Bleb SpecFloat.SFleb SpecFloat.SFcompare B2SF]; split; intro H; try discriminate; try reflexivity; lra.
Qed.

Lemma flt_fle : forall x y, number x -> number y -> flt x y = negb (fle y x).
Proof.
  intros x y NX NY; unfold flt, fle, Bltb, Bleb, SpecFloat.SFltb, SpecFloat.SFleb.
  pose proof (Bcompare_swap 24 128 x y) as S; unfold Bcompare in S; rewrite S.
  destruct (SpecFloat.SFcompare (B2SF x) (B2SF y)) as [[| |]|] eqn:C; cbn; try reflexivity.
  exfalso; clear S; destruct x as [s | s | | s m e b]; try discriminate;
    destruct y as [t | t | | t n f c]; try discriminate; cbn in C; repeat destruct s; repeat destruct t; try discriminate.
  all: destruct (Z.compare e f); discriminate.
Qed.

Lemma flt_ev : forall x y, number x -> number y -> (flt x y = true <-> ev x < ev y).
Proof.
  intros x y NX NY; rewrite flt_fle by assumption; pose proof (fle_ev y x NY NX) as H.
  destruct (fle y x); cbn.
  - split; [discriminate |]; intro L; assert (ev y <= ev x) by (apply H; reflexivity); lra.
  - split; [| reflexivity]; intros _; destruct (Rlt_or_le (ev x) (ev y)) as [L | L]; [exact L |].
    apply H in L; discriminate.
Qed.

Lemma flt_nan : forall x y, flt x y = true -> number x /\ number y.
Proof. intros x y; destruct x, y; cbn; try discriminate; try (destruct s; try destruct s0; discriminate); split; reflexivity. Qed.

Lemma flt_false_ev : forall x y, number x -> number y -> (flt x y = false <-> ev y <= ev x).
Proof.
  intros x y NX NY; pose proof (flt_ev x y NX NY) as H; destruct (flt x y).
  - split; [discriminate |]; intro L; assert (ev x < ev y) by (apply H; reflexivity); lra.
  - split; [| reflexivity]; intros _; destruct (Rlt_or_le (ev x) (ev y)) as [L | L]; [| exact L].
    apply H in L; discriminate.
Qed.

Lemma sign_val : forall x : f32, if Bsign x then val x <= 0 else 0 <= val x.
Proof.
  intro x; destruct x as [s | s | | s m e b]; cbn; try lra; try (destruct s; lra).
  destruct s.
  - apply Rlt_le, F2R_lt_0; reflexivity.
  - apply Rlt_le, F2R_gt_0; reflexivity.
Qed.

Lemma sf_infinity : forall (x : f32) s, B2SF x = SpecFloat.S754_infinity s -> x = B754_infinity s.
Proof. intros x s E; destruct x; cbn in E; try discriminate; injection E as ->; reflexivity. Qed.

Lemma rnd_0 : rnd 0 = 0.
Proof. apply round_0; auto with typeclass_instances. Qed.

Lemma rnd_sign : forall x, (0 <= x -> 0 <= rnd x) /\ (x <= 0 -> rnd x <= 0).
Proof. intro x; split; intro L; apply rnd_le in L; rewrite rnd_0 in L; exact L. Qed.

Lemma fsub_ev : forall x y, fin x -> fin y ->
  number (fsub x y) /\ ev (fsub x y) = clip (rnd (val x - val y)).
Proof.
  intros x y FX FY; pose proof (Bminus_correct 24 128 prec24 emax128 mode_NE x y FX FY) as C.
  cbn [round_mode] in C; change (round radix2 (SpecFloat.fexp 24 128) ZnearestE (B2R x - B2R y)) with (rnd (val x - val y)) in C.
  destruct (Rlt_bool_spec (Rabs (rnd (val x - val y))) (bpow radix2 128)) as [L | L].
  - destruct C as (C1 & C2 & _); split; [apply fin_number, C2 |].
    rewrite clip_id by exact L; rewrite <- C1; exact (ev_fin _ C2).
  - destruct C as [C S]; change (fsub x y) with (@Bminus 24 128 prec24 emax128 mode_NE x y).
    apply sf_infinity in C; rewrite C; split; [reflexivity |]; cbn [ev]; fold top in L.
    pose proof top_pos; pose proof (sign_val x) as SX; pose proof (sign_val y) as SY.
    destruct (Bsign x), (Bsign y); try discriminate.
    + assert (N : rnd (val x - val y) <= 0) by (apply rnd_sign; lra).
      rewrite Rabs_left1 in L by exact N; unfold clip, Rmax, Rmin; repeat destruct (Rle_dec _ _); lra.
    + assert (N : 0 <= rnd (val x - val y)) by (apply rnd_sign; lra).
      rewrite Rabs_pos_eq in L by exact N; unfold clip, Rmax, Rmin; repeat destruct (Rle_dec _ _); lra.
Qed.

Lemma fmul_ev : forall x y, fin x -> fin y ->
  number (fmul x y) /\ ev (fmul x y) = clip (rnd (val x * val y)).
Proof.
  intros x y FX FY; pose proof (Bmult_correct 24 128 prec24 emax128 mode_NE x y) as C.
  cbn [round_mode] in C; change (round radix2 (SpecFloat.fexp 24 128) ZnearestE (B2R x * B2R y)) with (rnd (val x * val y)) in C.
  destruct (Rlt_bool_spec (Rabs (rnd (val x * val y))) (bpow radix2 128)) as [L | L].
  - destruct C as (C1 & C2 & _); rewrite FX, FY in C2; split; [apply fin_number, C2 |].
    rewrite clip_id by exact L; rewrite <- C1; exact (ev_fin _ C2).
  - change (fmul x y) with (@Bmult 24 128 prec24 emax128 mode_NE x y).
    apply sf_infinity in C; rewrite C; split; [reflexivity |]; cbn [ev]; fold top in L.
    pose proof top_pos; pose proof (sign_val x) as SX; pose proof (sign_val y) as SY.
    destruct (Bsign x), (Bsign y); cbn [xorb].
    1,4: assert (N : 0 <= rnd (val x * val y)) by (apply rnd_sign; nra);
      rewrite Rabs_pos_eq in L by exact N; unfold clip, Rmax, Rmin; repeat destruct (Rle_dec _ _); lra.
    all: assert (N : rnd (val x * val y) <= 0) by (apply rnd_sign; nra);
      rewrite Rabs_left1 in L by exact N; unfold clip, Rmax, Rmin; repeat destruct (Rle_dec _ _); lra.
Qed.

Lemma fmul_inf_fin : forall s c, fin c -> val c <> 0 -> fmul (B754_infinity s) c = B754_infinity (xorb s (Bsign c)).
Proof. intros s c F N; destruct c as [t | t | | t m e b]; try discriminate; try reflexivity; contradict N; reflexivity. Qed.

Lemma fmul_fin_inf : forall s c, fin c -> val c <> 0 -> fmul c (B754_infinity s) = B754_infinity (xorb (Bsign c) s).
Proof. intros s c F N; destruct c as [t | t | | t m e b]; try discriminate; try reflexivity; contradict N; reflexivity. Qed.

Lemma inf_cases : forall x : f32, number x -> fin x \/ exists s, x = B754_infinity s.
Proof. intros [s | s | | s m e b] N; try discriminate; [left; reflexivity | right; eauto | left; reflexivity]. Qed.

(* a product with a positive finite number keeps the order *)
Lemma fmul_mono : forall a b c, number a -> number b -> fin c -> 0 < val c -> ev a <= ev b ->
  number (fmul a c) /\ number (fmul b c) /\ ev (fmul a c) <= ev (fmul b c).
Proof.
  intros a b c NA NB FC PC L.
  assert (SC : Bsign c = false) by (pose proof (sign_val c) as S; destruct (Bsign c); [lra | reflexivity]).
  assert (NC : val c <> 0) by lra; pose proof top_pos as P.
  destruct (inf_cases a NA) as [FA | [s ->]]; destruct (inf_cases b NB) as [FB | [t ->]].
  - destruct (fmul_ev a c FA FC) as [N1 E1], (fmul_ev b c FB FC) as [N2 E2].
    split; [exact N1 | split; [exact N2 |]]; rewrite E1, E2; apply clip_le, rnd_le.
    rewrite !ev_fin in L by assumption; apply Rmult_le_compat_r; lra.
  - destruct (fmul_ev a c FA FC) as [N1 E1]; rewrite fmul_inf_fin, SC, xorb_false_r by assumption.
    split; [exact N1 | split; [reflexivity |]]; cbn [ev] in *.
    pose proof (ev_lt_top a FA) as LT; apply Rabs_def2 in LT; destruct t; [lra |]; apply ev_range.
  - destruct (fmul_ev b c FB FC) as [N1 E1]; rewrite fmul_inf_fin, SC, xorb_false_r by assumption.
    split; [reflexivity | split; [exact N1 |]]; cbn [ev] in *.
    pose proof (ev_lt_top b FB) as LT; apply Rabs_def2 in LT; destruct s; [| lra]; apply ev_range.
  - rewrite !fmul_inf_fin, SC, !xorb_false_r by assumption; split; [reflexivity | split; [reflexivity |]]; exact L.
Qed.

Lemma fmul_anti : forall a b c, number a -> number b -> fin c -> val c < 0 -> ev a <= ev b ->
  number (fmul a c) /\ number (fmul b c) /\ ev (fmul b c) <= ev (fmul a c).
Proof.
  intros a b c NA NB FC PC L.
  assert (SC : Bsign c = true) by (pose proof (sign_val c) as S; destruct (Bsign c); [reflexivity | lra]).
  assert (NC : val c <> 0) by lra; pose proof top_pos as P.
  destruct (inf_cases a NA) as [FA | [s ->]]; destruct (inf_cases b NB) as [FB | [t ->]].
  - destruct (fmul_ev a c FA FC) as [N1 E1], (fmul_ev b c FB FC) as [N2 E2].
    split; [exact N1 | split; [exact N2 |]]; rewrite E1, E2; apply clip_le, rnd_le.
    rewrite !ev_fin in L by assumption; nra.
  - destruct (fmul_ev a c FA FC) as [N1 E1]; rewrite fmul_inf_fin, SC, xorb_true_r by assumption.
    split; [exact N1 | split; [reflexivity |]]; cbn [ev] in *.
    pose proof (ev_lt_top a FA) as LT; apply Rabs_def2 in LT; destruct t; [lra |]; apply ev_range.
  - destruct (fmul_ev b c FB FC) as [N1 E1]; rewrite fmul_inf_fin, SC, xorb_true_r by assumption.
    split; [reflexivity | split; [exact N1 |]]; cbn [ev] in *.
    pose proof (ev_lt_top b FB) as LT; apply Rabs_def2 in LT; destruct s; [| lra]; apply ev_range.
  - rewrite !fmul_inf_fin, SC, !xorb_true_r by assumption; split; [reflexivity | split; [reflexivity |]].
    destruct s, t; cbn [ev negb] in *; lra.
Qed.
