(* Where a ray meets planes, with rounding: the position is a monotone function of the plane. *)
From Coq Require Import ZArith Reals Lra Lia List.
From Flocq Require Import Core.Core IEEE754.BinarySingleNaN.
From Flocq Require Import Plus_error.
From Verif Require Import Common FltModel FltFacts FExtFacts FRayModel.
Local Open Scope R_scope.

(* a ray the renderer can make: finite, direction components not much over one *)
Definition ray_ok (r : fray) : Prop :=
  forall k, fin (fcoord k (fr_o r)) /\ fin (fcoord k (fr_d r)) /\ Rabs (val (fcoord k (fr_d r))) <= 3 / 2.

(* the plane is finite, and not the one the ray runs in *)
Definition plane_ok (r : fray) (k : nat) (p : f32) : Prop :=
  fin p /\ (fin (f_inv r k) \/ val p <> val (fcoord k (fr_o r))).

Lemma fsub_sign : forall x y, fin x -> fin y ->
  (0 < ev (fsub x y) <-> val y < val x) /\ (ev (fsub x y) < 0 <-> val x < val y).
Proof.
  intros x y FX FY; destruct (fsub_ev x y FX FY) as [_ ->].
  rewrite <- clip_pos, <- clip_neg.
  assert (N : val x <> val y -> rnd (val x - val y) <> 0).
  { intros D; replace (val x - val y) with (val x + - val y) by ring.
    apply round_plus_neq_0; auto with typeclass_instances; [apply fits_val | apply fits_opp, fits_val | lra]. }
  destruct (rnd_sign (val x - val y)) as [P Q].
  destruct (Rtotal_order (val x) (val y)) as [L | [E | L]].
  - specialize (N ltac:(lra)); specialize (Q ltac:(lra)); lra.
  - specialize (P ltac:(lra)); specialize (Q ltac:(lra)); lra.
  - specialize (N ltac:(lra)); specialize (P ltac:(lra)); lra.
Qed.

Lemma inv_cases : forall d, fin d -> Rabs (val d) <= 3 / 2 ->
  (fin (fdiv fone d) /\ 0 < val (fdiv fone d) * val d /\ 5 / 8 <= Rabs (val (fdiv fone d))) \/
  exists s, fdiv fone d = B754_infinity s.
Proof.
  intros d FD B; destruct (Req_dec (val d) 0) as [Z | NZ].
  - right; destruct d as [s | s | | s m e b]; try discriminate.
    + exists s; destruct s; reflexivity.
    + exfalso; unfold val in Z; cbn in Z; destruct s.
      * pose proof (F2R_lt_0 radix2 (Float radix2 (Z.neg m) e) eq_refl) as L; cbn in L, Z; lra.
      * pose proof (F2R_gt_0 radix2 (Float radix2 (Z.pos m) e) eq_refl) as L; cbn in L, Z; lra.
  - pose proof (Bdiv_correct 24 128 prec24 emax128 mode_NE fone d NZ) as C.
    cbn [round_mode] in C; change (round radix2 (SpecFloat.fexp 24 128) ZnearestE (B2R fone / B2R d)) with (rnd (val fone / val d)) in C.
    destruct (Rlt_bool_spec (Rabs (rnd (val fone / val d))) (bpow radix2 128)) as [L | L].
    + left; destruct C as (C1 & C2 & _); destruct fone_val as [F1 V1].
      change (B2R (Bdiv mode_NE fone d)) with (val (fdiv fone d)) in C1; rewrite V1 in C1.
      assert (F58 : fits (5 / 8)).
      { replace (5 / 8) with (IZR 5 * bpow radix2 (-3)) by (cbn; lra); apply fits_scaled; lia. }
      split; [exact (eq_trans C2 F1) |].
      destruct (Rlt_or_le 0 (val d)) as [P | P].
      * rewrite Rabs_pos_eq in B by lra.
        assert (Q : 5 / 8 <= 1 / val d) by (apply Rmult_le_reg_r with (val d); [exact P | field_simplify; lra]).
        pose proof (rnd_le _ _ Q) as Q'; rewrite (rnd_fits _ F58), <- C1 in Q'.
        split; [nra |]; rewrite Rabs_pos_eq; lra.
      * rewrite Rabs_left1 in B by exact P.
        assert (Q : 1 / val d <= - (5 / 8)).
        { apply Rmult_le_reg_r with (- val d); [lra |].
          replace (1 / val d * - val d) with (-1) by (field; exact NZ); lra. }
        pose proof (rnd_le _ _ Q) as Q'; rewrite (rnd_fits _ (fits_opp _ F58)), <- C1 in Q'.
        split; [nra |]; rewrite Rabs_left1; lra.
    + right; apply sf_infinity in C; eauto.
Qed.

Lemma isneg_fin : forall r k, fin (f_inv r k) -> (f_isneg r k = true <-> val (f_inv r k) < 0).
Proof. intros r k F; unfold f_isneg; destruct fzero_val as [Z V]; rewrite flt_val by assumption; rewrite V; reflexivity. Qed.

Lemma isneg_inf : forall r k s, f_inv r k = B754_infinity s -> f_isneg r k = s.
Proof. intros r k s E; unfold f_isneg; rewrite E; destruct s; reflexivity. Qed.

Lemma rnd_not_tiny : forall x, 5 / 8 * bpow radix2 (-149) <= x -> 0 < rnd x.
Proof.
  intros x L; pose proof (rnd_err x) as E; assert (P : 0 < bpow radix2 (-149)) by apply bpow_gt_0.
  assert (B150 : bpow radix2 (-150) = / 2 * bpow radix2 (-149)) by (pose proof (bpow_plus_1 radix2 (-150)) as Q; change (-150 + 1)%Z with (-149)%Z in Q; change (IZR radix2) with 2 in Q; lra).
  assert (B24 : bpow radix2 (-24) <= / 8) by (cbn; lra).
  rewrite (Rabs_pos_eq x) in E by lra;
  assert (H : - (bpow radix2 (-24) * x + bpow radix2 (-150)) <= rnd x - x) by (unfold Rabs in E; destruct (Rcase_abs (rnd x - x)); lra).
  nra.
Qed.

Lemma val_not_tiny : forall x, val x <> 0 -> bpow radix2 (-149) <= Rabs (val x).
Proof.
  intros x N; apply (generic_format_ge_bpow radix2 (FLT_exp (-149) 24)).
  - intro e; unfold FLT_exp; lia.
  - apply Rabs_pos_lt, N.
  - apply generic_format_abs, fits_val.
Qed.

(* the sign of a product with a number that is not small *)
Lemma fmul_sign_pos : forall a c, number a -> fin c -> 5 / 8 <= val c ->
  (0 < ev (fmul a c) <-> 0 < ev a) /\ (ev (fmul a c) < 0 <-> ev a < 0).
Proof.
  intros a c NA FC L; pose proof top_pos as P.
  assert (SC : Bsign c = false) by (pose proof (sign_val c) as S; destruct (Bsign c); [lra | reflexivity]).
  destruct (inf_cases a NA) as [FA | [s ->]].
  - destruct (fmul_ev a c FA FC) as [_ ->]; rewrite <- clip_pos, <- clip_neg, ev_fin by exact FA.
    assert (T : 0 < bpow radix2 (-149)) by apply bpow_gt_0.
    destruct (Rtotal_order (val a) 0) as [N | [N | N]].
    + pose proof (val_not_tiny a ltac:(lra)) as B; rewrite Rabs_left in B by exact N.
      assert (G : 0 < rnd (- (val a * val c))) by (apply rnd_not_tiny; nra).
      unfold rnd in *; rewrite round_NE_opp in G; lra.
    + rewrite N, Rmult_0_l, rnd_0; lra.
    + pose proof (val_not_tiny a ltac:(lra)) as B; rewrite Rabs_pos_eq in B by lra.
      assert (G : 0 < rnd (val a * val c)) by (apply rnd_not_tiny; nra); lra.
  - rewrite fmul_inf_fin, SC, xorb_false_r by (assumption || lra); tauto.
Qed.

Lemma fmul_sign_neg : forall a c, number a -> fin c -> val c <= - (5 / 8) ->
  (0 < ev (fmul a c) <-> ev a < 0) /\ (ev (fmul a c) < 0 <-> 0 < ev a).
Proof.
  intros a c NA FC L; pose proof top_pos as P.
  assert (SC : Bsign c = true) by (pose proof (sign_val c) as S; destruct (Bsign c); [reflexivity | lra]).
  destruct (inf_cases a NA) as [FA | [s ->]].
  - destruct (fmul_ev a c FA FC) as [_ ->]; rewrite <- clip_pos, <- clip_neg, ev_fin by exact FA.
    assert (T : 0 < bpow radix2 (-149)) by apply bpow_gt_0.
    destruct (Rtotal_order (val a) 0) as [N | [N | N]].
    + pose proof (val_not_tiny a ltac:(lra)) as B; rewrite Rabs_left in B by exact N.
      assert (G : 0 < rnd (val a * val c)) by (apply rnd_not_tiny; nra); lra.
    + rewrite N, Rmult_0_l, rnd_0; lra.
    + pose proof (val_not_tiny a ltac:(lra)) as B; rewrite Rabs_pos_eq in B by lra.
      assert (G : 0 < rnd (- (val a * val c))) by (apply rnd_not_tiny; nra).
      unfold rnd in *; rewrite round_NE_opp in G; lra.
  - rewrite fmul_inf_fin, SC, xorb_true_r by (assumption || lra); destruct s; cbn [negb ev]; lra.
Qed.

(* product of a number with an infinity *)
Lemma fmul_by_inf : forall a s, number a -> ev a <> 0 ->
  fmul a (B754_infinity s) = B754_infinity (if Rlt_dec (ev a) 0 then negb s else s).
Proof.
  intros a s NA N; pose proof top_pos as P; destruct (inf_cases a NA) as [FA | [t ->]].
  - rewrite ev_fin in N by exact FA; rewrite fmul_fin_inf by assumption; rewrite ev_fin by exact FA.
    pose proof (sign_val a) as S; destruct (Bsign a), (Rlt_dec (val a) 0); try lra; destruct s; reflexivity.
  - destruct t; cbn [ev] in *; destruct (Rlt_dec _ _); try lra; destruct s; reflexivity.
Qed.

Section Ray.
Variable r : fray.
Hypothesis OK : ray_ok r.

Lemma meet_number : forall k p, plane_ok r k p -> number (f_meet r k p).
Proof using OK.
  intros k p [FP A]; destruct (OK k) as (FO & FD & B); unfold f_meet.
  destruct (fsub_ev p (fcoord k (fr_o r)) FP FO) as [N _].
  destruct (inv_cases _ FD B) as [(FI & PI & AI) | [s E]].
  - fold (f_inv r k) in *; assert (NZ : val (f_inv r k) <> 0) by (intro Z; rewrite Z, Rabs_R0 in AI; lra).
    destruct (inf_cases _ N) as [F | [t ->]]; [apply fmul_ev; assumption |].
    rewrite fmul_inf_fin by assumption; reflexivity.
  - fold (f_inv r k) in E; rewrite E in *; destruct A as [A | A]; [discriminate |].
    destruct (fsub_sign p (fcoord k (fr_o r)) FP FO) as [S1 S2].
    rewrite fmul_by_inf; [reflexivity | exact N |].
    intro Z; rewrite Z in *; lra.
Qed.

Lemma meet_sign : forall k p, plane_ok r k p ->
  (0 < ev (f_meet r k p) <-> if f_isneg r k then val p < val (fcoord k (fr_o r)) else val (fcoord k (fr_o r)) < val p).
Proof using OK.
  intros k p [FP A]; destruct (OK k) as (FO & FD & B); unfold f_meet; pose proof top_pos as P.
  destruct (fsub_ev p (fcoord k (fr_o r)) FP FO) as [N _].
  destruct (fsub_sign p (fcoord k (fr_o r)) FP FO) as [S1 S2].
  destruct (inv_cases _ FD B) as [(FI & PI & AI) | [s E]].
  - fold (f_inv r k) in *; pose proof (isneg_fin r k FI) as I; destruct (f_isneg r k).
    + assert (L : val (f_inv r k) < 0) by (apply I; reflexivity); rewrite Rabs_left in AI by exact L.
      rewrite <- S2; apply fmul_sign_neg; [assumption | assumption | lra].
    + assert (L : ~ val (f_inv r k) < 0) by (intro H; apply I in H; discriminate).
      rewrite Rabs_pos_eq in AI by lra; rewrite <- S1; apply fmul_sign_pos; assumption.
  - fold (f_inv r k) in E; rewrite (isneg_inf r k s E); rewrite E in *; destruct A as [A | A]; [discriminate |].
    assert (NZ : ev (fsub p (fcoord k (fr_o r))) <> 0) by (intro Z; rewrite Z in *; lra).
    rewrite fmul_by_inf by assumption; destruct (Rlt_dec _ _) as [L | L]; destruct s; cbn [negb ev]; lra.
Qed.

(* the position is a monotone function of the plane *)
Lemma meet_mono : forall k p q, plane_ok r k p -> plane_ok r k q -> val p <= val q ->
  if f_isneg r k then ev (f_meet r k q) <= ev (f_meet r k p) else ev (f_meet r k p) <= ev (f_meet r k q).
Proof using OK.
  intros k p q [FP A] [FQ C] L; destruct (OK k) as (FO & FD & B); unfold f_meet; pose proof top_pos as P.
  destruct (fsub_ev p (fcoord k (fr_o r)) FP FO) as [NP EP].
  destruct (fsub_ev q (fcoord k (fr_o r)) FQ FO) as [NQ EQ].
  assert (M : ev (fsub p (fcoord k (fr_o r))) <= ev (fsub q (fcoord k (fr_o r)))).
  { rewrite EP, EQ; apply clip_le, rnd_le; lra. }
  destruct (inv_cases _ FD B) as [(FI & PI & AI) | [s E]].
  - fold (f_inv r k) in *; pose proof (isneg_fin r k FI) as I; destruct (f_isneg r k).
    + assert (LT : val (f_inv r k) < 0) by (apply I; reflexivity).
      apply fmul_anti; assumption.
    + assert (LT : ~ val (f_inv r k) < 0) by (intro H; apply I in H; discriminate).
      apply fmul_mono; try assumption; rewrite Rabs_pos_eq in AI by lra; lra.
  - fold (f_inv r k) in E; rewrite (isneg_inf r k s E); rewrite E in *.
    destruct A as [A | A]; [discriminate |]; destruct C as [C | C]; [discriminate |].
    destruct (fsub_sign p (fcoord k (fr_o r)) FP FO) as [S1 S2].
    destruct (fsub_sign q (fcoord k (fr_o r)) FQ FO) as [S3 S4].
    assert (NZ : ev (fsub p (fcoord k (fr_o r))) <> 0) by (intro Z; rewrite Z in *; lra).
    assert (NZ' : ev (fsub q (fcoord k (fr_o r))) <> 0) by (intro Z; rewrite Z in *; lra).
    rewrite !fmul_by_inf by assumption.
    destruct s; repeat destruct (Rlt_dec _ _); cbn [negb ev]; lra.
Qed.
End Ray.
