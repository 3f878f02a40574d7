(* Theorems about the masking terms and the anisotropic distribution. *)
From Coq Require Import Reals Ratan Lra Lia.
From Verif Require Import RVecModel RVecProps PrimSpec SpecularModel MicroModel MicroSpec MicroProps
  SphUvProps AnisoModel AnisoSpec.
Local Open Scope R_scope.

Lemma unit_xy : forall v, unit v -> rx v * rx v + ry v * ry v = 1 - rz v * rz v.
Proof. intros v U; unfold unit, rdot in U; lra. Qed.

Lemma unit_z : forall v, unit v -> 0 <= 1 - rz v * rz v.
Proof. intros v U; rewrite <- (unit_xy v U); nra. Qed.

(* ---- masking of the isotropic distribution ---- *)

(* C280, C281.  The masking term of GGX stays between zero and one, but it is smaller than the
   one of Smith in every direction other than the normal and the grazing ones. *)
Theorem ggx_masking_range : forall a2 v, 0 <= a2 -> unit v ->
  0 <= ggx_G1 a2 v <= 1 /\ (rz v <> 0 -> 0 < ggx_G1 a2 v).
Proof.
  intros a2 v A U; unfold ggx_G1; cbv zeta.
  destruct (Req_EM_T (rz v * rz v) 0) as [E | E].
  - split; [lra |]; intro N; exfalso; apply N; nra.
  - set (s := Rmax 0 _). assert (S : 0 <= s) by apply Rmax_l.
    assert (Z : 0 < rz v * rz v) by nra.
    assert (Q : 1 <= sqrt (1 + a2 * s / (rz v * rz v))).
    { rewrite <- sqrt_1 at 1; apply sqrt_le_1_alt.
      assert (0 <= a2 * s / (rz v * rz v)); [| lra].
      apply Rmult_le_pos; [nra |]; apply Rlt_le, Rinv_0_lt_compat, Z. }
    set (q := sqrt _) in *.
    assert (P : 0 < 2 / (1 + q)) by (apply Rdiv_lt_0_compat; lra).
    split; [split; [lra |] | intros _; exact P].
    apply (Rmult_le_reg_r (1 + q)); [lra |]; unfold Rdiv; rewrite Rmult_assoc, Rinv_l; lra.
Qed.
Print Assumptions ggx_masking_range.
Example ggx_masking_range_ex : unit (RV (3 / 5) 0 (4 / 5)) /\ 0 <= 1 / 4.
Proof. unfold unit, rdot; cbn; lra. Qed.

Theorem ggx_masking_refuted : forall a2 v, 0 < a2 -> unit v -> rz v <> 0 -> Rabs (rz v) <> 1 ->
  ggx_G1 a2 v < smith_seen a2 v.
Proof.
  intros a2 v A U N N1; unfold ggx_G1, smith_seen, tan2; cbv zeta.
  rewrite (unit_xy v U); pose proof (unit_z v U) as Z.
  set (c := rz v * rz v) in *.
  assert (C : 0 < c) by (unfold c; nra).
  assert (C1 : c < 1).
  { destruct (Req_dec c 1) as [E | E]; [| lra]; exfalso; apply N1; unfold c in E.
    rewrite <- sqrt_Rsqr_abs; unfold Rsqr; rewrite E; apply sqrt_1. }
  destruct (Req_EM_T c 0) as [E | _]; [lra |].
  rewrite Rmax_right by nra.
  assert (S : sqrt (1 + a2 * ((1 - c) / c)) < sqrt (1 + a2 * (1 - c * c) / c)).
  { apply sqrt_lt_1_alt; split.
    - assert (0 <= a2 * ((1 - c) / c)); [| lra].
      apply Rmult_le_pos; [lra |]; apply Rmult_le_pos; [lra |]; apply Rlt_le, Rinv_0_lt_compat, C.
    - apply Rplus_lt_compat_l; unfold Rdiv; rewrite <- Rmult_assoc.
      apply Rmult_lt_compat_r; [apply Rinv_0_lt_compat, C | apply Rmult_lt_compat_l; nra]. }
  pose proof (sqrt_pos (1 + a2 * ((1 - c) / c))).
  apply Rmult_lt_compat_l; [lra |]; apply Rinv_lt_contravar; [nra | lra].
Qed.
Print Assumptions ggx_masking_refuted.
Example ggx_masking_refuted_ex : unit (RV (3 / 5) 0 (4 / 5)) /\ Rabs (4 / 5) <> 1.
Proof. rewrite Rabs_right by lra; unfold unit, rdot; cbn; lra. Qed.

(* ---- masking of Blinn and Beckmann ---- *)

Lemma rational_bounds : forall c, 0 <= c -> 0 <= rational_G1 c <= 10001 / 10000.
Proof.
  intros c C; unfold rational_G1; destruct (Rle_dec (16 / 10) c) as [_ | L]; [lra |].
  set (d := 1 + 2276 / 1000 * c + 2577 / 1000 * c * c).
  assert (D : 0 < d) by (unfold d; nra).
  split; [apply Rmult_le_pos; [nra | apply Rlt_le, Rinv_0_lt_compat, D] |].
  apply (Rmult_le_reg_r d); [exact D |]; unfold Rdiv at 1; rewrite Rmult_assoc, Rinv_l, Rmult_1_r by lra.
  pose proof (Rle_0_sqr (c - 1588 / 1000)) as Q; unfold Rsqr in Q; unfold d; nra.
Qed.

Lemma rational_above : forall c, 155 / 100 <= c < 16 / 10 -> 1 < rational_G1 c.
Proof.
  intros c C; unfold rational_G1; destruct (Rle_dec (16 / 10) c) as [L | L]; [lra |].
  set (d := 1 + 2276 / 1000 * c + 2577 / 1000 * c * c).
  assert (D : 0 < d) by (unfold d; nra).
  apply (Rmult_lt_reg_r d); [exact D |]; unfold Rdiv at 1; rewrite (Rmult_assoc _ (/ d) d), Rinv_l, Rmult_1_r by lra.
  unfold d; nra.
Qed.

Lemma cos_lt : forall v, unit v -> ~ 1 <= Rabs (rz v) -> 0 < sqrt (1 - Rabs (rz v) * Rabs (rz v)).
Proof. intros v U N; apply sqrt_lt_R0; pose proof (Rabs_pos (rz v)); nra. Qed.

(* C282, C283.  The masking terms of Blinn and Beckmann never leave [0, 1.0001]; yet for every
   roughness there are directions seen by more than all of the surface. *)
Theorem approximate_masking : forall n a v, 0 <= n -> 0 < a -> unit v ->
  0 <= blinn_G1 n v <= 10001 / 10000 /\ 0 <= beckmann_G1 a v <= 10001 / 10000.
Proof.
  intros n a v N A U; unfold blinn_G1, beckmann_G1; cbv zeta; pose proof (Rabs_pos (rz v)) as P.
  destruct (Req_EM_T (Rabs (rz v)) 0) as [E | E]; [lra |].
  destruct (Rle_dec 1 (Rabs (rz v))) as [L | L]; [lra |].
  pose proof (cos_lt v U L) as S; set (c := Rabs (rz v)) in *.
  assert (C : 0 < c) by lra.
  split; apply rational_bounds.
  - apply Rmult_le_pos; [apply sqrt_pos |]; apply Rlt_le, Rinv_0_lt_compat, Rdiv_lt_0_compat; lra.
  - apply Rmult_le_pos; [lra |]; rewrite Rmax_right by nra.
    apply Rlt_le, Rinv_0_lt_compat, Rmult_lt_0_compat; lra.
Qed.
Print Assumptions approximate_masking.
Example approximate_masking_ex : unit (RV (3 / 5) 0 (4 / 5)) /\ 0 <= 100.
Proof. unfold unit, rdot; cbn; lra. Qed.

(* the direction whose cotangent is k *)
Definition slanted (k : R) : rv := RV (1 / sqrt (1 + k * k)) 0 (k / sqrt (1 + k * k)).

Lemma slanted_unit : forall k, unit (slanted k).
Proof.
  intro k; unfold unit, rdot, slanted; cbn.
  pose proof (sqrt_lt_R0 (1 + k * k) ltac:(nra)) as S; pose proof (sqrt_sqrt (1 + k * k) ltac:(nra)) as Q.
  set (s := sqrt _) in *; transitivity ((1 + k * k) / (s * s)); [field; lra |]; rewrite Q; field; nra.
Qed.

Lemma slanted_cos : forall k, 0 < k -> let c := Rabs (rz (slanted k)) in
  0 < c < 1 /\ sqrt (1 - c * c) = 1 / sqrt (1 + k * k) /\ c = k / sqrt (1 + k * k).
Proof.
  intros k K c.
  pose proof (sqrt_lt_R0 (1 + k * k) ltac:(nra)) as S; pose proof (sqrt_sqrt (1 + k * k) ltac:(nra)) as Q.
  assert (E : c = k / sqrt (1 + k * k)).
  { unfold c, slanted; cbn; apply Rabs_right, Rle_ge, Rlt_le, Rdiv_lt_0_compat; lra. }
  assert (H : 1 - c * c = (1 / sqrt (1 + k * k)) * (1 / sqrt (1 + k * k))).
  { rewrite E; set (s := sqrt _) in *; transitivity ((s * s - k * k) / (s * s)); [field; lra |]; rewrite Q at 1; field; lra. }
  assert (I : 0 < 1 / sqrt (1 + k * k)) by (apply Rdiv_lt_0_compat; lra).
  assert (C0 : 0 < c) by (rewrite E; apply Rdiv_lt_0_compat; lra).
  split; [split; [exact C0 | nra] | split; [| exact E]].
  rewrite H; apply sqrt_square; lra.
Qed.

Theorem approximate_masking_refuted :
  (forall n, 0 <= n -> exists v, unit v /\ 0 < rz v /\ 1 < blinn_G1 n v) /\
  (forall a, 0 < a -> exists v, unit v /\ 0 < rz v /\ 1 < beckmann_G1 a v).
Proof.
  assert (G : forall k, 0 < k -> unit (slanted k) /\ 0 < rz (slanted k)).
  { intros k K; split; [apply slanted_unit |]; cbn; apply Rdiv_lt_0_compat; [exact K |].
    apply sqrt_lt_R0; nra. }
  split.
  - intros n N.
    pose proof (sqrt_lt_R0 (1 / 2 * n + 1) ltac:(lra)) as Q; set (q := sqrt (1 / 2 * n + 1)) in *.
    assert (K : 0 < 155 / 100 / q) by (apply Rdiv_lt_0_compat; lra).
    exists (slanted (155 / 100 / q)); destruct (G _ K) as (U & Z); split; [exact U | split; [exact Z |]].
    unfold blinn_G1; cbv zeta; destruct (slanted_cos _ K) as (C & SC & EC).
    destruct (Req_EM_T _ 0) as [E | _]; [rewrite E in C; lra |].
    destruct (Rle_dec 1 _) as [E | _]; [exfalso; revert C E; set (x := Rabs _); lra |].
    rewrite SC, EC; fold q; apply rational_above.
    pose proof (sqrt_lt_R0 (1 + 155 / 100 / q * (155 / 100 / q)) ltac:(nra)) as S; set (s := sqrt (1 + _)) in *.
    replace (q / (1 / s / (155 / 100 / q / s))) with (155 / 100) by (field; lra); lra.
  - intros a A; assert (K : 0 < 155 / 100 * a) by lra.
    exists (slanted (155 / 100 * a)); destruct (G _ K) as (U & Z); split; [exact U | split; [exact Z |]].
    unfold beckmann_G1; cbv zeta; destruct (slanted_cos _ K) as (C & SC & EC).
    destruct (Req_EM_T _ 0) as [E | _]; [rewrite E in C; lra |].
    destruct (Rle_dec 1 _) as [E | _]; [exfalso; revert C E; set (x := Rabs _); lra |].
    rewrite Rmax_right by (revert C; set (x := Rabs _); nra).
    rewrite SC, EC; apply rational_above.
    pose proof (sqrt_lt_R0 (1 + 155 / 100 * a * (155 / 100 * a)) ltac:(nra)) as S; set (s := sqrt (1 + _)) in *.
    replace (155 / 100 * a / s / (1 / s * a)) with (155 / 100) by (field; lra); lra.
Qed.
Print Assumptions approximate_masking_refuted.
Example approximate_masking_refuted_ex : 0 <= 1000 /\ 0 < 1 / 3.
Proof. lra. Qed.

(* ---- the anisotropic distribution ---- *)

Lemma off_pole : forall v, unit v -> Rabs (rz v) <> 1 -> 0 < 1 - rz v * rz v.
Proof.
  intros v U N; pose proof (unit_z v U); destruct (Req_dec (1 - rz v * rz v) 0) as [E | E]; [| lra].
  exfalso; apply N; rewrite <- sqrt_Rsqr_abs; unfold Rsqr; replace (rz v * rz v) with 1 by lra; apply sqrt_1.
Qed.

Lemma at_pole : forall v, Rabs (rz v) = 1 -> rz v * rz v = 1.
Proof. intros v E; rewrite <- (Rabs_pos_eq (rz v * rz v)) by nra; rewrite Rabs_mult, E; ring. Qed.

Lemma aniso_D_off : forall ax ay h, 0 < ax -> 0 < ay -> unit h -> rz h <> 0 -> Rabs (rz h) <> 1 ->
  aniso_D ax ay h = ggx_normals ax ay h.
Proof.
  intros ax ay h A B U N N1; pose proof (off_pole h U N1) as S; pose proof PI_RGT_0 as P.
  unfold aniso_D, ggx_normals; cbv zeta; destruct (Req_EM_T (rz h) 0) as [E | _]; [contradiction |].
  rewrite Rmax_right by lra; destruct (Req_EM_T (1 - rz h * rz h) 0) as [E | _]; [lra |].
  set (t := 1 + (rx h / (ax * rz h)) ^ 2 + (ry h / (ay * rz h)) ^ 2).
  assert (T : 1 <= t) by (unfold t; pose proof (pow2_ge_0 (rx h / (ax * rz h))); pose proof (pow2_ge_0 (ry h / (ay * rz h))); lra).
  replace (1 + _ * _) with t.
  2:{ unfold t; field; repeat split; lra. }
  field; repeat split; lra.
Qed.

(* C284, C285.  Off the normal the anisotropic distribution is the density of GGX, which with
   equal roughnesses is the isotropic one; at the normal it is one, whatever the
   roughness. *)
Theorem aniso_normals : forall ax ay h, 0 < ax -> 0 < ay -> unit h -> Rabs (rz h) <> 1 ->
  (rz h <> 0 -> aniso_D ax ay h = ggx_normals ax ay h) /\ aniso_D ax ax h = ggx_D (ax * ax) h.
Proof.
  intros ax ay h A B U N1; split; [intro N; apply aniso_D_off; assumption |].
  destruct (Req_dec (rz h) 0) as [N | N].
  - unfold aniso_D, ggx_D; destruct (Req_EM_T (rz h) 0); [reflexivity | contradiction].
  - rewrite aniso_D_off by assumption; unfold ggx_normals, ggx_D; cbv zeta; pose proof PI_RGT_0 as P.
    destruct (Req_EM_T (rz h) 0) as [E | _]; [contradiction |].
    pose proof (off_pole h U N1) as S; rewrite Rmax_right by lra; rewrite <- (unit_xy h U).
    set (s := rx h * rx h + ry h * ry h) in *.
    assert (Z : 0 < rz h * rz h) by nra. rewrite <- (unit_xy h U) in S; fold s in S.
    replace (1 + (rx h / (ax * rz h)) ^ 2 + (ry h / (ax * rz h)) ^ 2)
      with ((ax * ax * (rz h * rz h) + s) / (ax * ax * (rz h * rz h))) by (unfold s; field; lra).
    assert (K : 0 < ax * ax * (rz h * rz h) + s) by nra.
    replace (ax * ax + s / (rz h * rz h)) with ((ax * ax * (rz h * rz h) + s) / (rz h * rz h)) by (field; lra).
    set (k := ax * ax * (rz h * rz h) + s) in *; field; repeat split; lra.
Qed.
Print Assumptions aniso_normals.
Example aniso_normals_ex : unit (RV (3 / 5) 0 (4 / 5)) /\ Rabs (4 / 5) <> 1.
Proof. rewrite Rabs_right by lra; unfold unit, rdot; cbn; lra. Qed.

Theorem aniso_normals_refuted : forall ax ay, 0 < ax -> 0 < ay -> PI * ax * ay <> 1 ->
  aniso_D ax ay (RV 0 0 1) <> ggx_normals ax ay (RV 0 0 1) /\ aniso_D ax ay (RV 0 0 1) = 1.
Proof.
  intros ax ay A B N; pose proof PI_RGT_0 as P.
  assert (E : aniso_D ax ay (RV 0 0 1) = 1).
  { unfold aniso_D; cbn; destruct (Req_EM_T 1 0) as [E | _]; [lra |].
    rewrite Rmax_left by lra; destruct (Req_EM_T 0 0) as [_ | E]; [reflexivity | lra]. }
  split; [| exact E]; rewrite E; unfold ggx_normals; cbn; intro H; apply N.
  assert (K : 0 < PI * ax * ay) by (apply Rmult_lt_0_compat; [apply Rmult_lt_0_compat |]; lra).
  set (k := PI * ax * ay) in *.
  replace (1 / _) with (/ k) in H by (field; lra).
  rewrite <- (Rinv_r k) by lra; rewrite <- H; ring.
Qed.
Print Assumptions aniso_normals_refuted.
Example aniso_normals_refuted_ex : PI * 1 * 1 <> 1.
Proof. pose proof PI2_1; lra. Qed.

Lemma lambda_pos : forall ax ay v, 0 <= aniso_lambda v ax ay.
Proof.
  intros ax ay v; unfold aniso_lambda; cbv zeta; destruct (Req_EM_T (rz v) 0) as [_ | N]; [lra |].
  destruct (Req_EM_T _ 0) as [_ | T]; [lra |].
  assert (Q : 1 <= sqrt (1 + Rabs (sqrt (Rmax 0 (1 - rz v * rz v)) / rz v) * Rabs (sqrt (Rmax 0 (1 - rz v * rz v)) / rz v) *
      sqrt (rx v * rx v / (sqrt (Rmax 0 (1 - rz v * rz v)) * sqrt (Rmax 0 (1 - rz v * rz v))) * ax * ax +
            ry v * ry v / (sqrt (Rmax 0 (1 - rz v * rz v)) * sqrt (Rmax 0 (1 - rz v * rz v))) * ay * ay) *
      sqrt (rx v * rx v / (sqrt (Rmax 0 (1 - rz v * rz v)) * sqrt (Rmax 0 (1 - rz v * rz v))) * ax * ax +
            ry v * ry v / (sqrt (Rmax 0 (1 - rz v * rz v)) * sqrt (Rmax 0 (1 - rz v * rz v))) * ay * ay))); [| lra].
  rewrite <- sqrt_1 at 1; apply sqrt_le_1_alt.
  set (a := Rabs _); set (b := sqrt (_ + _)); nra.
Qed.

Lemma lambda_off : forall ax ay v, unit v -> rz v <> 0 -> Rabs (rz v) <> 1 ->
  aniso_lambda v ax ay = smith_lambda ax ay v.
Proof.
  intros ax ay v U N N1; pose proof (off_pole v U N1) as S.
  unfold aniso_lambda, smith_lambda; cbv zeta; destruct (Req_EM_T (rz v) 0) as [E | _]; [contradiction |].
  rewrite Rmax_right by lra; rewrite sqrt_sqrt by lra; set (s := 1 - rz v * rz v) in *.
  assert (T : Rabs (sqrt s / rz v) * Rabs (sqrt s / rz v) = s / (rz v * rz v)).
  { rewrite <- Rabs_mult, Rabs_pos_eq by (set (q := sqrt s / rz v); nra).
    transitivity (sqrt s * sqrt s / (rz v * rz v)); [field; exact N |]; rewrite sqrt_sqrt by lra; reflexivity. }
  assert (Z : 0 < rz v * rz v) by nra.
  destruct (Req_EM_T _ 0) as [E | _].
  { exfalso; rewrite E in T; assert (0 < s / (rz v * rz v)) by (apply Rdiv_lt_0_compat; lra); lra. }
  set (w := rx v * rx v / s * ax * ax + ry v * ry v / s * ay * ay).
  assert (W : 0 <= w).
  { unfold w; replace (_ + _) with (((rx v * ax) * (rx v * ax) + (ry v * ay) * (ry v * ay)) / s) by (field; lra).
    apply Rmult_le_pos; [nra | apply Rlt_le, Rinv_0_lt_compat; lra]. }
  replace (1 + _ * sqrt w * sqrt w) with (1 + (ax * rx v / rz v) ^ 2 + (ay * ry v / rz v) ^ 2); [field |].
  rewrite (Rmult_assoc _ (sqrt w)), sqrt_sqrt, T by exact W; unfold w; field; split; lra.
Qed.

(* C286, C287.  The anisotropic masking term does not depend on which of the two directions
   comes first and is at most one, and it is the one of Smith unless one of them is the
   normal or grazing; seen along the normal it falls to a third. *)
Theorem aniso_masking : forall ax ay wo wi,
  aniso_G ax ay wo wi = aniso_G ax ay wi wo /\ 0 < aniso_G ax ay wo wi <= 1 /\
  (unit wo -> unit wi -> rz wo <> 0 -> rz wi <> 0 -> Rabs (rz wo) <> 1 -> Rabs (rz wi) <> 1 ->
   aniso_G ax ay wo wi = smith_both ax ay wo wi).
Proof.
  intros ax ay wo wi; pose proof (lambda_pos ax ay wo) as L; pose proof (lambda_pos ax ay wi) as M.
  unfold aniso_G; split; [f_equal; ring |]; split.
  - split; [apply Rdiv_lt_0_compat; lra |].
    apply (Rmult_le_reg_r (1 + aniso_lambda wo ax ay + aniso_lambda wi ax ay)); [lra |].
    unfold Rdiv; rewrite Rmult_assoc, Rinv_l; lra.
  - intros; unfold smith_both; rewrite !lambda_off by assumption; reflexivity.
Qed.
Print Assumptions aniso_masking.
Example aniso_masking_ex : unit (RV (3 / 5) 0 (4 / 5)) /\ unit (RV 0 (3 / 5) (4 / 5)) /\ Rabs (4 / 5) <> 1.
Proof. rewrite Rabs_right by lra; unfold unit, rdot; cbn; lra. Qed.

Lemma lambda_pole : forall ax ay, aniso_lambda (RV 0 0 1) ax ay = 1.
Proof.
  intros; unfold aniso_lambda; cbn [rx ry rz]; cbv zeta; destruct (Req_EM_T 1 0) as [E | _]; [lra |].
  rewrite Rmax_left by lra; rewrite sqrt_0; replace (0 / 1) with 0 by field; rewrite Rabs_R0.
  destruct (Req_EM_T 0 0) as [_ | E]; [reflexivity | exfalso; apply E; reflexivity].
Qed.

Theorem aniso_masking_refuted : forall ax ay, aniso_G ax ay (RV 0 0 1) (RV 0 0 1) = 1 / 3 /\
  smith_both ax ay (RV 0 0 1) (RV 0 0 1) = 1 /\
  (forall wi, unit wi -> rz wi <> 0 -> Rabs (rz wi) <> 1 ->
     aniso_G ax ay (RV 0 0 1) wi < smith_both ax ay (RV 0 0 1) wi).
Proof.
  intros ax ay.
  assert (Z : smith_lambda ax ay (RV 0 0 1) = 0).
  { unfold smith_lambda; cbn; replace (1 + _ + _) with 1 by field; rewrite sqrt_1; field. }
  split; [unfold aniso_G; rewrite !lambda_pole; field |].
  split; [unfold smith_both; rewrite Z; field |].
  intros wi U N N1; unfold aniso_G, smith_both; rewrite lambda_pole, Z, <- (lambda_off ax ay wi U N N1).
  pose proof (lambda_pos ax ay wi) as L; apply Rmult_lt_compat_l; [lra |].
  apply Rinv_lt_contravar; [| lra].
  apply Rmult_lt_0_compat; lra.
Qed.
Print Assumptions aniso_masking_refuted.
Example aniso_masking_refuted_ex : unit (RV (3 / 5) 0 (4 / 5)) /\ Rabs (4 / 5) <> 1.
Proof. rewrite Rabs_right by lra; unfold unit, rdot; cbn; lra. Qed.

(* ---- sampling of the anisotropic distribution ---- *)

Lemma d_tan : forall x, cos x <> 0 -> derivable_pt_lim tan x (1 + tan x * tan x).
Proof.
  intros x C; unfold tan.
  pose proof (derivable_pt_lim_div sin cos x _ _ (derivable_pt_lim_sin x) (derivable_pt_lim_cos x) C) as D.
  eapply dlim_eq; [exact D |]; unfold Rsqr; field; exact C.
Qed.

Lemma d_plus_c : forall f x l c, derivable_pt_lim f x l -> derivable_pt_lim (fun t => f t + c) x l.
Proof.
  intros f x l c D; eapply dlim_eq;
    [exact (derivable_pt_lim_plus f (fct_cte c) x l 0 D (derivable_pt_lim_const c x)) | ring].
Qed.

Lemma d_mul : forall f g x l m, derivable_pt_lim f x l -> derivable_pt_lim g x m ->
  derivable_pt_lim (fun t => f t * g t) x (l * g x + f x * m).
Proof. intros f g x l m D E; exact (derivable_pt_lim_mult f g x l m D E). Qed.

(* 1 / sqrt f *)
Lemma d_isqrt : forall f x l, 0 < f x -> derivable_pt_lim f x l ->
  derivable_pt_lim (fun t => 1 / sqrt (f t)) x (- (l / (2 * f x * sqrt (f x)))).
Proof.
  intros f x l P D.
  pose proof (derivable_pt_lim_comp f sqrt x _ _ D (derivable_pt_lim_sqrt (f x) P)) as E.
  pose proof (sqrt_lt_R0 _ P) as S; pose proof (sqrt_sqrt (f x) ltac:(lra)) as Q.
  pose proof (derivable_pt_lim_div (fct_cte 1) (fun t => sqrt (f t)) x 0 _ (derivable_pt_lim_const 1 x) E ltac:(lra)) as H.
  eapply dlim_eq; [exact H |]; unfold fct_cte, Rsqr; set (s := sqrt (f x)) in *; rewrite <- Q; field; lra.
Qed.

(* sqrt (1 - f^2) *)
Lemma d_co : forall f x l, 0 < 1 - f x * f x -> derivable_pt_lim f x l ->
  derivable_pt_lim (fun t => sqrt (1 - f t * f t)) x (- (f x * l) / sqrt (1 - f x * f x)).
Proof.
  intros f x l P D; pose proof (d_mul f f x l l D D) as M.
  pose proof (derivable_pt_lim_minus (fct_cte 1) (fun t => f t * f t) x 0 _ (derivable_pt_lim_const 1 x) M) as N.
  pose proof (derivable_pt_lim_comp _ sqrt x _ _ N (derivable_pt_lim_sqrt _ P)) as E.
  pose proof (sqrt_lt_R0 _ P) as S.
  eapply dlim_eq; [exact E |]; cbv beta; unfold minus_fct, fct_cte; field; lra.
Qed.

(* directions given by a cosine and an azimuth that depends on one parameter only *)
Lemma polar_area : forall s (C : R -> R -> R) (phi : R -> R) u v Cu Cv p,
  s * s = 1 -> 0 < 1 - C u v * C u v ->
  derivable_pt_lim (fun u => C u v) u Cu -> derivable_pt_lim (fun v => C u v) v Cv ->
  derivable_pt_lim phi v p ->
  area_element (fun u v => RV (s * (sqrt (1 - C u v * C u v) * cos (phi v)))
    (s * (sqrt (1 - C u v * C u v) * sin (phi v))) (s * C u v)) u v (Rabs (Cu * p)).
Proof.
  intros s C phi u v Cu Cv p S1 P DU DV DP.
  pose proof (d_co (fun u => C u v) u Cu P DU) as SU; pose proof (d_co (fun v => C u v) v Cv P DV) as SV.
  cbv beta in SU, SV.
  pose proof (derivable_pt_lim_comp phi cos v _ _ DP (derivable_pt_lim_cos (phi v))) as DC.
  pose proof (derivable_pt_lim_comp phi sin v _ _ DP (derivable_pt_lim_sin (phi v))) as DS.
  pose proof (sqrt_lt_R0 _ P) as Q; pose proof (sqrt_sqrt (1 - C u v * C u v) ltac:(lra)) as QQ.
  set (w := sqrt (1 - C u v * C u v)) in *.
  set (su := - (C u v * Cu) / w) in *; set (sv := - (C u v * Cv) / w) in *.
  exists (RV (s * (su * cos (phi v))) (s * (su * sin (phi v))) (s * Cu)).
  exists (RV (s * (sv * cos (phi v) + w * (- sin (phi v) * p))) (s * (sv * sin (phi v) + w * (cos (phi v) * p))) (s * Cv)).
  cbn [rx ry rz].
  split; [apply d_mull, d_mulr, SU |]. split; [apply d_mull, d_mulr, SU |]. split; [apply d_mull, DU |].
  split; [apply d_mull, (d_mul _ _ v _ _ SV DC) |]. split; [apply d_mull, (d_mul _ _ v _ _ SV DS) |].
  split; [apply d_mull, DV |].
  unfold rlength; rewrite <- sqrt_Rsqr_abs; f_equal; unfold Rsqr.
  pose proof (sin2_cos2 (phi v)) as T; unfold Rsqr in T.
  set (c := cos (phi v)) in *; set (z := sin (phi v)) in *.
  assert (SU' : w * su = - (C u v * Cu)) by (unfold su; field; lra).
  assert (SV' : w * sv = - (C u v * Cv)) by (unfold sv; field; lra).
  clearbody su sv w; clear SU SV DC DS DP DU DV.
  assert (K : su * Cv = sv * Cu).
  { apply (Rmult_eq_reg_l w); [| lra]; transitivity ((w * su) * Cv); [ring |]; rewrite SU'.
    transitivity ((w * sv) * Cu); [rewrite SV'; ring | ring]. }
  assert (L : (su * su + Cu * Cu) * (w * w) = Cu * Cu).
  { transitivity ((w * su) * (w * su) + Cu * Cu * (w * w)); [ring |]; rewrite SU', QQ; ring. }
  unfold rdot, rcross; cbn [rx ry rz].
  transitivity ((s * s) * (s * s) * ((su * Cv - sv * Cu) * (su * Cv - sv * Cu) * (z * z + c * c)
    + (z * z + c * c) * (Cu * Cu * (w * w) * p * p + (z * z + c * c) * (su * su * (w * w) * p * p)))); [ring |].
  rewrite S1, T, K; transitivity ((su * su + Cu * Cu) * (w * w) * p * p); [ring |]; rewrite L; ring.
Qed.

(* the azimuth drawn: its tangent is stretched, its side is that of the random number *)
Definition stretched (ax ay r1 : R) : R := ay / ax * tan (2 * PI * r1 + 1 / 2 * PI).

Lemma phi_cs : forall ax ay r1, let t := stretched ax ay r1 in
  exists s, s * s = 1 /\ (r1 <= 1 / 2 -> s = 1) /\ (1 / 2 < r1 -> s = -1) /\
  cos (aniso_phi ax ay r1) = s / sqrt (1 + t * t) /\ sin (aniso_phi ax ay r1) = s * t / sqrt (1 + t * t).
Proof.
  intros ax ay r1 t; unfold aniso_phi; cbv zeta; fold (stretched ax ay r1); fold t.
  destruct (Rlt_dec (1 / 2) r1) as [L | L].
  - exists (-1); split; [ring |]; split; [intro; lra |]; split; [reflexivity |].
    rewrite neg_cos, neg_sin, cos_atan, sin_atan; unfold Rsqr; split; unfold Rdiv; ring.
  - exists 1; split; [ring |]; split; [reflexivity |]; split; [intro; lra |].
    rewrite cos_atan, sin_atan; unfold Rsqr; split; unfold Rdiv; ring.
Qed.

Lemma cos_turn : forall r1, 0 < r1 < 1 -> r1 <> 1 / 2 -> cos (2 * PI * r1 + 1 / 2 * PI) <> 0.
Proof.
  intros r1 R N; pose proof PI_RGT_0 as P.
  replace (2 * PI * r1 + 1 / 2 * PI) with (PI / 2 + 2 * PI * r1) by field.
  intro E; assert (S : sin (2 * PI * r1) = 0).
  { rewrite cos_plus, cos_PI2, sin_PI2 in E; lra. }
  destruct (Rlt_dec r1 (1 / 2)) as [L | L].
  - pose proof (sin_gt_0 (2 * PI * r1)) as G.
    assert (0 < 2 * PI * r1) by nra; assert (2 * PI * r1 < PI) by nra; specialize (G ltac:(assumption) ltac:(assumption)); lra.
  - pose proof (sin_lt_0 (2 * PI * r1)) as G.
    assert (PI < 2 * PI * r1) by nra; assert (2 * PI * r1 < 2 * PI) by nra; specialize (G ltac:(assumption) ltac:(assumption)); lra.
Qed.

(* the inverse of the squared roughness along an azimuth *)
Definition sharp (ax ay r1 : R) : R :=
  let phi := aniso_phi ax ay r1 in cos phi * cos phi / (ax * ax) + sin phi * sin phi / (ay * ay).

Lemma sharp_eq : forall ax ay r1, 0 < ax -> 0 < ay ->
  let t := stretched ax ay r1 in sharp ax ay r1 = (1 / (ax * ax) + t * t / (ay * ay)) / (1 + t * t).
Proof.
  intros ax ay r1 A B t; unfold sharp; cbv zeta; destruct (phi_cs ax ay r1) as (s & S & _ & _ & -> & ->); fold t.
  pose proof (sqrt_lt_R0 (1 + t * t) ltac:(nra)) as Q; pose proof (sqrt_sqrt (1 + t * t) ltac:(nra)) as QQ.
  set (q := sqrt _) in *; rewrite <- QQ.
  transitivity (s * s * ((1 / (ax * ax) + t * t / (ay * ay)) / (q * q))); [field; lra |]; rewrite S; ring.
Qed.

Lemma sharp_pos : forall ax ay r1, 0 < ax -> 0 < ay -> 0 < sharp ax ay r1.
Proof.
  intros ax ay r1 A B; rewrite sharp_eq by assumption; set (t := stretched ax ay r1).
  apply Rdiv_lt_0_compat; [| nra].
  assert (0 < 1 / (ax * ax)) by (apply Rdiv_lt_0_compat; nra).
  assert (0 <= t * t / (ay * ay)) by (apply Rmult_le_pos; [nra | apply Rlt_le, Rinv_0_lt_compat; nra]); lra.
Qed.

Lemma d_phi : forall ax ay r1, 0 < ax -> 0 < ay -> 0 < r1 < 1 -> r1 <> 1 / 2 ->
  derivable_pt_lim (aniso_phi ax ay) r1 (2 * PI * ax * ay * sharp ax ay r1).
Proof.
  intros ax ay r1 A B R N; pose proof (cos_turn r1 R N) as C.
  assert (D : derivable_pt_lim (fun r => atan (ay / ax * tan (2 * PI * r + 1 / 2 * PI))) r1 (2 * PI * ax * ay * sharp ax ay r1)).
  { pose proof (d_plus_c _ r1 _ (1 / 2 * PI) (d_lin (2 * PI) r1)) as D1.
    pose proof (derivable_pt_lim_comp _ tan r1 _ _ D1 (d_tan _ C)) as D2.
    pose proof (d_mull _ r1 _ (ay / ax) D2) as D3.
    pose proof (derivable_pt_lim_comp _ atan r1 _ _ D3 (derivable_pt_lim_atan _)) as D4.
    eapply dlim_eq; [exact D4 |]; cbv beta; unfold comp; rewrite sharp_eq by assumption; cbv zeta.
    unfold stretched; set (x := tan _); field.
    assert (0 < ax * ax) by nra; assert (0 < ay * ay) by nra; repeat split; try lra; nra. }
  destruct (Rlt_dec r1 (1 / 2)) as [L | L].
  - apply (derivable_pt_lim_locally_ext (fun r => atan (ay / ax * tan (2 * PI * r + 1 / 2 * PI))) _ r1 0 (1 / 2)); [lra | | exact D].
    intros z Z; unfold aniso_phi; cbv zeta; destruct (Rlt_dec (1 / 2) z); [lra | reflexivity].
  - apply (derivable_pt_lim_locally_ext (fun r => atan (ay / ax * tan (2 * PI * r + 1 / 2 * PI)) + PI) _ r1 (1 / 2) 1); [lra | | apply d_plus_c, D].
    intros z Z; unfold aniso_phi; cbv zeta; destruct (Rlt_dec (1 / 2) z); [reflexivity | lra].
Qed.

(* the cosine drawn *)
Definition lift (ax ay r0 r1 : R) : R := 1 / sqrt (1 + 1 / sharp ax ay r1 * r0 / (1 - r0)).

Lemma slope_pos : forall ax ay r0 r1, 0 < ax -> 0 < ay -> 0 < r0 < 1 -> 0 < 1 / sharp ax ay r1 * r0 / (1 - r0).
Proof.
  intros ax ay r0 r1 A B R; pose proof (sharp_pos ax ay r1 A B) as S.
  apply Rdiv_lt_0_compat; [| lra]; apply Rmult_lt_0_compat; [apply Rdiv_lt_0_compat |]; lra.
Qed.

Lemma lift_range : forall ax ay r0 r1, 0 < ax -> 0 < ay -> 0 < r0 < 1 ->
  let T := 1 / sharp ax ay r1 * r0 / (1 - r0) in
  0 < lift ax ay r0 r1 < 1 /\ lift ax ay r0 r1 * lift ax ay r0 r1 = 1 / (1 + T) /\
  0 < 1 - lift ax ay r0 r1 * lift ax ay r0 r1.
Proof.
  intros ax ay r0 r1 A B R T; pose proof (slope_pos ax ay r0 r1 A B R) as P; fold T in P.
  unfold lift; fold T; pose proof (sqrt_lt_R0 (1 + T) ltac:(lra)) as S; pose proof (sqrt_sqrt (1 + T) ltac:(lra)) as Q.
  set (q := sqrt (1 + T)) in *; assert (Q1 : 1 < q) by nra.
  assert (I : 0 < 1 / q < 1).
  { split; [apply Rdiv_lt_0_compat; lra |].
    apply (Rmult_lt_reg_r q); [lra |]; unfold Rdiv; rewrite Rmult_assoc, Rinv_l; lra. }
  split; [exact I |]; split; [rewrite <- Q; field; lra |]; set (i := 1 / q) in *; nra.
Qed.

Lemma wh_form : forall ax ay wo, 0 < ax -> 0 < ay -> exists s, s * s = 1 /\ 0 <= s * rz wo /\
  forall r0 r1, 0 < r0 < 1 ->
  RV (s * (sqrt (1 - lift ax ay r0 r1 * lift ax ay r0 r1) * cos (aniso_phi ax ay r1)))
     (s * (sqrt (1 - lift ax ay r0 r1 * lift ax ay r0 r1) * sin (aniso_phi ax ay r1))) (s * lift ax ay r0 r1)
  = aniso_wh ax ay wo r0 r1.
Proof.
  intros ax ay wo A B.
  assert (F : forall r0 r1, 0 < r0 < 1 -> aniso_wh ax ay wo r0 r1 =
    half_vector wo (lift ax ay r0 r1) (sqrt (1 - lift ax ay r0 r1 * lift ax ay r0 r1)) (aniso_phi ax ay r1)).
  { intros r0 r1 R; destruct (lift_range ax ay r0 r1 A B R) as (_ & _ & P).
    unfold aniso_wh; cbv zeta; fold (sharp ax ay r1); fold (lift ax ay r0 r1); rewrite Rmax_right by lra; reflexivity. }
  destruct (Rlt_dec (rz wo) 0) as [N | N].
  - exists (-1); split; [ring |]; split; [lra |]; intros r0 r1 R; rewrite (F r0 r1 R).
    destruct (lift_range ax ay r0 r1 A B R) as (L & _ & _); unfold half_vector; cbn [rz].
    destruct (Rlt_dec _ 0) as [_ | E]; [unfold rneg; cbn [rx ry rz]; f_equal; ring |].
    exfalso; apply E; nra.
  - exists 1; split; [ring |]; split; [lra |]; intros r0 r1 R; rewrite (F r0 r1 R).
    destruct (lift_range ax ay r0 r1 A B R) as (L & _ & _); unfold half_vector; cbn [rz].
    destruct (Rlt_dec _ 0) as [E | _]; [exfalso; nra |]; f_equal; ring.
Qed.

Lemma d_lift_u : forall ax ay r0 r1, 0 < ax -> 0 < ay -> 0 < r0 < 1 ->
  derivable_pt_lim (fun u => lift ax ay u r1) r0
    (- (lift ax ay r0 r1 ^ 3 / (2 * sharp ax ay r1 * (1 - r0) ^ 2))).
Proof.
  intros ax ay r0 r1 A B R; pose proof (sharp_pos ax ay r1 A B) as S.
  pose proof (slope_pos ax ay r0 r1 A B R) as P; set (a := sharp ax ay r1) in *.
  assert (D : derivable_pt_lim (fun u => 1 + 1 / a * u / (1 - u)) r0 (1 / a / (1 - r0) ^ 2)).
  { pose proof (derivable_pt_lim_minus (fct_cte 1) id r0 0 1 (derivable_pt_lim_const 1 r0) (derivable_pt_lim_id r0)) as D1.
    pose proof (derivable_pt_lim_div _ _ r0 _ _ (d_lin (1 / a) r0) D1) as D2.
    unfold minus_fct, fct_cte, id in D2; specialize (D2 ltac:(lra)).
    pose proof (derivable_pt_lim_plus (fct_cte 1) _ r0 0 _ (derivable_pt_lim_const 1 r0) D2) as D3.
    eapply dlim_eq; [exact D3 |]; unfold Rsqr; field; lra. }
  unfold lift; fold a; eapply dlim_eq; [apply d_isqrt; [lra | exact D] |]; cbv beta.
  pose proof (sqrt_lt_R0 (1 + 1 / a * r0 / (1 - r0)) ltac:(lra)) as Q.
  pose proof (sqrt_sqrt (1 + 1 / a * r0 / (1 - r0)) ltac:(lra)) as QQ.
  set (q := sqrt _) in *; rewrite <- QQ; field; lra.
Qed.

Lemma d_lift_v : forall ax ay r0 r1, 0 < ax -> 0 < ay -> 0 < r0 < 1 -> 0 < r1 < 1 -> r1 <> 1 / 2 ->
  exists l, derivable_pt_lim (fun v => lift ax ay r0 v) r1 l.
Proof.
  intros ax ay r0 r1 A B R R1 N; pose proof (d_phi ax ay r1 A B R1 N) as P.
  pose proof (derivable_pt_lim_comp _ cos r1 _ _ P (derivable_pt_lim_cos _)) as DC.
  pose proof (derivable_pt_lim_comp _ sin r1 _ _ P (derivable_pt_lim_sin _)) as DS.
  pose proof (derivable_pt_lim_plus _ _ r1 _ _ (d_mulr _ r1 _ (/ (ax * ax)) (d_mul _ _ r1 _ _ DC DC))
                (d_mulr _ r1 _ (/ (ay * ay)) (d_mul _ _ r1 _ _ DS DS))) as DA.
  set (l := _ + _) in DA.
  assert (DA' : derivable_pt_lim (fun v => sharp ax ay v) r1 l) by exact DA.
  pose proof (sharp_pos ax ay r1 A B) as S.
  pose proof (derivable_pt_lim_div (fct_cte 1) (fun v => sharp ax ay v) r1 0 l (derivable_pt_lim_const 1 r1) DA' ltac:(lra)) as DI.
  pose proof (d_mulr _ r1 _ (/ (1 - r0)) (d_mulr _ r1 _ r0 DI)) as DT.
  pose proof (derivable_pt_lim_plus (fct_cte 1) _ r1 0 _ (derivable_pt_lim_const 1 r1) DT) as D1.
  eexists; unfold lift; eapply d_isqrt; [pose proof (slope_pos ax ay r0 r1 A B R); lra | exact D1].
Qed.

Lemma turn_within : forall p d, 0 < p -> 0 < d < 1 / 2 -> 0 < 2 * p * d < p.
Proof. intros p d P D; nra. Qed.

Lemma half_same : forall ax ay r r', 0 < ax -> 0 < ay -> 0 < r < 1 -> 0 < r' < 1 -> r <> 1 / 2 -> r' <> 1 / 2 ->
  cos (aniso_phi ax ay r) = cos (aniso_phi ax ay r') -> sin (aniso_phi ax ay r) = sin (aniso_phi ax ay r') -> r = r'.
Proof.
  intros ax ay r r' A B R R' N N' EC ES; pose proof PI_RGT_0 as P.
  destruct (phi_cs ax ay r) as (s & S & S1 & S2 & C & Z); destruct (phi_cs ax ay r') as (s' & S' & S1' & S2' & C' & Z').
  set (t := stretched ax ay r) in *; set (t' := stretched ax ay r') in *.
  pose proof (sqrt_lt_R0 (1 + t * t) ltac:(nra)) as Q; pose proof (sqrt_lt_R0 (1 + t' * t') ltac:(nra)) as Q'.
  set (q := sqrt (1 + t * t)) in *; set (q' := sqrt (1 + t' * t')) in *.
  assert (I : 0 < / q) by (apply Rinv_0_lt_compat; lra); assert (I' : 0 < / q') by (apply Rinv_0_lt_compat; lra).
  rewrite C, C' in EC; rewrite Z, Z' in ES; unfold Rdiv in EC, ES.
  assert (T : t = t').
  { assert (X : s * / q * t = s * / q * t').
    { transitivity (s * t * / q); [ring |]; rewrite ES, EC; ring. }
    apply Rmult_eq_reg_l in X; [exact X |]; intro Y; apply Rmult_integral in Y; destruct Y as [Y | Y]; [rewrite Y in S |]; lra. }
  assert (SAME : (r < 1 / 2 /\ r' < 1 / 2) \/ (1 / 2 < r /\ 1 / 2 < r')).
  { destruct (Rlt_dec r (1 / 2)) as [L | L]; destruct (Rlt_dec r' (1 / 2)) as [L' | L']; try lra; exfalso.
    - rewrite S1, S2' in EC by lra; lra.
    - rewrite S2, S1' in EC by lra; lra. }
  pose proof (cos_turn r R N) as K; pose proof (cos_turn r' R' N') as K'.
  assert (TT : tan (2 * PI * r + 1 / 2 * PI) = tan (2 * PI * r' + 1 / 2 * PI)).
  { apply (Rmult_eq_reg_l (ay / ax)); [exact T |]; assert (0 < ay / ax) by (apply Rdiv_lt_0_compat; lra); lra. }
  set (x := 2 * PI * r + 1 / 2 * PI) in *; set (y := 2 * PI * r' + 1 / 2 * PI) in *.
  assert (D : sin (x - y) = 0).
  { rewrite sin_minus; unfold tan in TT.
    transitivity (cos x * cos y * (sin x / cos x - sin y / cos y)); [field; split; assumption |]; rewrite TT; ring. }
  assert (E : x - y = 2 * PI * (r - r')) by (unfold x, y; ring).
  destruct (Rtotal_order r r') as [L | [L | L]]; [exfalso | exact L | exfalso].
  - destruct (turn_within PI (r' - r) P ltac:(lra)) as (G1 & G2).
    pose proof (sin_gt_0 _ G1 G2) as G; replace (2 * PI * (r' - r)) with (- (x - y)) in G by (rewrite E; ring).
    rewrite sin_neg, D in G; lra.
  - destruct (turn_within PI (r - r') P ltac:(lra)) as (G1 & G2).
    pose proof (sin_gt_0 _ G1 G2) as G; rewrite <- E, D in G; lra.
Qed.

(* C288.  The anisotropic half vectors are unit vectors on the side of the outgoing
   direction, different random numbers give different ones, and the density reported for
   them is the one they are drawn with: it undoes the stretching of areas. *)
Theorem aniso_sampling : forall ax ay wo r0 r1, 0 < ax -> 0 < ay ->
  0 < r0 < 1 -> 0 < r1 < 1 -> r1 <> 1 / 2 ->
  let h := aniso_wh ax ay wo r0 r1 in
  unit h /\ 0 <= rz wo * rz h /\
  (forall q0 q1, 0 < q0 < 1 -> 0 < q1 < 1 -> q1 <> 1 / 2 -> aniso_wh ax ay wo q0 q1 = h -> q0 = r0 /\ q1 = r1) /\
  exists k, 0 < k /\ area_element (aniso_wh ax ay wo) r0 r1 k /\ d_pdf (aniso ax ay) wo h * k = 1.
Proof.
  intros ax ay wo r0 r1 A B R R1 N h; pose proof PI_RGT_0 as PP.
  destruct (wh_form ax ay wo A B) as (s & S & SZ & F).
  destruct (lift_range ax ay r0 r1 A B R) as (L & LL & LP).
  pose proof (sharp_pos ax ay r1 A B) as SH; pose proof (slope_pos ax ay r0 r1 A B R) as SL.
  pose proof (sqrt_lt_R0 _ LP) as W; pose proof (sqrt_sqrt (1 - lift ax ay r0 r1 * lift ax ay r0 r1) ltac:(lra)) as WW.
  pose proof (sin2_cos2 (aniso_phi ax ay r1)) as T; unfold Rsqr in T.
  assert (H : h = RV (s * (sqrt (1 - lift ax ay r0 r1 * lift ax ay r0 r1) * cos (aniso_phi ax ay r1)))
     (s * (sqrt (1 - lift ax ay r0 r1 * lift ax ay r0 r1) * sin (aniso_phi ax ay r1))) (s * lift ax ay r0 r1))
    by (symmetry; apply F, R).
  assert (U : unit h).
  { rewrite H; unfold unit, rdot; cbn [rx ry rz].
    set (w := sqrt _) in *; set (c := cos _) in *; set (z := sin _) in *; set (l := lift ax ay r0 r1) in *.
    transitivity (s * s * (w * w * (z * z + c * c) + l * l)); [ring |]; rewrite S, T, WW; ring. }
  split; [exact U |].
  split; [rewrite H; cbn [rz]; replace (rz wo * (s * lift ax ay r0 r1)) with (s * rz wo * lift ax ay r0 r1) by ring; nra |].
  split.
  { intros q0 q1 Q Q1 QN E; rewrite H, <- (F q0 q1 Q) in E; injection E as EX EY EZ.
    assert (S0 : s <> 0) by (intro X; rewrite X in S; lra).
    apply Rmult_eq_reg_l in EX; [| exact S0]; apply Rmult_eq_reg_l in EY; [| exact S0]; apply Rmult_eq_reg_l in EZ; [| exact S0].
    rewrite EZ in EX, EY; apply Rmult_eq_reg_l in EX; [| lra]; apply Rmult_eq_reg_l in EY; [| lra].
    assert (E1 : q1 = r1) by (apply (half_same ax ay); assumption).
    split; [| exact E1]; rewrite E1 in EZ.
    destruct (lift_range ax ay q0 r1 A B Q) as (_ & LL' & _); rewrite EZ, LL in LL'.
    pose proof (slope_pos ax ay q0 r1 A B Q) as SL'; set (a := sharp ax ay r1) in *.
    assert (X : 1 / a * r0 / (1 - r0) = 1 / a * q0 / (1 - q0)).
    { set (p := 1 / a * r0 / (1 - r0)) in *; set (p' := 1 / a * q0 / (1 - q0)) in *; unfold Rdiv in LL'; rewrite !Rmult_1_l in LL'.
      apply Rinv_eq_reg in LL' || (apply (f_equal Rinv) in LL'; rewrite !Rinv_inv in LL'); lra. }
    assert (Y : r0 * (1 - q0) = q0 * (1 - r0)).
    { transitivity (1 / a * r0 / (1 - r0) * (a * (1 - r0) * (1 - q0))); [field; lra |]; rewrite X; field; lra. }
    lra. }
  destruct (d_lift_v ax ay r0 r1 A B R R1 N) as (lv & DV).
  pose proof (polar_area s (lift ax ay) (aniso_phi ax ay) r0 r1 _ lv _ S LP (d_lift_u ax ay r0 r1 A B R) DV
                (d_phi ax ay r1 A B R1 N)) as AE.
  set (k := Rabs _) in AE.
  assert (K : k = PI * ax * ay * lift ax ay r0 r1 ^ 3 / (1 - r0) ^ 2).
  { unfold k; rewrite Rabs_left1.
    - field; split; lra.
    - assert (0 < lift ax ay r0 r1 ^ 3) by (apply pow_lt; lra); assert (0 < (1 - r0) ^ 2) by (apply pow_lt; lra).
      assert (0 < lift ax ay r0 r1 ^ 3 / (2 * sharp ax ay r1 * (1 - r0) ^ 2)).
      { apply Rdiv_lt_0_compat; [assumption |]; apply Rmult_lt_0_compat; [lra | assumption]. }
      assert (0 < 2 * PI * ax * ay * sharp ax ay r1).
      { apply Rmult_lt_0_compat; [| exact SH]; apply Rmult_lt_0_compat; [| exact B]; apply Rmult_lt_0_compat; [lra | exact A]. }
      nra. }
  assert (KP : 0 < k).
  { rewrite K; apply Rdiv_lt_0_compat; [| apply pow_lt; lra].
    apply Rmult_lt_0_compat; [| apply pow_lt; lra]; apply Rmult_lt_0_compat; [| exact B]; apply Rmult_lt_0_compat; lra. }
  exists k; split; [exact KP |]; split.
  { destruct AE as (du & dv & D1 & D2 & D3 & D4 & D5 & D6 & D7); exists du, dv; cbn [rx ry rz] in *.
    split; [apply (derivable_pt_lim_locally_ext _ _ r0 0 1 _ R (fun z Z => f_equal rx (F z r1 Z)) D1) |].
    split; [apply (derivable_pt_lim_locally_ext _ _ r0 0 1 _ R (fun z Z => f_equal ry (F z r1 Z)) D2) |].
    split; [apply (derivable_pt_lim_locally_ext _ _ r0 0 1 _ R (fun z Z => f_equal rz (F z r1 Z)) D3) |].
    split; [apply (derivable_pt_lim_ext _ _ _ _ (fun z => f_equal rx (F r0 z R)) D4) |].
    split; [apply (derivable_pt_lim_ext _ _ _ _ (fun z => f_equal ry (F r0 z R)) D5) |].
    split; [apply (derivable_pt_lim_ext _ _ _ _ (fun z => f_equal rz (F r0 z R)) D6) | exact D7]. }
  assert (HZ : rz h = s * lift ax ay r0 r1) by (rewrite H; reflexivity).
  assert (HA : Rabs (rz h) = lift ax ay r0 r1).
  { rewrite <- (Rabs_pos_eq (lift ax ay r0 r1)) by lra; rewrite HZ, Rabs_mult.
    assert (SA : Rabs s = 1) by (rewrite <- sqrt_Rsqr_abs; unfold Rsqr; rewrite S; apply sqrt_1).
    rewrite SA, Rmult_1_l; reflexivity. }
  cbn [d_pdf aniso]; unfold dist_pdf; rewrite aniso_D_off; [| assumption | assumption | exact U | | rewrite HA; lra].
  2:{ intro X; rewrite X, Rabs_R0 in HA; lra. }
  unfold ggx_normals; cbv zeta; rewrite HA, K.
  replace (rz h ^ 4) with (lift ax ay r0 r1 ^ 4).
  2:{ rewrite HZ; transitivity (s * s * (s * s) * lift ax ay r0 r1 ^ 4); [rewrite S; ring | ring]. }
  assert (G : 1 + (rx h / (ax * rz h)) ^ 2 + (ry h / (ay * rz h)) ^ 2 = 1 / (1 - r0)).
  { assert (V : (rx h / (ax * rz h)) ^ 2 + (ry h / (ay * rz h)) ^ 2
        = (1 - lift ax ay r0 r1 * lift ax ay r0 r1) / (lift ax ay r0 r1 * lift ax ay r0 r1) * sharp ax ay r1).
    { rewrite H; cbn [rx ry rz]; unfold sharp; cbv zeta; set (w := sqrt _) in *; rewrite <- WW.
      assert (s <> 0) by (intro X; rewrite X in S; lra).
      set (l := lift ax ay r0 r1) in *; set (c := cos _); set (z := sin _); field; repeat split; lra. }
    rewrite Rplus_assoc, V, LL; set (a := sharp ax ay r1) in *; field.
    repeat split; try lra.
    intro X; assert (0 < a * (1 - r0)) by nra; nra. }
  rewrite G; set (l := lift ax ay r0 r1) in *; field; repeat split; lra.
Qed.
Print Assumptions aniso_sampling.
Example aniso_sampling_ex : 0 < 1 / 3 < 1 /\ 0 < 3 / 4 < 1 /\ 3 / 4 <> 1 / 2.
Proof. lra. Qed.

(* rough reflection with this distribution is reciprocal, as with the isotropic one *)
Theorem aniso_reciprocal : forall ax ay f wo wi, unit wo -> unit wi ->
  micro_value (aniso ax ay) f wo wi = micro_value (aniso ax ay) f wi wo.
Proof. intros ax ay f wo wi U V; apply rough_reciprocal; [exact U | exact V |]; intros a b; apply aniso_masking. Qed.
Print Assumptions aniso_reciprocal.
Example aniso_reciprocal_ex : unit (RV (3 / 5) 0 (4 / 5)) /\ unit (RV 0 (3 / 5) (4 / 5)).
Proof. unfold unit, rdot; cbn; lra. Qed.

(* Blinn and Beckmann with both directions: the terms hide what either direction hides, do not
   depend on which is which, and so rough reflection with them is reciprocal. *)
Theorem masking_of_two : forall n a wo wi, 0 <= n -> 0 < a -> unit wo -> unit wi ->
  blinn_G n wo wi = blinn_G n wi wo /\ beckmann_G a wo wi = beckmann_G a wi wo /\
  0 <= blinn_G n wo wi <= 10003 / 10000 /\ 0 <= beckmann_G a wo wi <= 10003 / 10000 /\
  (rz wo = 0 \/ rz wi = 0 -> blinn_G n wo wi = 0 /\ beckmann_G a wo wi = 0) /\
  (Rabs (rz wi) = 1 -> blinn_G n wo wi = blinn_G1 n wo /\ beckmann_G a wo wi = beckmann_G1 a wo) /\
  (forall f, micro_value (blinn n (blinn_G n)) f wo wi = micro_value (blinn n (blinn_G n)) f wi wo) /\
  (forall f, micro_value (beckmann a (beckmann_G a)) f wo wi = micro_value (beckmann a (beckmann_G a)) f wi wo).
Proof.
  intros n a wo wi N A U V.
  destruct (approximate_masking n a wo N A U) as (B1 & B2). destruct (approximate_masking n a wi N A V) as (B3 & B4).
  assert (S1 : forall x y, blinn_G n x y = blinn_G n y x) by (intros; unfold blinn_G; ring).
  assert (S2 : forall x y, beckmann_G a x y = beckmann_G a y x) by (intros; unfold beckmann_G; ring).
  split; [apply S1|]. split; [apply S2|].
  assert (P : forall x y, 0 <= x <= 10001 / 10000 -> 0 <= y <= 10001 / 10000 -> 0 <= x * y <= 10003 / 10000).
  { intros x y X Y; split; [apply Rmult_le_pos; lra|]. eapply Rle_trans; [apply Rmult_le_compat with (r2 := 10001 / 10000) (r4 := 10001 / 10000); lra|lra]. }
  split; [apply P; assumption|]. split; [apply P; assumption|].
  split; [|split; [|split; intro f; apply rough_reciprocal; assumption]].
  - assert (Z : forall v, rz v = 0 -> blinn_G1 n v = 0 /\ beckmann_G1 a v = 0).
    { intros v E; unfold blinn_G1, beckmann_G1; rewrite E, Rabs_R0; destruct (Req_EM_T 0 0); [auto|contradiction]. }
    unfold blinn_G, beckmann_G; intros [E | E]; destruct (Z _ E) as (-> & ->); split; ring.
  - intro E; unfold blinn_G, beckmann_G, blinn_G1 at 2, beckmann_G1 at 2; rewrite E.
    destruct (Req_EM_T 1 0); [lra|]. destruct (Rle_dec 1 1); [split; ring|lra].
Qed.
Print Assumptions masking_of_two.
Example masking_of_two_ex : unit (RV (3 / 5) 0 (4 / 5)) /\ unit (RV 0 (3 / 5) (4 / 5)) /\ 0 <= 100 /\ 0 < 1 / 3.
Proof. unfold unit, rdot; cbn; lra. Qed.
