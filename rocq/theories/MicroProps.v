(* C73-C79: microfacet distributions, rough reflection and transmission. *)
From Coq Require Import Reals Lra Psatz.
From Verif Require Import RVecModel RVecProps SpecularModel SpecularProps BsdfModel BsdfSpec BsdfProps MicroModel MicroSpec.
Local Open Scope R_scope.

(* ----- shares ----- *)

Lemma share_unique : forall cosine c p q, share cosine c p -> share cosine c q -> p = q.
Proof.
  assert (L1 : forall cosine c p q, 0 <= p <= 1 -> 0 <= q <= 1 ->
    (forall r, 0 < r < 1 -> (c <= cosine r <-> r <= p)) -> (forall r, 0 < r < 1 -> (c <= cosine r <-> r <= q)) -> ~ p < q).
  { intros cosine c p q P Q A B L.
    assert (R : 0 < (p + q) / 2 < 1) by lra.
    assert (X := proj1 (A _ R) (proj2 (B _ R) ltac:(lra))); lra. }
  assert (L2 : forall cosine c p q, 0 <= p <= 1 -> 0 <= q <= 1 ->
    (forall r, 0 < r < 1 -> (c <= cosine r <-> 1 - p <= r)) -> (forall r, 0 < r < 1 -> (c <= cosine r <-> 1 - q <= r)) -> ~ p < q).
  { intros cosine c p q P Q A B L.
    assert (R : 0 < 1 - (p + q) / 2 < 1) by lra.
    assert (X := proj1 (A _ R) (proj2 (B _ R) ltac:(lra))); lra. }
  assert (L3 : forall cosine c p q, 0 <= p <= 1 -> 0 <= q <= 1 ->
    (forall r, 0 < r < 1 -> (c <= cosine r <-> r <= p)) -> (forall r, 0 < r < 1 -> (c <= cosine r <-> 1 - q <= r)) -> p = q).
  { intros cosine c p q P Q A B.
    destruct (Req_dec p 0) as [-> | P0].
    - destruct (Req_dec q 0) as [-> | Q0]; [reflexivity | exfalso].
      assert (R : 0 < 1 - q / 2 < 1) by lra.
      assert (X := proj1 (A _ R) (proj2 (B _ R) ltac:(lra))); lra.
    - destruct (Req_dec p 1) as [-> | P1].
      + destruct (Req_dec q 1) as [-> | Q1]; [reflexivity | exfalso].
        assert (R : 0 < (1 - q) / 2 < 1) by lra.
        assert (X := proj1 (B _ R) (proj2 (A _ R) ltac:(lra))); lra.
      + exfalso.
        assert (R : 0 < p < 1) by lra.
        assert (X := proj1 (B _ R) (proj2 (A _ R) ltac:(lra))).
        assert (R' : 0 < (p + 1) / 2 < 1) by lra.
        assert (Y := proj1 (A _ R') (proj2 (B _ R') ltac:(lra))); lra. }
  intros cosine c p q [P [A | A]] [Q [B | B]].
  - destruct (Rtotal_order p q) as [L | [E | L]]; [| exact E |]; exfalso; [exact (L1 _ _ _ _ P Q A B L) | exact (L1 _ _ _ _ Q P B A L)].
  - exact (L3 _ _ _ _ P Q A B).
  - symmetry; exact (L3 _ _ _ _ Q P B A).
  - destruct (Rtotal_order p q) as [L | [E | L]]; [| exact E |]; exfalso; [exact (L2 _ _ _ _ P Q A B L) | exact (L2 _ _ _ _ Q P B A L)].
Qed.

Lemma dlim_local : forall f g c l, 0 < c < 1 -> (forall x, 0 < x < 1 -> f x = g x) ->
  derivable_pt_lim f c l -> derivable_pt_lim g c l.
Proof.
  intros f g c l C E D eps P; destruct (D eps P) as [d H].
  assert (M : 0 < Rmin d (Rmin c (1 - c))).
  { apply Rmin_glb_lt; [apply cond_pos | apply Rmin_glb_lt; lra]. }
  exists (mkposreal _ M); intros h NZ L; cbn in L.
  assert (A : Rabs h < d /\ Rabs h < c /\ Rabs h < 1 - c).
  { pose proof (Rmin_l d (Rmin c (1 - c))); pose proof (Rmin_r d (Rmin c (1 - c)));
      pose proof (Rmin_l c (1 - c)); pose proof (Rmin_r c (1 - c)); lra. }
  destruct A as (A1 & A2 & A3); apply Rabs_def2 in A2, A3.
  rewrite <- !E by lra; apply H; assumption.
Qed.

(* with one function giving the shares, a density is right iff it is its derivative *)
Lemma density_other : forall cosine G G0 c density, shares cosine G -> shares cosine G0 -> 0 < c < 1 ->
  density_at G density c -> density_at G0 density c.
Proof.
  intros cosine G G0 c density S S0 C; apply dlim_local; [exact C |].
  intros x X; exact (share_unique cosine x _ _ (S x X) (S0 x X)).
Qed.

Lemma dlim_eq : forall f x l m, derivable_pt_lim f x l -> l = m -> derivable_pt_lim f x m.
Proof. intros f x l m D <-; exact D. Qed.

Lemma dlim_sq : forall x, derivable_pt_lim (fun c => c * c) x (2 * x).
Proof.
  intro x; eapply dlim_eq; [exact (derivable_pt_lim_mult id id x 1 1 (derivable_pt_lim_id x) (derivable_pt_lim_id x)) |].
  unfold id; ring.
Qed.

Lemma dlim_one_minus_sq : forall x, derivable_pt_lim (fun c => 1 - c * c) x (- (2 * x)).
Proof.
  intro x; eapply dlim_eq;
    [exact (derivable_pt_lim_minus (fct_cte 1) (fun c => c * c) x 0 (2 * x) (derivable_pt_lim_const 1 x) (dlim_sq x)) |].
  ring.
Qed.

Lemma half_z : forall wo cost sint phi, 0 <= cost -> Rabs (rz (half_vector wo cost sint phi)) = cost.
Proof.
  intros wo cost sint phi C; unfold half_vector; cbn [rz].
  destruct (Rlt_dec (rz wo * cost) 0); cbn [rneg rz]; [rewrite Rabs_Ropp |]; apply Rabs_pos_eq, C.
Qed.

Lemma half_unit : forall wo cost sint phi, 0 <= cost -> 0 <= sint -> sint * sint + cost * cost = 1 ->
  let w := half_vector wo cost sint phi in
  unit w /\ 0 <= rz wo * rz w /\ azimuth w phi.
Proof.
  intros wo cost sint phi C S E w.
  assert (T : sint * cos phi * (sint * cos phi) + sint * sin phi * (sint * sin phi) = sint * sint).
  { replace (sint * cos phi * (sint * cos phi) + sint * sin phi * (sint * sin phi))
      with (sint * sint * (Rsqr (sin phi) + Rsqr (cos phi))) by (unfold Rsqr; ring).
    rewrite sin2_cos2; ring. }
  unfold w, half_vector; cbn [rz]; destruct (Rlt_dec (rz wo * cost) 0) as [N | N].
  - split; [unfold unit, rdot; cbn; lra | split; [cbn; lra |]].
    exists sint, (-1); cbn; split; [exact S | split; [right; reflexivity | split; [ring | split; [ring | lra]]]].
  - split; [unfold unit, rdot; cbn; lra | split; [cbn; lra |]].
    exists sint, 1; cbn; split; [exact S | split; [left; reflexivity | split; [ring | split; [ring | lra]]]].
Qed.

(* ----- the default sampling ----- *)

(* C73.  The default sampling has the density cos / pi that pdf() reports. *)
Theorem default_density : forall wo r0, rz wo <> 0 ->
  right_density (fun r1 => Rabs (rz (cosine_direction wo r0 r1))) (fun c => c / PI).
Proof.
  intros wo r0 NZ; exists (fun c => 1 - c * c); split.
  - intros c C; split; [nra |]; left; intros r R.
    destruct (cosine_parts wo r0 r) as (_ & _ & A & _); [lra |]; rewrite A.
    pose proof (sqrt_pos (1 - r)) as SP; pose proof (sqrt_sqrt (1 - r) ltac:(lra)) as SS.
    split; intro L; nra.
  - intros c C; eapply dlim_eq; [apply dlim_one_minus_sq |].
    pose proof PI_RGT_0; field; lra.
Qed.
Print Assumptions default_density.
Example default_density_ex : rz (RV 0 0 1) <> 0.
Proof. cbn; lra. Qed.

(* ----- GGX ----- *)

Lemma ggx_den : forall a2 r, 0 < a2 -> 0 <= r < 1 -> 0 < r * (a2 - 1) + 1.
Proof. intros a2 r A R; nra. Qed.

Lemma ggx_cos2 : forall a2 r, 0 < a2 -> 0 < r < 1 -> 0 < (1 - r) / (r * (a2 - 1) + 1) < 1.
Proof.
  intros a2 r A R; pose proof (ggx_den a2 r A ltac:(lra)) as D; split; [apply Rdiv_lt_0_compat; lra |].
  apply (Rmult_lt_reg_r (r * (a2 - 1) + 1)); [exact D |].
  unfold Rdiv; rewrite Rmult_assoc, Rinv_l by lra; nra.
Qed.

(* C75.  GGX draws unit half vectors on the side of wo and reports their density. *)
Theorem ggx_sampling : forall a2 wo r1, 0 < a2 ->
  (forall r0, 0 < r0 < 1 ->
     unit (ggx_wh a2 wo r0 r1) /\ 0 <= rz wo * rz (ggx_wh a2 wo r0 r1) /\ azimuth (ggx_wh a2 wo r0 r1) (2 * PI * r1)) /\
  right_density (fun r0 => Rabs (rz (ggx_wh a2 wo r0 r1))) (fun c => dist_pdf (ggx_D a2) (RV (sqrt (1 - c * c)) 0 c)).
Proof.
  intros a2 wo r1 A; split.
  - intros r0 R; pose proof (ggx_cos2 a2 r0 A R) as C2; unfold ggx_wh.
    apply half_unit; [apply sqrt_pos | apply sqrt_pos |].
    rewrite !Rmax_right by lra; rewrite !sqrt_sqrt by lra; ring.
  - pose (K := a2 - 1); pose (G0 := fun c => (1 - c * c) / (c * c * K + 1)).
    assert (DP : forall c, 0 < c < 1 -> 0 < c * c * K + 1) by (intros c C; unfold K; nra).
    exists G0; split.
    + intros c C; specialize (DP c C); unfold share, G0.
      assert (U : 0 < 1 - c * c) by nra.
      assert (LE : 1 - c * c <= c * c * K + 1) by (unfold K; nra).
      assert (I : (1 - c * c) / (c * c * K + 1) * (c * c * K + 1) = 1 - c * c) by (field; lra).
      split; [split; [apply Rlt_le, Rdiv_lt_0_compat; lra |] |].
      { apply (Rmult_le_reg_r (c * c * K + 1)); [exact DP |]; rewrite I; lra. }
      left; intros r R; pose proof (ggx_cos2 a2 r A R) as C2; pose proof (ggx_den a2 r A ltac:(lra)) as D; fold K in C2, D.
      unfold ggx_wh; rewrite half_z by apply sqrt_pos; fold K.
      rewrite Rmax_right by lra.
      set (q := (1 - r) / (r * K + 1)) in *.
      assert (Q : q * (r * K + 1) = 1 - r) by (unfold q; field; lra).
      assert (X : c <= sqrt q <-> c * c <= q).
      { pose proof (sqrt_pos q) as SP; pose proof (sqrt_sqrt q ltac:(lra)) as SS; split; intro; nra. }
      rewrite X; clear X; split; intro L.
      * apply (Rmult_le_reg_r (c * c * K + 1)); [exact DP |]; rewrite I.
        assert (c * c * (r * K + 1) <= q * (r * K + 1)) by (apply Rmult_le_compat_r; lra); lra.
      * apply (Rmult_le_reg_r (r * K + 1)); [exact D |]; rewrite Q.
        assert (M : r * (c * c * K + 1) <= (1 - c * c) / (c * c * K + 1) * (c * c * K + 1)) by (apply Rmult_le_compat_r; lra).
        rewrite I in M; lra.
    + intros c C; pose proof (DP c C) as D.
      assert (DD : derivable_pt_lim (fun c => c * c * K + 1) c (2 * c * K)).
      { eapply dlim_eq; [exact (derivable_pt_lim_plus (fun c => c * c * K) (fct_cte 1) c (2 * c * K) 0
          (dlim_eq _ _ _ _ (derivable_pt_lim_mult (fun c => c * c) (fct_cte K) c (2 * c) 0 (dlim_sq c) (derivable_pt_lim_const K c))
             (ltac:(unfold fct_cte; ring) : 2 * c * fct_cte K c + c * c * 0 = 2 * c * K))
          (derivable_pt_lim_const 1 c)) | ring]. }
      eapply dlim_eq; [exact (derivable_pt_lim_div (fun c => 1 - c * c) (fun c => c * c * K + 1) c _ _
        (dlim_one_minus_sq c) DD ltac:(lra)) |].
      unfold dist_pdf, ggx_D; cbn [rz]; destruct (Req_EM_T c 0) as [Z | _]; [exfalso; lra |].
      rewrite (Rabs_pos_eq c) by lra; rewrite Rmax_right by nra.
      assert (T : (a2 + (1 - c * c) / (c * c)) * (a2 + (1 - c * c) / (c * c)) * (c * c) * (c * c) =
                  (c * c * K + 1) * (c * c * K + 1)) by (unfold K; field; lra).
      rewrite T; unfold Rsqr; replace a2 with (K + 1) by (unfold K; ring).
      pose proof PI_RGT_0; field; repeat split; lra.
Qed.
Print Assumptions ggx_sampling.
Example ggx_sampling_ex : 0 < 1 / 4.
Proof. lra. Qed.

(* ----- Blinn ----- *)

Lemma rpower_le_iff : forall x y p, 0 < x -> 0 < y -> 0 < p -> (Rpower x p <= Rpower y p <-> x <= y).
Proof.
  intros x y p X Y P; split; intro L.
  - destruct (Rle_lt_dec x y) as [H | H]; [exact H | exfalso].
    assert (Rpower y p < Rpower x p); [| lra].
    unfold Rpower; apply exp_increasing, Rmult_lt_compat_l; [exact P | apply ln_increasing; assumption].
  - apply Rle_Rpower_l; lra.
Qed.

Lemma rpower_one : forall p, Rpower 1 p = 1.
Proof. intro p; unfold Rpower; rewrite ln_1, Rmult_0_r; apply exp_0. Qed.

Lemma rpower_le_one : forall x p, 0 < x <= 1 -> 0 < p -> Rpower x p <= 1.
Proof. intros x p X P; rewrite <- (rpower_one p); apply rpower_le_iff; lra. Qed.

Definition blinn_share (n c : R) : R := 1 - Rpower c (n + 1).

Lemma blinn_shares : forall n wo r1, 0 <= n ->
  shares (fun r0 => Rabs (rz (blinn_wh n wo r0 r1))) (blinn_share n).
Proof.
  intros n wo r1 N c C; unfold share, blinn_share.
  assert (P : 0 < Rpower c (n + 1)) by apply exp_pos.
  assert (L1 : Rpower c (n + 1) <= 1).
  { apply rpower_le_one; lra. }
  split; [lra | right; intros r R].
  unfold blinn_wh; rewrite half_z by (apply Rlt_le, exp_pos).
  replace (1 - (1 - Rpower c (n + 1))) with (Rpower c (n + 1)) by ring.
  rewrite <- (rpower_le_iff c (Rpower r (1 / (n + 1))) (n + 1)) by (try apply exp_pos; lra).
  rewrite Rpower_mult; replace (1 / (n + 1) * (n + 1)) with 1 by (field; lra).
  rewrite Rpower_1 by lra; reflexivity.
Qed.

Lemma blinn_derivative : forall n c, 0 <= n -> 0 < c < 1 ->
  derivable_pt_lim (blinn_share n) c (- ((n + 1) * Rpower c n)).
Proof.
  intros n c N C; eapply dlim_eq;
    [exact (derivable_pt_lim_minus (fct_cte 1) (fun c => Rpower c (n + 1)) c 0 _
       (derivable_pt_lim_const 1 c) (derivable_pt_lim_power c (n + 1) ltac:(lra))) |].
  replace (n + 1 - 1) with n by ring; ring.
Qed.

(* C74.  The half vectors of Blinn have density (n+1)/(2 pi) cos^n; the code reports
   (n+2)/(2 pi) cos^n, wrong for every exponent and every angle. *)
Theorem blinn_density_refuted : forall n wo r1 G c, 0 <= n -> 0 < c < 1 ->
  shares (fun r0 => Rabs (rz (blinn_wh n wo r0 r1))) G ->
  (forall w wh, 0 < rdot w wh -> rz wh = c -> ~ density_at G (fun _ => blinn_pdf n w wh) c) /\
  density_at G (fun c => (n + 1) / (2 * PI) * Rpower c n) c.
Proof.
  intros n wo r1 G c N C S.
  pose proof (blinn_shares n wo r1 N) as S0; pose proof (blinn_derivative n c N C) as D0.
  pose proof PI_RGT_0 as P; assert (CP : 0 < Rpower c n) by apply exp_pos.
  split.
  - intros w wh H Z D; apply (density_other _ _ _ _ _ S S0 C) in D.
    pose proof (uniqueness_limite _ _ _ _ D D0) as E.
    unfold blinn_pdf in E; rewrite Z, (Rabs_pos_eq c) in E by lra.
    destruct (Rlt_dec 0 (rdot w wh)) as [_ | X]; [| exact (X H)].
    replace (2 * PI * ((n + 2) * Rpower c n / (2 * PI))) with ((n + 2) * Rpower c n) in E by (field; lra); lra.
  - apply (density_other _ _ _ _ _ S0 S C); eapply dlim_eq; [exact D0 |]; field; lra.
Qed.
Print Assumptions blinn_density_refuted.
Example blinn_density_ex : shares (fun r0 => Rabs (rz (blinn_wh 10 (RV 0 0 1) r0 0))) (blinn_share 10).
Proof. apply blinn_shares; lra. Qed.

(* ----- Beckmann ----- *)

Definition beckmann_share (a c : R) : R := 1 - exp (- ((1 - c * c) / (c * c) / (a * a))).

Lemma beckmann_shares : forall a wo r1, 0 < a ->
  shares (fun r0 => Rabs (rz (beckmann_wh a wo r0 r1))) (beckmann_share a).
Proof.
  intros a wo r1 A c C; unfold share, beckmann_share.
  assert (AA : 0 < a * a) by nra.
  assert (CC : 0 < c * c < 1) by nra.
  assert (T : 0 < (1 - c * c) / (c * c) / (a * a)) by (repeat apply Rdiv_lt_0_compat; lra).
  set (t := (1 - c * c) / (c * c) / (a * a)) in *.
  assert (E : 0 < exp (- t) < 1).
  { split; [apply exp_pos |]; rewrite <- exp_0; apply exp_increasing; lra. }
  split; [lra | left; intros r R].
  assert (L : ln (1 - r) < 0) by (rewrite <- ln_1; apply ln_increasing; lra).
  assert (X : 1 < 1 - a * a * ln (1 - r)) by nra.
  set (x := 1 - a * a * ln (1 - r)) in *.
  assert (SX : 0 < sqrt x) by (apply sqrt_lt_R0; lra).
  pose proof (sqrt_sqrt x ltac:(lra)) as SS.
  unfold beckmann_wh; fold x; rewrite half_z by (apply Rlt_le, Rdiv_lt_0_compat; lra).
  assert (Q1 : c <= 1 / sqrt x <-> c * c * x <= 1).
  { assert (I : 1 / sqrt x * sqrt x = 1) by (field; lra).
    split; intro H.
    - assert (H' : c * sqrt x <= 1) by (rewrite <- I; apply Rmult_le_compat_r; lra).
      assert (0 <= c * sqrt x) by (apply Rmult_le_pos; lra).
      rewrite <- SS; replace (c * c * (sqrt x * sqrt x)) with ((c * sqrt x) * (c * sqrt x)) by ring; nra.
    - apply (Rmult_le_reg_r (sqrt x)); [exact SX |]; rewrite I.
      rewrite <- SS in H; replace (c * c * (sqrt x * sqrt x)) with ((c * sqrt x) * (c * sqrt x)) in H by ring.
      assert (0 <= c * sqrt x) by (apply Rmult_le_pos; lra); nra. }
  rewrite Q1; clear Q1.
  assert (Q2 : c * c * x <= 1 <-> - t <= ln (1 - r)).
  { assert (TT : t * (c * c * (a * a)) = 1 - c * c) by (unfold t; field; split; lra).
    assert (CA : 0 < c * c * (a * a)) by (apply Rmult_lt_0_compat; lra).
    unfold x; split; intro H.
    - apply (Rmult_le_reg_r (c * c * (a * a))); [exact CA |]; lra.
    - assert (- t * (c * c * (a * a)) <= ln (1 - r) * (c * c * (a * a))) by (apply Rmult_le_compat_r; lra); lra. }
  rewrite Q2; clear Q2.
  split; intro H.
  - assert (exp (- t) <= 1 - r); [| lra].
    rewrite <- (exp_ln (1 - r)) by lra; destruct H as [H | H]; [apply Rlt_le, exp_increasing, H | rewrite H; lra].
  - assert (H' : exp (- t) <= 1 - r) by lra.
    rewrite <- (ln_exp (- t)); destruct H' as [H' | H']; [apply Rlt_le, ln_increasing; [apply exp_pos | exact H'] | rewrite H'; lra].
Qed.

Lemma beckmann_derivative : forall a c, 0 < a -> 0 < c < 1 ->
  derivable_pt_lim (beckmann_share a) c
    (- (2 * exp (- ((1 - c * c) / (c * c) / (a * a))) / (c * c * c * (a * a)))).
Proof.
  intros a c A C; assert (AA : 0 < a * a) by nra; assert (CC : 0 < c * c) by nra.
  pose (u := fun c => - ((1 - c * c) / (c * c) / (a * a))).
  assert (DU : derivable_pt_lim u c (2 / (c * c * c * (a * a)))).
  { assert (D1 := derivable_pt_lim_div (fun c => 1 - c * c) (fun c => c * c) c _ _ (dlim_one_minus_sq c) (dlim_sq c) ltac:(lra)).
    assert (D2 := derivable_pt_lim_mult _ (fct_cte (- / (a * a))) c _ 0 D1 (derivable_pt_lim_const _ c)).
    eapply dlim_eq; [apply (dlim_local _ u _ _ C) with (2 := D2) |].
    - intros x X; unfold u, mult_fct, div_fct, fct_cte; field; split; nra.
    - unfold fct_cte, div_fct, Rsqr; field; split; lra. }
  assert (D := derivable_pt_lim_comp u exp c _ _ DU (derivable_pt_lim_exp (u c))).
  eapply dlim_eq; [exact (derivable_pt_lim_minus (fct_cte 1) (comp exp u) c 0 _ (derivable_pt_lim_const 1 c) D) |].
  unfold u; field; split; lra.
Qed.

(* C74.  The exponential of Beckmann is multiplied in twice, so the reported density is
   wrong for every roughness and every angle; without the second factor it would be right. *)
Theorem beckmann_density_refuted : forall a wo r1 G c, 0 < a -> 0 < c < 1 ->
  shares (fun r0 => Rabs (rz (beckmann_wh a wo r0 r1))) G ->
  ~ density_at G (fun c => dist_pdf (beckmann_D a) (RV (sqrt (1 - c * c)) 0 c)) c /\
  density_at G (fun c => exp (- (1 - c * c) / (c * c) / (a * a)) / (PI * (c * c) * (c * c) * (a * a)) * c) c.
Proof.
  intros a wo r1 G c A C S.
  pose proof (beckmann_shares a wo r1 A) as S0; pose proof (beckmann_derivative a c A C) as D0.
  pose proof PI_RGT_0 as P; assert (AA : 0 < a * a) by nra; assert (CC : 0 < c * c < 1) by nra.
  set (t := (1 - c * c) / (c * c) / (a * a)) in *.
  assert (T : 0 < t) by (unfold t; repeat apply Rdiv_lt_0_compat; lra).
  assert (E : 0 < exp (- t) < 1).
  { split; [apply exp_pos |]; rewrite <- exp_0; apply exp_increasing; lra. }
  split.
  - intro D; apply (density_other _ _ _ _ _ S S0 C) in D.
    pose proof (uniqueness_limite _ _ _ _ D D0) as X.
    unfold dist_pdf, beckmann_D in X; cbn [rz] in X.
    destruct (Req_EM_T (c * c) 0) as [Z | _]; [lra |].
    rewrite (Rabs_pos_eq c) in X by lra.
    replace (- ((1 - c * c) / (c * c)) / (a * a)) with (- t) in X by (unfold t; field; split; lra).
    set (e := exp (- t)) in *.
    assert (Y : e * e = e); [| nra].
    assert (Z : 0 < 2 / (c * c * c * (a * a))) by (apply Rdiv_lt_0_compat; [lra | repeat apply Rmult_lt_0_compat; lra]).
    apply (Rmult_eq_reg_l (2 / (c * c * c * (a * a)))); [| lra].
    transitivity (2 * PI * (e / (PI * (c * c) * (c * c) * (a * a)) * e * c)); [field; repeat split; lra |].
    transitivity (2 * e / (c * c * c * (a * a))); [lra | field; split; lra].
  - apply (density_other _ _ _ _ _ S0 S C); eapply dlim_eq; [exact D0 |].
    replace (- (1 - c * c) / (c * c) / (a * a)) with (- t) by (unfold t; field; split; lra).
    field; repeat split; lra.
Qed.
Print Assumptions beckmann_density_refuted.
Example beckmann_density_ex : shares (fun r0 => Rabs (rz (beckmann_wh (1 / 2) (RV 0 0 1) r0 0))) (beckmann_share (1 / 2)).
Proof. apply beckmann_shares; lra. Qed.

(* the half vectors of Blinn and Beckmann have length one and lie on the side of wo *)
Lemma blinn_half : forall n wo r0 r1, 0 <= n -> 0 < r0 <= 1 ->
  unit (blinn_wh n wo r0 r1) /\ 0 <= rz wo * rz (blinn_wh n wo r0 r1) /\ azimuth (blinn_wh n wo r0 r1) (2 * PI * r1).
Proof.
  intros n wo r0 r1 N R; unfold blinn_wh; rewrite (Rmult_comm r1 (2 * PI)).
  set (c := Rpower r0 (1 / (n + 1))).
  assert (C : 0 < c <= 1).
  { split; [apply exp_pos |]; apply rpower_le_one; [exact R | apply Rdiv_lt_0_compat; lra]. }
  apply half_unit; [lra | apply sqrt_pos |].
  rewrite Rmax_right by nra; rewrite sqrt_sqrt by nra; ring.
Qed.

Lemma beckmann_half : forall a wo r0 r1, 0 < a -> 0 < r0 < 1 ->
  unit (beckmann_wh a wo r0 r1) /\ 0 <= rz wo * rz (beckmann_wh a wo r0 r1) /\ azimuth (beckmann_wh a wo r0 r1) (2 * PI * r1).
Proof.
  intros a wo r0 r1 A R; unfold beckmann_wh.
  assert (L : ln (1 - r0) < 0) by (rewrite <- ln_1; apply ln_increasing; lra).
  assert (AA : 0 < a * a) by nra.
  assert (X : 1 < 1 - a * a * ln (1 - r0)) by nra.
  set (x := 1 - a * a * ln (1 - r0)) in *.
  assert (SX : 0 < sqrt x) by (apply sqrt_lt_R0; lra).
  assert (CC : 1 / sqrt x * (1 / sqrt x) = / x).
  { rewrite <- (sqrt_sqrt x) at 3 by lra; field; lra. }
  assert (I : 0 < / x < 1).
  { split; [apply Rinv_0_lt_compat; lra |]; rewrite <- Rinv_1; apply Rinv_lt_contravar; lra. }
  apply half_unit; [apply Rlt_le, Rdiv_lt_0_compat; lra | apply sqrt_pos |].
  rewrite CC, sqrt_sqrt by lra; ring.
Qed.

(* C74, C77.  Every half vector drawn has length one, lies on the side of wo and has the
   azimuth of the second random number. *)
Theorem half_vectors : forall n a a2 wo r0 r1, 0 <= n -> 0 < a -> 0 < a2 -> 0 < r0 < 1 ->
  forall w, w = blinn_wh n wo r0 r1 \/ w = beckmann_wh a wo r0 r1 \/ w = ggx_wh a2 wo r0 r1 ->
  unit w /\ 0 <= rz wo * rz w /\ azimuth w (2 * PI * r1).
Proof.
  intros n a a2 wo r0 r1 N A A2 R w [-> | [-> | ->]].
  - apply blinn_half; lra.
  - apply beckmann_half; assumption.
  - exact (proj1 (ggx_sampling a2 wo r1 A2) r0 R).
Qed.
Print Assumptions half_vectors.
Example half_vectors_ex : 0 <= 10 /\ 0 < 1 / 2 /\ 0 < 1 / 4 /\ 0 < 1 / 3 < 1.
Proof. lra. Qed.

(* ----- rough reflection ----- *)

(* not in the range where Vec3::normalize leaves a vector of length other than one alone *)
Definition off_tolerance (l2 : R) : Prop := l2 = 1 \/ / 100000 <= Rabs (l2 - 1).

Lemma normalize_scale : forall w k, unit w -> k <> 0 -> off_tolerance (k * k) ->
  rnormalize (rscale k w) = if Rlt_dec 0 k then w else rneg w.
Proof.
  intros w k U K O.
  assert (L : rdot (rscale k w) (rscale k w) = k * k).
  { transitivity (k * k * rdot w w); [unfold rdot; cbn; ring | rewrite U; ring]. }
  assert (G : rnormalize (rscale k w) = rscale (/ sqrt (k * k)) (rscale k w)).
  { unfold rnormalize; rewrite L.
    destruct (Rlt_dec (1 - / 100000) (k * k)) as [A | A]; [| reflexivity].
    destruct (Rlt_dec (k * k) (1 + / 100000)) as [B | B]; [| reflexivity].
    destruct O as [E | E].
    - rewrite E, sqrt_1, Rinv_1; apply rv_eq; cbn; ring.
    - exfalso; assert (Rabs (k * k - 1) < / 100000) by (apply Rabs_def1; lra); lra. }
  rewrite G; clear G.
  assert (S : sqrt (k * k) = Rabs k) by (rewrite <- sqrt_Rsqr_abs; reflexivity).
  rewrite S; destruct (Rlt_dec 0 k) as [P | P].
  - rewrite Rabs_pos_eq by lra; apply rv_eq; cbn; field; lra.
  - rewrite Rabs_left by lra; apply rv_eq; cbn; field; lra.
Qed.

Lemma reflect_unit : forall wo wh, unit wo -> unit wh ->
  unit (rneg (rreflect wo wh)) /\ rneg (rreflect wo wh) = rsub (rscale (2 * rdot wo wh) wh) wo.
Proof.
  intros wo wh U H; split.
  - unfold unit; transitivity (rdot wo wo + 4 * (rdot wo wh * rdot wo wh) * (rdot wh wh - 1)).
    + unfold rreflect, rdot; cbn; ring.
    + rewrite U, H; ring.
  - unfold rreflect; apply rv_eq; cbn; ring.
Qed.

(* C77.  A rough reflection gives a unit direction; either it falls below the surface and
   both value and density are zero, or it is the mirror image of wo about the half vector
   drawn, on the side of wo, with a density that pdf() also reports. *)
Theorem rough_sample : forall d f wo r0 r1,
  let wh := d_wh d wo r0 r1 in
  unit wo -> rz wo <> 0 -> unit wh -> 0 <= rz wo * rz wh -> (forall a b, 0 <= d_pdf d a b) ->
  exists wi, sm_wi (micro_sample d f wo r0 r1) = Some wi /\ unit wi /\
    0 <= sm_pdf (micro_sample d f wo r0 r1) /\
    ((rz wo * rz wi < 0 /\ sm_pdf (micro_sample d f wo r0 r1) = 0 /\ sm_value (micro_sample d f wo r0 r1) = 0 /\
      micro_pdf d wo wi = 0 /\ micro_value d f wo wi = 0) \/
     (0 <= rz wo * rz wi /\ 0 < rdot wo wh /\ radd wo wi = rscale (2 * rdot wo wh) wh /\
      sm_value (micro_sample d f wo r0 r1) = micro_value d f wo wi /\
      (off_tolerance (4 * (rdot wo wh * rdot wo wh)) -> sm_pdf (micro_sample d f wo r0 r1) = micro_pdf d wo wi))).
Proof.
  intros d f wo r0 r1 wh U Z H S P.
  destruct (reflect_unit wo wh U H) as [WU WE].
  unfold micro_sample; fold wh; rewrite (normalize_unit wh H), (normalize_unit _ WU).
  set (wi := rneg (rreflect wo wh)) in *; exists wi.
  assert (ADD : radd wo wi = rscale (2 * rdot wo wh) wh) by (rewrite WE; apply rv_eq; cbn; ring).
  unfold micro_pdf, micro_value; destruct (Rlt_dec (rz wo * rz wi) 0) as [N | N]; cbn [sm_wi sm_pdf sm_value].
  - split; [reflexivity | split; [exact WU | split; [lra | left; repeat (split; [assumption || reflexivity |]); reflexivity]]].
  - split; [reflexivity | split; [exact WU |]].
    assert (D : 0 < rdot wo wh).
    { destruct (Rlt_dec 0 (rdot wo wh)) as [L | L]; [exact L | exfalso; apply N].
      rewrite WE; cbn.
      replace (rz wo * (2 * rdot wo wh * rz wh - rz wo)) with (2 * (rdot wo wh * (rz wo * rz wh)) - rz wo * rz wo) by ring.
      assert (rdot wo wh * (rz wo * rz wh) <= 0) by nra.
      assert (0 < rz wo * rz wo) by (destruct (Rtotal_order (rz wo) 0) as [Q | [Q | Q]]; nra); lra. }
    split.
    { apply Rmult_le_pos; [apply P | apply Rlt_le, Rinv_0_lt_compat; lra]. }
    right; split; [lra | split; [exact D | split; [exact ADD | split; [reflexivity |]]]].
    intro O; rewrite ADD, normalize_scale; [| exact H | lra |].
    + destruct (Rlt_dec 0 (2 * rdot wo wh)) as [_ | X]; [reflexivity | exfalso; lra].
    + replace (2 * rdot wo wh * (2 * rdot wo wh)) with (4 * (rdot wo wh * rdot wo wh)) by ring; exact O.
Qed.
Print Assumptions rough_sample.
Example rough_sample_ex : unit (RV 0 0 1) /\ rz (RV 0 0 1) <> 0 /\
  unit (d_wh (ggx (1 / 4)) (RV 0 0 1) (1 / 2) 0) /\ 0 <= rz (RV 0 0 1) * rz (d_wh (ggx (1 / 4)) (RV 0 0 1) (1 / 2) 0).
Proof.
  destruct (proj1 (ggx_sampling (1 / 4) (RV 0 0 1) 0 ltac:(lra)) (1 / 2) ltac:(lra)) as (A & B & _).
  split; [unfold unit, rdot; cbn; lra | split; [cbn; lra | split; [exact A | exact B]]].
Qed.

Lemma ggx_D_pos : forall a2 h, 0 < a2 -> 0 <= ggx_D a2 h.
Proof.
  intros a2 h A; unfold ggx_D; destruct (Req_EM_T (rz h) 0) as [_ | Z]; [lra |].
  assert (C : 0 < rz h * rz h) by (destruct (Rtotal_order (rz h) 0) as [Q | [Q | Q]]; nra).
  set (m := rz h * rz h) in *; clearbody m; set (q := Rmax 0 (1 - m)); assert (Q : 0 <= q) by apply Rmax_l.
  assert (T : 0 < a2 + q / m).
  { assert (0 <= q / m) by (apply Rmult_le_pos; [exact Q | apply Rlt_le, Rinv_0_lt_compat, C]); lra. }
  set (t := a2 + q / m) in *; clearbody t.
  apply Rmult_le_pos; [lra |]; apply Rlt_le, Rinv_0_lt_compat; repeat first [exact PI_RGT_0 | assumption | apply Rmult_lt_0_compat].
Qed.

Lemma ggx_G_pos : forall a2 v, 0 < a2 -> 0 <= ggx_G1 a2 v.
Proof.
  intros a2 v A; unfold ggx_G1; destruct (Req_EM_T (rz v * rz v) 0); [lra |].
  apply Rmult_le_pos; [lra |]; apply Rlt_le, Rinv_0_lt_compat.
  pose proof (sqrt_pos (1 + a2 * Rmax 0 (1 - rz v * rz v * (rz v * rz v)) / (rz v * rz v))); lra.
Qed.

(* C77.  Rough reflection is reciprocal when the geometric term is symmetric, as that of
   GGX is, and the GGX value and density are never negative. *)
Theorem rough_reciprocal : forall d f wo wi, unit wo -> unit wi ->
  (forall a b, d_G d a b = d_G d b a) -> micro_value d f wo wi = micro_value d f wi wo.
Proof.
  intros d f wo wi U V S; unfold micro_value; cbv zeta.
  rewrite (Rmult_comm (rz wi) (rz wo)).
  assert (E : radd wi wo = radd wo wi) by (apply rv_eq; cbn; ring); rewrite E; clear E.
  destruct (Rlt_dec (rz wo * rz wi) 0) as [_ | _]; [reflexivity |].
  destruct (Req_EM_T (Rabs (rz wo)) 0) as [A | A];
    destruct (Req_EM_T (Rabs (rz wi)) 0) as [B | B]; try reflexivity.
  destruct (is_zero (radd wo wi)) eqn:IZ; [reflexivity |].
  assert (NZ : rdot (radd wo wi) (radd wo wi) <> 0).
  { intro X; apply rdot_zero in X; rewrite X in IZ; unfold is_zero in IZ; cbn in IZ.
    destruct (Req_EM_T 0 0) as [_ | Y]; [discriminate | apply Y; reflexivity]. }
  destruct (normalize_length _ NZ) as ((k & K & ->) & _).
  assert (F : rdot wi (rscale k (radd wo wi)) = rdot wo (rscale k (radd wo wi))).
  { transitivity (k * (rdot wo wi + rdot wi wi)); [unfold rdot; cbn; ring |].
    transitivity (k * (rdot wo wo + rdot wo wi)); [rewrite U, V; ring | unfold rdot; cbn; ring]. }
  rewrite F, S; field; auto.
Qed.
Print Assumptions rough_reciprocal.
Example rough_reciprocal_ex : unit (RV (3 / 5) 0 (4 / 5)) /\ unit (RV 0 0 1) /\
  (forall a b, d_G (ggx (1 / 4)) a b = d_G (ggx (1 / 4)) b a).
Proof. split; [| split]; [unfold unit, rdot; cbn; lra .. | intros a b; cbn; unfold ggx_G; ring]. Qed.

Theorem rough_nonnegative : forall a2 f wo wi wh, 0 < a2 -> (forall c, 0 <= f c) ->
  0 <= micro_value (ggx a2) f wo wi /\ 0 <= d_pdf (ggx a2) wo wh.
Proof.
  intros a2 f wo wi wh A F; split.
  - unfold micro_value; cbv zeta; destruct (Rlt_dec (rz wo * rz wi) 0); [lra |].
    destruct (Req_EM_T (Rabs (rz wo)) 0) as [_ | B]; [lra |].
    destruct (Req_EM_T (Rabs (rz wi)) 0) as [_ | C]; [lra |].
    destruct (is_zero (radd wo wi)); [lra |].
    pose proof (Rabs_pos (rz wo)); pose proof (Rabs_pos (rz wi)).
    apply Rmult_le_pos; [repeat apply Rmult_le_pos |].
    + apply F.
    + apply ggx_D_pos, A.
    + apply ggx_G_pos, A.
    + apply ggx_G_pos, A.
    + apply Rlt_le, Rinv_0_lt_compat; repeat apply Rmult_lt_0_compat; lra.
  - apply Rmult_le_pos; [apply ggx_D_pos, A | apply Rabs_pos].
Qed.
Print Assumptions rough_nonnegative.
Example rough_nonnegative_ex : 0 < 1 / 4 /\ forall c : R, 0 <= (fun _ => 1) c.
Proof. split; [lra | intro; cbn; lra]. Qed.

(* ----- rough transmission ----- *)

Lemma refract_half : forall wo wh etao etai wi, 0 < etao -> 0 < etai -> unit wo -> unit wh ->
  rrefract wo wh (etao / etai) = Some wi ->
  exists cost, 0 <= cost /\ unit wi /\ rdot wi wh = - cost /\
    etai * etai * (cost * cost) = etai * etai - etao * etao * (1 - rdot wo wh * rdot wo wh) /\
    rsub (rscale etao (rneg wo)) (rscale etai wi) = rscale (etai * cost - etao * rdot wo wh) wh.
Proof.
  intros wo wh etao etai wi PO PI U H E; unfold rrefract in E; cbv zeta in E.
  set (c := rdot wo wh) in *.
  assert (CS : 0 <= 1 - c * c).
  { assert (Q : rdot (rsub wo (rscale c wh)) (rsub wo (rscale c wh)) = 1 - c * c).
    { transitivity (rdot wo wo - 2 * c * rdot wo wh + c * c * rdot wh wh); [unfold rdot; cbn; ring |].
      rewrite U, H; fold c; ring. }
    pose proof (rdot_pos (rsub wo (rscale c wh))); lra. }
  rewrite Rmax_right in E by lra.
  set (s := (1 - c * c) * (etao / etai) * (etao / etai)) in *.
  destruct (Rlt_dec 1 s) as [_ | N]; [discriminate |].
  exists (sqrt (1 - s)); pose proof (sqrt_pos (1 - s)) as SP; pose proof (sqrt_sqrt (1 - s) ltac:(lra)) as SS.
  injection E as <-; set (q := sqrt (1 - s)) in *.
  assert (I : etai * etai * s = etao * etao * (1 - c * c)) by (unfold s; field; lra).
  set (e := etao / etai) in *; assert (EE : etai * e = etao) by (unfold e; field; lra).
  assert (K : etai * etai * (q * q) = etai * etai - etao * etao * (1 - c * c)) by (rewrite SS, <- I; ring).
  split; [exact SP | split; [| split; [| split; [exact K |]]]].
  - unfold unit.
    transitivity (e * e * rdot wo wo - 2 * e * (c * e - q) * rdot wo wh + (c * e - q) * (c * e - q) * rdot wh wh);
      [unfold rdot; cbn; ring |].
    rewrite U, H; fold c.
    transitivity (e * e * (1 - c * c) + q * q); [ring |]; rewrite SS; unfold s; ring.
  - transitivity (- e * rdot wo wh + (c * e - q) * rdot wh wh); [unfold rdot; cbn; ring |].
    rewrite H; fold c; ring.
  - rewrite <- EE; apply rv_eq; cbn; ring.
Qed.

(* C78.  Leaving the denser medium, pdf() of a rough transmission with the Blinn
   distribution is zero for every direction that sample_value() produces with a positive
   density: pdf() rebuilds the half vector pointing away from wo. *)
Theorem rough_exit_refuted : forall n G eta_i eta_t wo r0 r1 wi p,
  0 <= n -> 0 < eta_i -> eta_i < eta_t -> unit wo -> rz wo < 0 -> 0 < r0 <= 1 ->
  0 < rdot wo (blinn_wh n wo r0 r1) ->
  trans_sample (blinn n G) eta_i eta_t wo r0 r1 = (Some wi, p) ->
  0 < p /\ trans_pdf (blinn n G) eta_i eta_t wo wi = 0.
Proof.
  intros n G ei et wo r0 r1 wi p N EI ET U Z R C E.
  destruct (blinn_half n wo r0 r1 N R) as (H & _).
  unfold trans_sample in E; cbn [blinn d_wh d_pdf] in E.
  set (wh := blinn_wh n wo r0 r1) in *; rewrite (normalize_unit wh H) in E; cbv zeta in E.
  destruct (Req_EM_T (rz wo) 0) as [X | _]; [lra |].
  unfold trans_pdf; destruct (Rlt_dec 0 (rz wo)) as [X | _]; [lra |].
  destruct (rrefract wo wh (et / ei)) as [w |] eqn:RF; [| discriminate].
  destruct (refract_half wo wh et ei w ltac:(lra) EI U H RF) as (cost & CP & WU & WD & K & RB).
  destruct (is_zero w); [discriminate |]; injection E as E1 E2.
  rewrite (normalize_unit w WU) in E1; subst w p.
  set (c := rdot wo wh) in *.
  assert (LT : ei * cost < et * c).
  { assert (Q : (ei * cost) * (ei * cost) < (et * c) * (et * c)).
    { replace (ei * cost * (ei * cost)) with (ei * ei * (cost * cost)) by ring; rewrite K; nra. }
    assert (0 <= ei * cost) by (apply Rmult_le_pos; lra).
    assert (0 < et * c) by (apply Rmult_lt_0_compat; lra); nra. }
  split.
  - unfold blinn_pdf; fold c; destruct (Rlt_dec 0 c) as [_ | X]; [| lra].
    rewrite WD, (Rabs_pos_eq c) by lra; pose proof PI_RGT_0 as P.
    assert (D : 0 < ei * - cost + et * c) by lra.
    apply Rmult_lt_0_compat; apply Rdiv_lt_0_compat; [| lra | |].
    + apply Rmult_lt_0_compat; [lra | apply exp_pos].
    + repeat apply Rmult_lt_0_compat; lra.
    + apply Rmult_lt_0_compat; exact D.
  - destruct (Rlt_dec 0 (rz wo * rz wi)) as [_ | _]; [reflexivity |]; cbv zeta; rewrite RB.
    destruct (is_zero (rscale (ei * cost - et * c) wh)); [reflexivity |].
    assert (NZ : rdot (rscale (ei * cost - et * c) wh) (rscale (ei * cost - et * c) wh) <> 0).
    { intro X; replace (rdot (rscale (ei * cost - et * c) wh) (rscale (ei * cost - et * c) wh))
        with ((ei * cost - et * c) * (ei * cost - et * c) * rdot wh wh) in X by (unfold rdot; cbn; ring).
      rewrite H in X; nra. }
    destruct (normalize_length _ NZ) as ((k & KP & ->) & _); cbn [blinn d_pdf]; unfold blinn_pdf.
    destruct (Rlt_dec 0 (rdot wo (rscale k (rscale (ei * cost - et * c) wh)))) as [X | _]; [exfalso | ring].
    replace (rdot wo (rscale k (rscale (ei * cost - et * c) wh))) with (k * (c * (ei * cost - et * c))) in X
      by (unfold c, rdot; cbn; ring).
    assert (c * (ei * cost - et * c) < 0) by nra; nra.
Qed.
Print Assumptions rough_exit_refuted.

Lemma blinn_straight : forall n r1, blinn_wh n (RV 0 0 (-1)) 1 r1 = RV 0 0 (-1).
Proof.
  intros n r1; unfold blinn_wh, half_vector.
  rewrite rpower_one; replace (1 - 1 * 1) with 0 by ring; rewrite (Rmax_left 0 0) by lra; rewrite sqrt_0; cbn [rz].
  destruct (Rlt_dec (-1 * 1) 0) as [_ | X]; [| exfalso; lra].
  apply rv_eq; cbn; ring.
Qed.

Example rough_exit_ex : exists wi p, trans_sample (blinn 10 (fun _ _ => 1)) 1 2 (RV 0 0 (-1)) 1 0 = (Some wi, p) /\
  0 < rdot (RV 0 0 (-1)) (blinn_wh 10 (RV 0 0 (-1)) 1 0) /\ 0 < rz wi.
Proof.
  unfold trans_sample; cbn [rz blinn d_wh]; rewrite blinn_straight.
  destruct (Req_EM_T (-1) 0) as [X | _]; [exfalso; lra |].
  destruct (Rlt_dec 0 (-1)) as [X | _]; [exfalso; lra |].
  rewrite normalize_unit by (unfold unit, rdot; cbn; ring).
  unfold rrefract, rdot; cbn [rx ry rz].
  rewrite Rmax_left by lra.
  destruct (Rlt_dec 1 (0 * (2 / 1) * (2 / 1))) as [X | _]; [exfalso; lra |].
  replace (1 - 0 * (2 / 1) * (2 / 1)) with 1 by field; rewrite sqrt_1.
  set (w := radd _ _); assert (W : w = RV 0 0 1) by (unfold w; apply rv_eq; cbn; field).
  rewrite W; unfold is_zero; cbn [rx ry rz].
  destruct (Req_EM_T 0 0) as [_ | X]; [| exfalso; lra]; destruct (Req_EM_T 1 0) as [X | _]; [exfalso; lra |].
  eexists; eexists; split; [reflexivity | split; [lra |]].
  rewrite normalize_unit by (unfold unit, rdot; cbn; ring); cbn; lra.
Qed.

(* C78, C79.  With a density that does not depend on the sign of the half vector, as for
   Beckmann and GGX, or entering the denser medium, pdf() and sample_value() agree. *)
Theorem rough_transmission : forall d eta_i eta_t wo r0 r1 wi p,
  let wh := d_wh d wo r0 r1 in
  let etao := if Rlt_dec 0 (rz wo) then eta_i else eta_t in
  let etai := if Rlt_dec 0 (rz wo) then eta_t else eta_i in
  let h := rsub (rscale etao (rneg wo)) (rscale etai wi) in
  0 < eta_i -> 0 < eta_t -> eta_i <> eta_t -> unit wo -> unit wh -> 0 < rdot wo wh ->
  trans_sample d eta_i eta_t wo r0 r1 = (Some wi, p) -> rz wo * rz wi <= 0 ->
  off_tolerance (rdot h h) ->
  (forall a b, d_pdf d a (rneg b) = d_pdf d a b) \/ etao < etai ->
  unit wi /\ trans_pdf d eta_i eta_t wo wi = p.
Proof.
  intros d ei et wo r0 r1 wi p wh etao etai h EI ET NE U H C E Z O SY.
  unfold trans_sample in E; fold wh etao etai in E; rewrite (normalize_unit wh H) in E; cbv zeta in E.
  assert (PO : 0 < etao /\ 0 < etai /\ etao <> etai).
  { unfold etao, etai; destruct (Rlt_dec 0 (rz wo)); repeat split; auto; lra. }
  destruct PO as (PO & PI & NQ).
  destruct (Req_EM_T (rz wo) 0) as [X | _]; [discriminate |].
  unfold trans_pdf; fold etao etai h.
  destruct (rrefract wo wh (etao / etai)) as [w |] eqn:RF; [| discriminate].
  destruct (refract_half wo wh etao etai w PO PI U H RF) as (cost & CP & WU & WD & K & RB).
  destruct (is_zero w); [discriminate |]; injection E as E1 E2.
  rewrite (normalize_unit w WU) in E1; subst w p; split; [exact WU |].
  set (c := rdot wo wh) in *.
  destruct (Rlt_dec 0 (rz wo * rz wi)) as [X | _]; [lra |]; cbv zeta; fold h in RB |- *.
  set (k := etai * cost - etao * c) in *.
  assert (HH : rdot h h = k * k).
  { rewrite RB; transitivity (k * k * rdot wh wh); [unfold rdot; cbn; ring | rewrite H; ring]. }
  assert (SQ : (etai * cost) * (etai * cost) - (etao * c) * (etao * c) = etai * etai - etao * etao).
  { transitivity (etai * etai * (cost * cost) - etao * etao * (c * c)); [ring | rewrite K; ring]. }
  assert (C0 : 0 <= etai * cost) by (apply Rmult_le_pos; lra).
  assert (C1 : 0 < etao * c) by (apply Rmult_lt_0_compat; lra).
  assert (KZ : k <> 0).
  { intro X; assert (Y : etai * cost = etao * c) by (unfold k in X; lra); rewrite Y in SQ.
    assert ((etai - etao) * (etai + etao) = 0) by lra; assert (etai + etao <> 0) by lra.
    apply Rmult_integral in H0; lra. }
  assert (IZ : is_zero h = false).
  { destruct (is_zero h) eqn:IZ; [exfalso | reflexivity].
    assert (W : h = RV 0 0 0).
    { unfold is_zero in IZ; destruct (Req_EM_T (rx h) 0); [| discriminate].
      destruct (Req_EM_T (ry h) 0); [| discriminate]; destruct (Req_EM_T (rz h) 0); [| discriminate].
      apply rv_eq; assumption. }
    rewrite W in HH; unfold rdot in HH; cbn in HH; assert (k * k = 0) by lra; apply KZ; nra. }
  rewrite IZ, RB, (normalize_scale wh k H KZ) by (rewrite <- HH; exact O).
  destruct (Rlt_dec 0 k) as [KP | KN]; [fold c; reflexivity |].
  destruct SY as [SY | SY].
  - rewrite SY.
    assert (D1 : rdot wo (rneg wh) = - c) by (unfold c, rdot; cbn; ring).
    assert (D2 : rdot wi (rneg wh) = - rdot wi wh) by (unfold rdot; cbn; ring).
    rewrite D1, D2, Rabs_Ropp.
    replace ((etai * - rdot wi wh + etao * - c) * (etai * - rdot wi wh + etao * - c))
      with ((etai * rdot wi wh + etao * c) * (etai * rdot wi wh + etao * c)) by ring; reflexivity.
  - exfalso; apply KN; assert (0 < etai * etai - etao * etao) by nra; unfold k; nra.
Qed.
Print Assumptions rough_transmission.
Lemma ggx_sign : forall a2 a b, d_pdf (ggx a2) a (rneg b) = d_pdf (ggx a2) a b.
Proof.
  intros a2 a b; cbn; unfold dist_pdf, ggx_D; cbn; rewrite Rabs_Ropp.
  replace (- rz b * - rz b) with (rz b * rz b) by ring.
  destruct (Req_EM_T (- rz b) 0) as [X | X]; destruct (Req_EM_T (rz b) 0) as [Y | Y]; try lra; reflexivity.
Qed.

Lemma ggx_straight : forall r1, ggx_wh (1 / 4) (RV 0 0 1) 0 r1 = RV 0 0 1.
Proof.
  intro r1; unfold ggx_wh, half_vector.
  replace ((1 - 0) / (0 * (1 / 4 - 1) + 1)) with 1 by field; replace (1 - 1) with 0 by ring.
  rewrite (Rmax_left 0 0), (Rmax_right 0 1), sqrt_0, sqrt_1 by lra; cbn [rz].
  destruct (Rlt_dec (1 * 1) 0) as [X | _]; [exfalso; lra |].
  apply rv_eq; cbn; ring.
Qed.

Example rough_transmission_ex : exists wi p,
  trans_sample (ggx (1 / 4)) 1 3 (RV 0 0 1) 0 0 = (Some wi, p) /\ rz wi < 0 /\
  unit (ggx_wh (1 / 4) (RV 0 0 1) 0 0) /\ 0 < rdot (RV 0 0 1) (ggx_wh (1 / 4) (RV 0 0 1) 0 0) /\
  (let h := rsub (rscale 1 (rneg (RV 0 0 1))) (rscale 3 wi) in off_tolerance (rdot h h)) /\
  (forall a b, d_pdf (ggx (1 / 4)) a (rneg b) = d_pdf (ggx (1 / 4)) a b).
Proof.
  unfold trans_sample; cbn [rz ggx d_wh]; rewrite ggx_straight.
  destruct (Req_EM_T 1 0) as [X | _]; [exfalso; lra |].
  destruct (Rlt_dec 0 1) as [_ | X]; [| exfalso; lra].
  rewrite normalize_unit by (unfold unit, rdot; cbn; ring).
  unfold rrefract, rdot; cbn [rx ry rz].
  rewrite Rmax_left by lra.
  destruct (Rlt_dec 1 (0 * (1 / 3) * (1 / 3))) as [X | _]; [exfalso; lra |].
  replace (1 - 0 * (1 / 3) * (1 / 3)) with 1 by field; rewrite sqrt_1.
  set (w := radd _ _); assert (W : w = RV 0 0 (-1)) by (unfold w; apply rv_eq; cbn; field).
  rewrite W; unfold is_zero; cbn [rx ry rz].
  destruct (Req_EM_T 0 0) as [_ | X]; [| exfalso; lra]; destruct (Req_EM_T (-1) 0) as [X | _]; [exfalso; lra |].
  rewrite normalize_unit by (unfold unit, rdot; cbn; ring).
  eexists; eexists; split; [reflexivity | split; [cbn; lra | split; [unfold unit, rdot; cbn; ring | split; [lra | split]]]].
  - right; unfold rsub, rscale, rneg; cbn [rx ry rz].
    replace (_ - 1) with 3 by ring; rewrite Rabs_pos_eq; lra.
  - apply ggx_sign.
Qed.

(* ----- Oren-Nayar ----- *)

(* C76.  The Oren-Nayar value is reciprocal. *)
Theorem oren_reciprocal : forall sigma wo wi, oren_value sigma wo wi = oren_value sigma wi wo.
Proof.
  intros sigma wo wi; unfold oren_value; cbv zeta.
  set (si := sqrt (Rmax 0 (1 - rz wi * rz wi))); set (so := sqrt (Rmax 0 (1 - rz wo * rz wo))).
  destruct (Rlt_dec 0 si) as [PI | NI]; destruct (Rlt_dec 0 so) as [PO | NO]; try reflexivity.
  set (a := clamp (rx wi / si) (-1) 1); set (b := clamp (rx wo / so) (-1) 1).
  set (x := Rmax 0 (sqrt (1 - a * a))); set (y := Rmax 0 (sqrt (1 - b * b))).
  replace (b * a + y * x) with (a * b + x * y) by ring.
  destruct (Rlt_dec (Rabs (rz wo)) (Rabs (rz wi))) as [L | L];
    destruct (Rlt_dec (Rabs (rz wi)) (Rabs (rz wo))) as [M | M]; try lra; try reflexivity.
  assert (E : Rabs (rz wi) = Rabs (rz wo)) by lra.
  assert (S : si = so).
  { unfold si, so; replace (rz wi * rz wi) with (Rabs (rz wi) * Rabs (rz wi)) by (rewrite <- Rabs_mult; apply Rabs_pos_eq; nra).
    rewrite E, <- Rabs_mult, Rabs_pos_eq by nra; reflexivity. }
  rewrite S, E; reflexivity.
Qed.
Print Assumptions oren_reciprocal.
Example oren_reciprocal_ex : oren_value (1 / 2) (RV (3 / 5) 0 (4 / 5)) (RV 0 (4 / 5) (3 / 5)) =
  oren_value (1 / 2) (RV 0 (4 / 5) (3 / 5)) (RV (3 / 5) 0 (4 / 5)).
Proof. apply oren_reciprocal. Qed.

(* turning both directions about the normal *)
Definition turned (phi : R) (w : rv) : rv :=
  RV (cos phi * rx w - sin phi * ry w) (sin phi * rx w + cos phi * ry w) (rz w).

(* C76.  The sign of the sine of the azimuths is lost, so the value is not isotropic:
   turning the pair of directions changes it, for every positive roughness and slope. *)
Theorem oren_isotropic_refuted : forall sigma s c, sigma <> 0 -> 0 < s -> 0 < c -> s * s + c * c = 1 ->
  let wo := RV s 0 c in
  let wi := RV (- s) 0 c in
  oren_value sigma wo wi < oren_value sigma (turned (PI / 2) wo) (turned (PI / 2) wi).
Proof.
  intros sigma s c SG S C E wo wi.
  assert (TO : turned (PI / 2) wo = RV 0 s c).
  { unfold turned, wo; rewrite cos_PI2, sin_PI2; apply rv_eq; cbn; ring. }
  assert (TI : turned (PI / 2) wi = RV 0 (- s) c).
  { unfold turned, wi; rewrite cos_PI2, sin_PI2; apply rv_eq; cbn; ring. }
  rewrite TO, TI; unfold wo, wi, oren_value; cbv zeta; cbn [rx ry rz].
  assert (SN : sqrt (Rmax 0 (1 - c * c)) = s).
  { rewrite Rmax_right by nra; replace (1 - c * c) with (s * s) by lra; apply sqrt_square; lra. }
  rewrite SN; destruct (Rlt_dec 0 s) as [_ | X]; [| lra].
  destruct (Rlt_dec (Rabs c) (Rabs c)) as [X | _]; [lra |].
  assert (K1 : clamp (- s / s) (-1) 1 = -1).
  { replace (- s / s) with (-1) by (field; lra); unfold clamp.
    destruct (Rlt_dec (-1) (-1)); [lra |]; destruct (Rlt_dec 1 (-1)); lra. }
  assert (K2 : clamp (s / s) (-1) 1 = 1).
  { replace (s / s) with 1 by (field; lra); unfold clamp.
    destruct (Rlt_dec 1 (-1)); [lra |]; destruct (Rlt_dec 1 1); lra. }
  assert (K3 : clamp (0 / s) (-1) 1 = 0).
  { replace (0 / s) with 0 by (field; lra); unfold clamp.
    destruct (Rlt_dec 0 (-1)); [lra |]; destruct (Rlt_dec 1 0); lra. }
  rewrite K1, K2, K3.
  replace (1 - -1 * -1) with 0 by ring; replace (1 - 1 * 1) with 0 by ring; replace (1 - 0 * 0) with 1 by ring.
  rewrite sqrt_0, sqrt_1, (Rmax_left 0 0), (Rmax_right 0 1) by lra.
  rewrite (Rmax_left 0 (-1 * 1 + 0 * 0)), (Rmax_right 0 (0 * 0 + 1 * 1)) by lra.
  apply Rmult_lt_compat_l; [apply Rinv_0_lt_compat, PI_RGT_0 |].
  rewrite (Rabs_pos_eq c) by lra.
  assert (B : 0 < oren_B sigma).
  { unfold oren_B; assert (0 < sigma * sigma) by (destruct (Rtotal_order sigma 0) as [Q | [Q | Q]]; nra).
    apply Rdiv_lt_0_compat; lra. }
  assert (0 < oren_B sigma * (0 * 0 + 1 * 1) * s * (s / c)).
  { replace (oren_B sigma * (0 * 0 + 1 * 1) * s * (s / c)) with (oren_B sigma * (s * s / c)) by (field; lra).
    apply Rmult_lt_0_compat; [exact B | apply Rdiv_lt_0_compat; [nra | exact C]]. }
  lra.
Qed.
Print Assumptions oren_isotropic_refuted.
Example oren_isotropic_ex : 1 / 2 <> 0 /\ 0 < 3 / 5 /\ 0 < 4 / 5 /\ 3 / 5 * (3 / 5) + 4 / 5 * (4 / 5) = 1.
Proof. lra. Qed.
