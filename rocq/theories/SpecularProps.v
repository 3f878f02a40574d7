(* C45, C46: Fresnel terms and specular directions. *)
From Coq Require Import Reals Lra Psatz.
From Verif Require Import RVecModel RVecProps SpecularModel SpecularSpec.
Local Open Scope R_scope.

(* ----- arithmetic ----- *)

Lemma sq_nonneg : forall x, 0 <= x * x.
Proof. intro x; pose proof (Rle_0_sqr x); unfold Rsqr in *; lra. Qed.

Lemma quot_range : forall a b, 0 <= a -> a <= b -> 0 < b -> 0 <= a / b <= 1.
Proof.
  intros a b A L B; assert (I : 0 < / b) by (apply Rinv_0_lt_compat, B); split.
  - unfold Rdiv; apply Rmult_le_pos; lra.
  - apply (Rmult_le_reg_r b); [exact B |]; unfold Rdiv; rewrite Rmult_assoc, Rinv_l by lra; lra.
Qed.

Lemma quot_over : forall a b, 0 < b -> b < a -> 1 < a / b.
Proof.
  intros a b B L; apply (Rmult_lt_reg_r b); [exact B |].
  unfold Rdiv; rewrite Rmult_assoc, Rinv_l by lra; lra.
Qed.

Lemma quot_sq : forall p q, 0 <= p -> 0 <= q -> 0 < p + q ->
  0 <= ((p - q) / (p + q)) * ((p - q) / (p + q)) <= 1.
Proof.
  intros p q P Q S; split; [apply sq_nonneg |].
  assert (L : -1 <= (p - q) / (p + q) <= 1).
  { split.
    - apply (Rmult_le_reg_r (p + q)); [exact S |]; unfold Rdiv; rewrite Rmult_assoc, Rinv_l by lra; lra.
    - apply (Rmult_le_reg_r (p + q)); [exact S |]; unfold Rdiv; rewrite Rmult_assoc, Rinv_l by lra; lra. }
  nra.
Qed.

(* ----- Fresnel terms ----- *)

(* C45.  A conductor seen from outside reflects a fraction in [0, 1]. *)
Theorem conductor_fraction : forall eta k cosin, 0 < eta -> 0 <= cosin <= 1 ->
  0 <= conductor_eval eta k cosin <= 1.
Proof.
  intros eta k c E C; unfold conductor_eval.
  pose proof (sq_nonneg (eta - c)) as A; pose proof (sq_nonneg k) as K; pose proof (sq_nonneg c) as CC.
  assert (EE : 0 < eta * eta) by (apply Rmult_lt_0_compat; lra).
  assert (EC : 0 <= eta * c) by (apply Rmult_le_pos; lra).
  assert (P : 0 <= (eta * eta + k * k - eta * (c * 2) + c * c) / (eta * eta + k * k + eta * (c * 2) + c * c) <= 1)
    by (apply quot_range; nra).
  assert (Q : 0 <= ((eta * eta + k * k) * (c * c) - eta * (c * 2) + 1) / ((eta * eta + k * k) * (c * c) + eta * (c * 2) + 1) <= 1).
  { pose proof (sq_nonneg (eta * c - 1)); assert (KC : 0 <= k * k * (c * c)) by (apply Rmult_le_pos; lra).
    assert (EEC : 0 <= eta * eta * (c * c)) by (apply Rmult_le_pos; lra).
    apply quot_range; nra. }
  lra.
Qed.
Print Assumptions conductor_fraction.
Example conductor_fraction_ex : 0 < 2 /\ 0 <= 1 <= 1 /\ conductor_eval 2 1 1 = / 5.
Proof. split; [lra | split; [lra |]]; unfold conductor_eval; field. Qed.

(* C45.  From inside (the cosine is negative: wo below the surface) every absorbing
   conductor claims to reflect more than it receives. *)
Theorem conductor_inside_refuted : forall eta k wo, 0 < eta -> k <> 0 -> -1 <= rz wo < 0 ->
  1 < conductor_eval eta k (rz wo) /\ 1 < sm_value (conductor_sample eta k wo) * Rabs (rz wo).
Proof.
  intros eta k wo E K C.
  assert (M : 1 < conductor_eval eta k (rz wo)).
  { set (c := rz wo) in *; unfold conductor_eval.
    assert (KK : 0 < k * k) by (pose proof (sq_nonneg k); destruct (Req_dec (k * k) 0) as [Z|]; [| lra];
      exfalso; apply K; apply Rmult_integral in Z; tauto).
    assert (EC : eta * c < 0) by nra.
    assert (CC : 0 < c * c) by nra.
    assert (P : 1 < (eta * eta + k * k - eta * (c * 2) + c * c) / (eta * eta + k * k + eta * (c * 2) + c * c)).
    { pose proof (sq_nonneg (eta + c)); apply quot_over; nra. }
    assert (Q : 1 < ((eta * eta + k * k) * (c * c) - eta * (c * 2) + 1) / ((eta * eta + k * k) * (c * c) + eta * (c * 2) + 1)).
    { pose proof (sq_nonneg (eta * c + 1)); assert (KC : 0 < k * k * (c * c)) by (apply Rmult_lt_0_compat; lra).
      apply quot_over; nra. }
    lra. }
  split; [exact M |].
  assert (A : Rabs (rz wo) <> 0) by (apply Rabs_no_R0; lra).
  unfold conductor_sample; cbn [sm_value].
  unfold conductor_eval in M; unfold Rdiv at 1; rewrite Rmult_assoc, Rinv_l by exact A; lra.
Qed.
Print Assumptions conductor_inside_refuted.
Example conductor_inside_ex : 0 < 2 /\ (1 <> 0) /\ -1 <= rz (RV 0 0 (-1)) < 0.
Proof. cbn; repeat split; lra. Qed.

Lemma terms_range : forall ei et ci ct, 0 < ei -> 0 < et -> 0 <= ci -> 0 <= ct -> 0 < ci + ct ->
  0 <= dielectric_terms ei et ci ct <= 1.
Proof.
  intros ei et ci ct EI ET CI CT S; unfold dielectric_terms.
  assert (A : 0 <= ei * ci) by (apply Rmult_le_pos; lra).
  assert (B : 0 <= et * ct) by (apply Rmult_le_pos; lra).
  assert (C : 0 <= et * ci) by (apply Rmult_le_pos; lra).
  assert (D : 0 <= ei * ct) by (apply Rmult_le_pos; lra).
  assert (P : 0 < ei * ci + et * ct /\ 0 < et * ci + ei * ct).
  { destruct (Rle_lt_or_eq_dec 0 ci CI) as [L | Z].
    - assert (0 < ei * ci) by (apply Rmult_lt_0_compat; lra).
      assert (0 < et * ci) by (apply Rmult_lt_0_compat; lra). lra.
    - assert (0 < et * ct) by (apply Rmult_lt_0_compat; lra).
      assert (0 < ei * ct) by (apply Rmult_lt_0_compat; lra). lra. }
  pose proof (quot_sq _ _ A B (proj1 P)); pose proof (quot_sq _ _ C D (proj2 P)); lra.
Qed.

(* C45.  Dielectric::eval lies in [0, 1] and is one beyond the critical angle. *)
Theorem dielectric_fraction : forall eta_i eta_t cosin, 0 < eta_i -> 0 < eta_t -> -1 <= cosin <= 1 ->
  0 <= dielectric_eval eta_i eta_t cosin <= 1 /\
  (forall ei et, (0 <= cosin -> ei = eta_i /\ et = eta_t) -> (cosin < 0 -> ei = eta_t /\ et = eta_i) ->
     et * et <= ei * ei * (1 - cosin * cosin) -> dielectric_eval eta_i eta_t cosin = 1).
Proof.
  intros a b c A B C; unfold dielectric_eval.
  set (ei0 := if Rlt_dec c 0 then b else a); set (et0 := if Rlt_dec c 0 then a else b);
    set (c0 := if Rlt_dec c 0 then - c else c).
  assert (EI : 0 < ei0) by (unfold ei0; destruct (Rlt_dec c 0); assumption).
  assert (ET : 0 < et0) by (unfold et0; destruct (Rlt_dec c 0); assumption).
  assert (C0 : 0 <= c0 <= 1) by (unfold c0; destruct (Rlt_dec c 0); lra).
  assert (SQ : c0 * c0 = c * c) by (unfold c0; destruct (Rlt_dec c 0); ring).
  assert (X : 0 <= 1 - c * c) by nra.
  rewrite SQ, (Rmax_right 0 (1 - c * c)) by exact X.
  assert (F : 0 < ei0 / et0) by (apply Rdiv_lt_0_compat; assumption).
  set (s := ei0 / et0 * sqrt (1 - c * c)).
  assert (SP : 0 <= s) by (apply Rmult_le_pos; [lra | apply sqrt_pos]).
  split.
  - destruct (Rle_dec 1 s) as [L | L]; [lra |].
    assert (0 < 1 - s * s) by nra.
    rewrite Rmax_right by lra.
    assert (0 < sqrt (1 - s * s)) by (apply sqrt_lt_R0; lra).
    apply terms_range; lra.
  - intros ei et P Q L.
    assert (EQ : ei = ei0 /\ et = et0).
    { unfold ei0, et0; destruct (Rlt_dec c 0) as [N | N]; [apply Q, N | apply P; lra]. }
    destruct EQ as [-> ->].
    destruct (Rle_dec 1 s) as [_ | N]; [reflexivity | exfalso].
    assert (SS : s * s = ei0 * ei0 * (1 - c * c) / (et0 * et0)).
    { unfold s; replace (ei0 / et0 * sqrt (1 - c * c) * (ei0 / et0 * sqrt (1 - c * c)))
        with (ei0 / et0 * (ei0 / et0) * (sqrt (1 - c * c) * sqrt (1 - c * c))) by ring.
      rewrite sqrt_sqrt by exact X; field; lra. }
    assert (E2 : 0 < et0 * et0) by (apply Rmult_lt_0_compat; lra).
    assert (M : s * s * (et0 * et0) = ei0 * ei0 * (1 - c * c)) by (rewrite SS; field; lra).
    assert (S1 : s * s < 1) by nra.
    assert (s * s * (et0 * et0) < 1 * (et0 * et0)) by (apply Rmult_lt_compat_r; lra); lra.
Qed.
Print Assumptions dielectric_fraction.
Example dielectric_fraction_ex : 0 < 1 /\ 0 < 3 / 2 /\ -1 <= 1 <= 1 /\ dielectric_eval 1 (3 / 2) 1 = / 25.
Proof.
  repeat (split; [lra |]); unfold dielectric_eval.
  destruct (Rlt_dec 1 0) as [N | _]; [exfalso; lra |].
  replace (1 - 1 * 1) with 0 by ring; rewrite Rmax_left, sqrt_0 by lra.
  replace (1 / (3 / 2) * 0) with 0 by ring.
  destruct (Rle_dec 1 0) as [N | _]; [exfalso; lra |].
  replace (1 - 0 * 0) with 1 by ring; rewrite Rmax_right, sqrt_1 by lra.
  unfold dielectric_terms; field.
Qed.

(* the value of a specular layer is divided by the cosine of its direction: the light it
   carries is the value times that cosine *)
Definition carried (s : sampled) (c : R) : R := sm_value s * Rabs c.

Lemma unit_parts : forall w, unit w -> sin2 w = 1 - rz w * rz w /\ 0 <= 1 - rz w * rz w /\ 0 <= sin2 w.
Proof.
  intros w U; unfold unit, rdot in U; unfold sin2.
  pose proof (sq_nonneg (rx w)); pose proof (sq_nonneg (ry w)); repeat split; lra.
Qed.

(* both samplers written with the indices on the two sides *)
Lemma sample_cases : forall a b wo, 0 < a -> 0 < b -> unit wo -> rz wo <> 0 ->
  exists no ni s, 0 < no /\ 0 < ni /\ (s = 1 \/ s = -1) /\ rz wo = s * Rabs (rz wo) /\
    index_on a b wo no /\ (forall wi, rz wo * rz wi < 0 -> index_on a b wi ni) /\
    (forall n, index_on a b wo n -> n = no) /\
    (forall wi n, rz wo * rz wi < 0 -> index_on a b wi n -> n = ni) /\
    refraction_sample a b wo =
      (let sin2t := no / ni * (no / ni) * (1 - rz wo * rz wo) in
       if Rle_dec 1 sin2t then mk_sampled 0 None 0
       else mk_sampled ((1 - dielectric_terms no ni (Rabs (rz wo)) (sqrt (1 - sin2t))) *
                        (no * no / (ni * ni)) / Rabs (- s * sqrt (1 - sin2t)))
            (Some (RV (no / ni * - rx wo) (no / ni * - ry wo) (- s * sqrt (1 - sin2t)))) 1) /\
    dielectric_sample a b wo =
      (let sint := no / ni * sqrt (1 - rz wo * rz wo) in
       mk_sampled (if Rlt_dec 1 sint then 1
         else dielectric_terms no ni (Rabs (rz wo)) (sqrt (Rmax 0 (1 - sint * sint))) / Rabs (rz wo))
       (Some (RV (- rx wo) (- ry wo) (rz wo))) 1).
Proof.
  intros a b wo A B U NZ; destruct (unit_parts wo U) as (_ & X & _).
  assert (SG : forall x y, 0 < x -> x * y < 0 -> y < 0) by (intros; nra).
  assert (SG' : forall x y, x < 0 -> x * y < 0 -> 0 < y) by (intros; nra).
  assert (SQ : Rabs (rz wo) * Rabs (rz wo) = rz wo * rz wo) by (rewrite <- Rabs_mult; apply Rabs_pos_eq, sq_nonneg).
  destruct (Rlt_dec 0 (rz wo)) as [P | P].
  - exists a, b, 1.
    assert (AB : Rabs (rz wo) = rz wo) by (apply Rabs_pos_eq; lra).
    split; [exact A | split; [exact B | split; [left; reflexivity | split; [lra |]]]].
    split; [split; intro; [reflexivity | lra] |].
    split; [intros wi L; apply (SG _ _ P) in L; split; intro; [lra | reflexivity] |].
    split; [intros n I; apply I, P |].
    split; [intros wi n L I; apply I, (SG _ _ P), L |].
    unfold refraction_sample, dielectric_sample.
    destruct (Rlt_dec 0 (rz wo)) as [_ | N]; [| exfalso; lra].
    destruct (Rle_dec (rz wo) 0) as [N | _]; [exfalso; lra |].
    rewrite AB, (Rmax_right 0 (1 - rz wo * rz wo)) by exact X; cbv zeta.
    replace (- (1)) with (-1) by ring.
    replace (-1 * sqrt (1 - a / b * (a / b) * (1 - rz wo * rz wo)))
      with (- sqrt (1 - a / b * (a / b) * (1 - rz wo * rz wo))) by ring.
    split; reflexivity.
  - assert (N : rz wo < 0) by lra.
    exists b, a, (-1).
    assert (AB : Rabs (rz wo) = - rz wo) by (apply Rabs_left, N).
    split; [exact B | split; [exact A | split; [right; reflexivity | split; [lra |]]]].
    split; [split; intro; [lra | reflexivity] |].
    split; [intros wi L; apply (SG' _ _ N) in L; split; intro; [reflexivity | lra] |].
    split; [intros n I; apply I, N |].
    split; [intros wi n L I; apply I, (SG' _ _ N), L |].
    unfold refraction_sample, dielectric_sample.
    destruct (Rlt_dec 0 (rz wo)) as [Q | _]; [exfalso; lra |].
    destruct (Rle_dec (rz wo) 0) as [_ | Q]; [| exfalso; lra].
    rewrite SQ, (Rmax_right 0 (1 - rz wo * rz wo)) by exact X; cbv zeta.
    replace (- -1 * sqrt (1 - b / a * (b / a) * (1 - rz wo * rz wo)))
      with (sqrt (1 - b / a * (b / a) * (1 - rz wo * rz wo))) by ring.
    split; reflexivity.
Qed.

Lemma scaled_sin : forall no ni x, 0 < ni -> no / ni * (no / ni) * x * (ni * ni) = no * no * x.
Proof. intros; field; lra. Qed.

Lemma below_critical : forall no ni x, 0 < no -> 0 < ni ->
  (1 <= no / ni * (no / ni) * x <-> ni * ni <= no * no * x).
Proof.
  intros no ni x NO NI; pose proof (scaled_sin no ni x NI) as E.
  assert (I : 0 < ni * ni) by (apply Rmult_lt_0_compat; lra).
  split; intro L.
  - rewrite <- E, <- (Rmult_1_l (ni * ni)) at 1; apply Rmult_le_compat_r; lra.
  - apply (Rmult_le_reg_r (ni * ni)); [exact I |]; rewrite E; lra.
Qed.

(* C45.  Below the critical angle the light carried by the reflection and by the
   refraction add up to one, the transmitted radiance being scaled by the squared ratio
   of the indices; both shares lie in [0, 1]. *)
Theorem dielectric_conserves : forall eta_i eta_t wo, 0 < eta_i -> 0 < eta_t -> unit wo -> rz wo <> 0 ->
  ~ beyond_critical eta_i eta_t wo ->
  exists wi no ni, sm_wi (refraction_sample eta_i eta_t wo) = Some wi /\
    index_on eta_i eta_t wo no /\ index_on eta_i eta_t wi ni /\
    let r := carried (dielectric_sample eta_i eta_t wo) (rz wo) in
    let t := carried (refraction_sample eta_i eta_t wo) (rz wi) * (ni * ni / (no * no)) in
    r + t = 1 /\ 0 <= r <= 1 /\ 0 <= t <= 1.
Proof.
  intros a b wo A B U NZ NB.
  destruct (sample_cases a b wo A B U NZ)
    as (no & ni & s & NO & NI & S & Z & I1 & I2 & I3 & I4 & ER & ED).
  destruct (unit_parts wo U) as (S2 & X & _).
  set (q := no / ni * (no / ni) * (1 - rz wo * rz wo)) in *.
  assert (L : q < 1).
  { destruct (Rlt_dec q 1) as [L | L]; [exact L | exfalso; apply NB].
    intros n m N1 N2; rewrite (I3 n N1), (I4 (rneg wo) m).
    - rewrite S2; apply below_critical; [exact NO | exact NI | unfold q in L; lra].
    - cbn; assert (0 < rz wo * rz wo) by nra; lra.
    - exact N2. }
  assert (C : 0 < sqrt (1 - q)) by (apply sqrt_lt_R0; lra).
  assert (AB : 0 < Rabs (rz wo)) by (apply Rabs_pos_lt, NZ).
  cbv zeta in ER, ED; fold q in ER; destruct (Rle_dec 1 q) as [M | _] in ER; [exfalso; lra |].
  assert (SS : no / ni * sqrt (1 - rz wo * rz wo) * (no / ni * sqrt (1 - rz wo * rz wo)) = q).
  { unfold q; rewrite <- (sqrt_sqrt (1 - rz wo * rz wo)) at 3 by exact X; ring. }
  set (st := no / ni * sqrt (1 - rz wo * rz wo)) in *.
  destruct (Rlt_dec 1 st) as [M | _] in ED; [exfalso; nra |].
  rewrite SS, Rmax_right in ED by lra.
  set (wi := RV (no / ni * - rx wo) (no / ni * - ry wo) (- s * sqrt (1 - q))) in *.
  assert (OPP : rz wo * rz wi < 0).
  { unfold wi; cbn [rz]; rewrite Z.
    replace (s * Rabs (rz wo) * (- s * sqrt (1 - q))) with (- (s * s * (Rabs (rz wo) * sqrt (1 - q)))) by ring.
    assert (s * s = 1) as -> by (destruct S as [-> | ->]; ring).
    assert (0 < Rabs (rz wo) * sqrt (1 - q)) by (apply Rmult_lt_0_compat; assumption); lra. }
  exists wi, no, ni; rewrite ER, ED; cbn [sm_wi].
  split; [reflexivity | split; [exact I1 | split; [apply I2, OPP |]]].
  pose proof (terms_range no ni (Rabs (rz wo)) (sqrt (1 - q)) NO NI) as TR.
  set (t := dielectric_terms no ni (Rabs (rz wo)) (sqrt (1 - q))) in *.
  assert (T : 0 <= t <= 1) by (apply TR; lra).
  unfold carried; cbn [sm_value]; fold wi; change (- s * sqrt (1 - q)) with (rz wi).
  assert (W : Rabs (rz wi) <> 0).
  { apply Rabs_no_R0; intro W; rewrite W in OPP; lra. }
  replace (t / Rabs (rz wo) * Rabs (rz wo)) with t by (field; lra).
  replace ((1 - t) * (no * no / (ni * ni)) / Rabs (rz wi) * Rabs (rz wi) * (ni * ni / (no * no)))
    with (1 - t) by (field; repeat split; lra).
  cbv zeta; lra.
Qed.
Print Assumptions dielectric_conserves.
Lemma straight_not_critical : ~ beyond_critical 1 (3 / 2) (RV 0 0 1).
Proof.
  intro H; specialize (H 1 (3 / 2)); unfold index_on, sin2 in H; cbn in H.
  assert (3 / 2 * (3 / 2) <= 1 * 1 * (0 * 0 + 0 * 0)) by (apply H; split; intro; lra); lra.
Qed.
Example dielectric_conserves_ex : unit (RV 0 0 1) /\ rz (RV 0 0 1) <> 0 /\
  ~ beyond_critical 1 (3 / 2) (RV 0 0 1).
Proof.
  split; [unfold unit, rdot; cbn; ring | split; [cbn; lra | exact straight_not_critical]].
Qed.

(* C45.  Strictly beyond the critical angle DielectricReflection answers 1, undivided by
   the cosine, so it carries only that cosine although nothing is transmitted. *)
Theorem total_reflection_refuted : forall eta_i eta_t wo no ni,
  0 < eta_i -> 0 < eta_t -> unit wo -> rz wo <> 0 -> sin2 wo <> 0 ->
  index_on eta_i eta_t wo no -> index_on eta_i eta_t (rneg wo) ni ->
  ni * ni < no * no * sin2 wo ->
  sm_wi (refraction_sample eta_i eta_t wo) = None /\
  carried (dielectric_sample eta_i eta_t wo) (rz wo) = Rabs (rz wo) /\
  carried (dielectric_sample eta_i eta_t wo) (rz wo) < 1.
Proof.
  intros a b wo n m A B U NZ N2 IN IM L.
  destruct (sample_cases a b wo A B U NZ)
    as (no & ni & s & NO & NI & S & Z & I1 & I2 & I3 & I4 & ER & ED).
  destruct (unit_parts wo U) as (S2 & X & X2).
  assert (ZZ : 0 < rz wo * rz wo) by nra.
  rewrite (I3 n IN), (I4 (rneg wo) m) in L by (exact IM || (cbn; lra)).
  rewrite S2 in L.
  assert (Q : 1 <= no / ni * (no / ni) * (1 - rz wo * rz wo)) by (apply below_critical; [exact NO | exact NI | lra]).
  assert (ST : 1 < no / ni * sqrt (1 - rz wo * rz wo)).
  { assert (P : 0 <= no / ni * sqrt (1 - rz wo * rz wo)).
    { apply Rmult_le_pos; [| apply sqrt_pos]. apply Rlt_le, Rdiv_lt_0_compat; assumption. }
    assert (SS : no / ni * sqrt (1 - rz wo * rz wo) * (no / ni * sqrt (1 - rz wo * rz wo)) * (ni * ni) =
                 no * no * (1 - rz wo * rz wo)).
    { replace (no / ni * sqrt (1 - rz wo * rz wo) * (no / ni * sqrt (1 - rz wo * rz wo)))
        with (no / ni * (no / ni) * (sqrt (1 - rz wo * rz wo) * sqrt (1 - rz wo * rz wo))) by ring.
      rewrite sqrt_sqrt by exact X; apply scaled_sin, NI. }
    set (st := no / ni * sqrt (1 - rz wo * rz wo)) in *.
    destruct (Rlt_dec 1 st) as [Y | Y]; [exact Y | exfalso].
    assert (I : 0 < ni * ni) by (apply Rmult_lt_0_compat; lra).
    assert (st * st <= 1) by nra.
    assert (st * st * (ni * ni) <= 1 * (ni * ni)) by (apply Rmult_le_compat_r; lra); lra. }
  cbv zeta in ER, ED; rewrite ER, ED; unfold carried; cbn [sm_value].
  destruct (Rle_dec 1 (no / ni * (no / ni) * (1 - rz wo * rz wo))) as [_ | Y]; [| exfalso; lra].
  destruct (Rlt_dec 1 (no / ni * sqrt (1 - rz wo * rz wo))) as [_ | Y]; [| exfalso; lra].
  split; [reflexivity | split; [ring |]].
  assert (AA : Rabs (rz wo) * Rabs (rz wo) = rz wo * rz wo) by (rewrite <- Rabs_mult; apply Rabs_pos_eq; lra).
  pose proof (Rabs_pos (rz wo)); nra.
Qed.
Print Assumptions total_reflection_refuted.
Example total_reflection_ex : unit (RV (4 / 5) 0 (-3 / 5)) /\ sin2 (RV (4 / 5) 0 (-3 / 5)) <> 0 /\
  index_on 1 (3 / 2) (RV (4 / 5) 0 (-3 / 5)) (3 / 2) /\ index_on 1 (3 / 2) (rneg (RV (4 / 5) 0 (-3 / 5))) 1 /\
  1 * 1 < 3 / 2 * (3 / 2) * sin2 (RV (4 / 5) 0 (-3 / 5)).
Proof. unfold unit, rdot, sin2, index_on; cbn; repeat split; lra. Qed.

(* C45.  Below the critical angle the two implementations of the dielectric agree. *)
Theorem dielectric_agree : forall eta_i eta_t wo, 0 < eta_i -> 0 < eta_t -> unit wo -> rz wo <> 0 ->
  ~ beyond_critical eta_i eta_t wo ->
  carried (dielectric_sample eta_i eta_t wo) (rz wo) = dielectric_eval eta_i eta_t (rz wo).
Proof.
  intros a b wo A B U NZ NB.
  destruct (sample_cases a b wo A B U NZ)
    as (no & ni & s & NO & NI & S & Z & I1 & I2 & I3 & I4 & _ & _).
  destruct (unit_parts wo U) as (S2 & X & _).
  assert (ST : no / ni * sqrt (1 - rz wo * rz wo) < 1).
  { assert (SS : no / ni * sqrt (1 - rz wo * rz wo) * (no / ni * sqrt (1 - rz wo * rz wo)) =
       no / ni * (no / ni) * (1 - rz wo * rz wo)).
    { replace (no / ni * sqrt (1 - rz wo * rz wo) * (no / ni * sqrt (1 - rz wo * rz wo)))
        with (no / ni * (no / ni) * (sqrt (1 - rz wo * rz wo) * sqrt (1 - rz wo * rz wo))) by ring.
      rewrite sqrt_sqrt by exact X; reflexivity. }
    destruct (Rlt_dec (no / ni * sqrt (1 - rz wo * rz wo)) 1) as [Y | Y]; [exact Y | exfalso; apply NB].
    intros n m N1 N2; rewrite (I3 n N1), (I4 (rneg wo) m); [| | exact N2].
    - rewrite S2; apply below_critical; [exact NO | exact NI |].
      rewrite <- SS; set (st := no / ni * sqrt (1 - rz wo * rz wo)) in *; nra.
    - cbn; assert (0 < rz wo * rz wo) by nra; lra. }
  assert (AA : Rabs (rz wo) <> 0) by (apply Rabs_no_R0, NZ).
  unfold carried, dielectric_sample, dielectric_eval; cbn [sm_value].
  destruct (Rlt_dec (rz wo) 0) as [N | N].
  - destruct (Rle_dec (rz wo) 0) as [_ | Y]; [| exfalso; lra].
    assert (no = b /\ ni = a) as [-> ->].
    { split; [apply I1, N |].
      apply (I2 (RV 0 0 1)); cbn; lra. }
    rewrite (Rabs_left (rz wo)) by exact N; rewrite Rabs_left in AA by exact N.
    replace (- rz wo * - rz wo) with (rz wo * rz wo) by ring; rewrite (Rmax_right 0 (1 - rz wo * rz wo)) by exact X.
    destruct (Rlt_dec 1 (b / a * sqrt (1 - rz wo * rz wo))) as [Y | _]; [exfalso; lra |].
    destruct (Rle_dec 1 (b / a * sqrt (1 - rz wo * rz wo))) as [Y | _]; [exfalso; lra |].
    unfold Rdiv at 1; rewrite Rmult_assoc, Rinv_l by exact AA; ring.
  - assert (P : 0 < rz wo) by lra.
    destruct (Rle_dec (rz wo) 0) as [Y | _]; [exfalso; lra |].
    assert (no = a /\ ni = b) as [-> ->].
    { split; [apply I1, P |].
      apply (I2 (RV 0 0 (-1))); cbn; lra. }
    rewrite (Rabs_pos_eq (rz wo)) by lra; rewrite (Rmax_right 0 (1 - rz wo * rz wo)) by exact X.
    destruct (Rlt_dec 1 (a / b * sqrt (1 - rz wo * rz wo))) as [Y | _]; [exfalso; lra |].
    destruct (Rle_dec 1 (a / b * sqrt (1 - rz wo * rz wo))) as [Y | _]; [exfalso; lra |].
    unfold Rdiv at 1; rewrite Rmult_assoc, Rinv_l by lra; ring.
Qed.
Print Assumptions dielectric_agree.
Example dielectric_agree_ex : unit (RV 0 0 1) /\ ~ beyond_critical 1 (3 / 2) (RV 0 0 1).
Proof. split; [unfold unit, rdot; cbn; ring | exact straight_not_critical]. Qed.

(* ----- directions ----- *)

(* C46.  Mirrors, metallic or dielectric, give the unit mirror image with density one. *)
Theorem mirror_direction : forall a b wo, unit wo ->
  exists wi, sm_wi (conductor_sample a b wo) = Some wi /\ sm_wi (dielectric_sample a b wo) = Some wi /\
    sm_pdf (conductor_sample a b wo) = 1 /\ sm_pdf (dielectric_sample a b wo) = 1 /\
    unit wi /\ mirror wo wi.
Proof.
  intros a b wo U; exists (RV (- rx wo) (- ry wo) (rz wo)).
  do 4 (split; [reflexivity |]).
  split; [| split; [reflexivity | split; reflexivity]].
  unfold unit, rdot in *; cbn; lra.
Qed.
Print Assumptions mirror_direction.

(* C46.  A refraction produces a direction exactly below the critical angle; it is a
   unit vector on the other side obeying Snell's law. *)
Theorem refraction_direction : forall eta_i eta_t wo, 0 < eta_i -> 0 < eta_t -> unit wo -> rz wo <> 0 ->
  (beyond_critical eta_i eta_t wo ->
     sm_wi (refraction_sample eta_i eta_t wo) = None /\ sm_pdf (refraction_sample eta_i eta_t wo) = 0 /\
     sm_value (refraction_sample eta_i eta_t wo) = 0) /\
  (~ beyond_critical eta_i eta_t wo ->
     exists wi, sm_wi (refraction_sample eta_i eta_t wo) = Some wi /\
       sm_pdf (refraction_sample eta_i eta_t wo) = 1 /\ unit wi /\ snell eta_i eta_t wo wi).
Proof.
  intros a b wo A B U NZ.
  destruct (sample_cases a b wo A B U NZ)
    as (no & ni & s & NO & NI & S & Z & I1 & I2 & I3 & I4 & ER & _).
  destruct (unit_parts wo U) as (S2 & X & _).
  assert (ZZ : 0 < rz wo * rz wo) by nra.
  cbv zeta in ER; rewrite ER; set (q := no / ni * (no / ni) * (1 - rz wo * rz wo)) in *.
  split; intro BC.
  - assert (Q : 1 <= q).
    { apply below_critical; [exact NO | exact NI |]; rewrite <- S2; apply BC; [exact I1 |].
      apply I2; cbn; lra. }
    destruct (Rle_dec 1 q) as [_ | Y]; [auto | exfalso; lra].
  - assert (Q : q < 1).
    { destruct (Rlt_dec q 1) as [L | L]; [exact L | exfalso; apply BC].
      intros n m N1 N2; rewrite (I3 n N1), (I4 (rneg wo) m); [| cbn; lra | exact N2].
      rewrite S2; apply below_critical; [exact NO | exact NI | unfold q in L; lra]. }
    destruct (Rle_dec 1 q) as [Y | _]; [exfalso; lra |]; cbn [sm_wi sm_pdf].
    set (wi := RV (no / ni * - rx wo) (no / ni * - ry wo) (- s * sqrt (1 - q))).
    assert (C : 0 < sqrt (1 - q)) by (apply sqrt_lt_R0; lra).
    assert (CC : sqrt (1 - q) * sqrt (1 - q) = 1 - q) by (apply sqrt_sqrt; lra).
    assert (SS : s * s = 1) by (destruct S as [-> | ->]; ring).
    assert (SI : sin2 wi = q).
    { unfold sin2, wi, q; cbn [rx ry]; rewrite <- S2; unfold sin2; ring. }
    assert (AB : 0 < Rabs (rz wo)) by (apply Rabs_pos_lt, NZ).
    assert (OPP : rz wo * rz wi < 0).
    { unfold wi; cbn [rz]; rewrite Z.
      replace (s * Rabs (rz wo) * (- s * sqrt (1 - q))) with (- (s * s * (Rabs (rz wo) * sqrt (1 - q)))) by ring.
      rewrite SS; assert (0 < Rabs (rz wo) * sqrt (1 - q)) by (apply Rmult_lt_0_compat; assumption); lra. }
    exists wi; split; [reflexivity | split; [reflexivity | split]].
    + unfold unit; unfold rdot; unfold sin2 in SI; rewrite SI; unfold wi; cbn [rz].
      replace (- s * sqrt (1 - q) * (- s * sqrt (1 - q))) with (s * s * (sqrt (1 - q) * sqrt (1 - q))) by ring.
      rewrite SS, CC; ring.
    + split; [exact OPP | split].
      * exists (no / ni); split; [apply Rlt_le, Rdiv_lt_0_compat; assumption |].
        unfold wi; cbn [rx ry]; split; ring.
      * intros n m N1 N2; rewrite (I3 n N1), (I4 wi m OPP N2), SI, S2; unfold q; field; lra.
Qed.
Print Assumptions refraction_direction.
Example refraction_direction_ex : unit (RV 0 0 1) /\ ~ beyond_critical 1 (3 / 2) (RV 0 0 1) /\
  unit (RV (4 / 5) 0 (-3 / 5)) /\ beyond_critical 1 (3 / 2) (RV (4 / 5) 0 (-3 / 5)).
Proof.
  split; [unfold unit, rdot; cbn; ring | split; [exact straight_not_critical |]].
  split; [unfold unit, rdot; cbn; field |].
  intros no ni [_ N] [M _]; unfold sin2; cbn in *; rewrite N, M by lra; lra.
Qed.

(* C70.  Light paths are reversible: refracting the refracted direction gives back the
   first one, and reflecting twice too. *)
Theorem specular_reversible : forall eta_i eta_t wo wi, 0 < eta_i -> 0 < eta_t -> unit wo -> rz wo <> 0 ->
  (sm_wi (refraction_sample eta_i eta_t wo) = Some wi ->
   sm_wi (refraction_sample eta_i eta_t wi) = Some wo) /\
  (sm_wi (dielectric_sample eta_i eta_t wo) = Some wi ->
   sm_wi (dielectric_sample eta_i eta_t wi) = Some wo).
Proof.
  intros a b wo wi A B U NZ; split; intro E.
  - destruct (refraction_direction a b wo A B U NZ) as [D1 D2].
    destruct (sample_cases a b wo A B U NZ)
      as (no & ni & s & NO & NI & S & Z & I1 & I2 & I3 & I4 & ER & _).
    destruct (unit_parts wo U) as (S2 & X & _).
    cbv zeta in ER; rewrite ER in E; set (q := no / ni * (no / ni) * (1 - rz wo * rz wo)) in *.
    destruct (Rle_dec 1 q) as [Y | Y]; [discriminate E |]; cbn [sm_wi] in E; injection E as EW.
    assert (Q : q < 1) by lra.
    assert (C : 0 < sqrt (1 - q)) by (apply sqrt_lt_R0; lra).
    assert (CC : sqrt (1 - q) * sqrt (1 - q) = 1 - q) by (apply sqrt_sqrt; lra).
    assert (SS : s * s = 1) by (destruct S as [-> | ->]; ring).
    assert (AB : 0 < Rabs (rz wo)) by (apply Rabs_pos_lt, NZ).
    assert (WZ : rz wi = - s * sqrt (1 - q)) by (rewrite <- EW; reflexivity).
    assert (WX : rx wi = no / ni * - rx wo) by (rewrite <- EW; reflexivity).
    assert (WY : ry wi = no / ni * - ry wo) by (rewrite <- EW; reflexivity).
    assert (ZZ : rz wi * rz wi = 1 - q).
    { rewrite WZ; replace (- s * sqrt (1 - q) * (- s * sqrt (1 - q)))
        with (s * s * (sqrt (1 - q) * sqrt (1 - q))) by ring; rewrite SS, CC; ring. }
    assert (OPP : rz wo * rz wi < 0).
    { rewrite WZ, Z.
      replace (s * Rabs (rz wo) * (- s * sqrt (1 - q))) with (- (s * s * (Rabs (rz wo) * sqrt (1 - q)))) by ring.
      rewrite SS; assert (0 < Rabs (rz wo) * sqrt (1 - q)) by (apply Rmult_lt_0_compat; assumption); lra. }
    assert (UW : unit wi).
    { unfold unit, rdot; rewrite ZZ, WX, WY; unfold q; rewrite <- S2; unfold sin2; ring. }
    assert (NZ' : rz wi <> 0) by (intro W; rewrite W in OPP; lra).
    destruct (sample_cases a b wi A B UW NZ')
      as (no' & ni' & s' & NO' & NI' & S' & Z' & J1 & J2 & J3 & J4 & ER' & _).
    assert (no' = ni) as -> by (apply I4 with wi; [exact OPP | exact J1]).
    assert (ni' = no) as -> by (symmetry; apply J4 with wo; [lra | exact I1]).
    cbv zeta in ER'; rewrite ER'; clear ER'.
    assert (Q' : ni / no * (ni / no) * (1 - rz wi * rz wi) = 1 - rz wo * rz wo)
      by (rewrite ZZ; unfold q; field; lra).
    rewrite Q'; assert (R0 : 0 < rz wo * rz wo) by nra.
    destruct (Rle_dec 1 (1 - rz wo * rz wo)) as [Y' | _]; [exfalso; lra |]; cbn [sm_wi]; f_equal.
    assert (SQ : sqrt (1 - (1 - rz wo * rz wo)) = Rabs (rz wo)).
    { replace (1 - (1 - rz wo * rz wo)) with (Rsqr (rz wo)) by (unfold Rsqr; ring); apply sqrt_Rsqr_abs. }
    rewrite SQ, WX, WY; rv; [field; lra | field; lra |].
    assert (- s' = s) as ->; [| symmetry; exact Z].
    { pose proof (Rabs_pos_lt _ NZ') as AB'.
      assert (P : s * s' * (Rabs (rz wo) * Rabs (rz wi)) < 0).
      { replace (s * s' * (Rabs (rz wo) * Rabs (rz wi))) with ((s * Rabs (rz wo)) * (s' * Rabs (rz wi))) by ring.
        rewrite <- Z, <- Z'; exact OPP. }
      assert (0 < Rabs (rz wo) * Rabs (rz wi)) by (apply Rmult_lt_0_compat; assumption).
      destruct S as [-> | ->], S' as [-> | ->]; lra. }
  - injection E as <-; cbn; f_equal; rv; ring.
Qed.
Print Assumptions specular_reversible.
Example specular_reversible_ex : exists wi, sm_wi (refraction_sample 1 (3 / 2) (RV 0 0 1)) = Some wi.
Proof.
  destruct (refraction_direction 1 (3 / 2) (RV 0 0 1)) as [_ D]; try lra.
  - unfold unit, rdot; cbn; ring.
  - cbn; lra.
  - destruct (D straight_not_critical) as (wi & E & _); exists wi; exact E.
Qed.
