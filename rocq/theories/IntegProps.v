(* C125-C130: the integrators. *)
From Coq Require Import Reals List ZArith Lra Lia Bool.
From Verif Require Import IntegModel IntegSpec.
Import ListNotations.
Local Open Scope R_scope.

(* C125.  A path has at most six vertices: six calls of l_rec suffice whatever the scene. *)
Lemma l_rec_bounded : forall {V W} (sc : scene V W) fuel r v p s rand, (6 - r <= fuel)%nat -> (r <= 5)%nat ->
  exists x, l_rec sc fuel r v p s rand = Some x.
Proof.
  intros V W sc fuel; induction fuel as [| fuel IH]; intros r v p s rand F R5; [lia |].
  cbn [l_rec]; destruct (roulette _ _ _ _); [| eauto].
  destruct (Nat.eqb r DEFAULT_BOUNCES) eqn:E; [eauto |]; apply Nat.eqb_neq in E; unfold DEFAULT_BOUNCES in E.
  destruct (sc_bsdf _ _ _ _ _ _) as [[[f wi] pdf] spec]; destruct (black pdf || black f)%bool; [eauto |].
  destruct (sc_trace _ _ _) as [v2 |]; [| eauto].
  match goal with |- context [l_rec sc fuel (Datatypes.S r) v2 ?a ?b ?c] =>
    destruct (IH (Datatypes.S r) v2 a b c) as [x X]; [lia | lia | rewrite X] end; eauto.
Qed.
Theorem path_is_finite : forall {V W} (sc : scene V W) v rand, exists x, radiance sc 6 v rand = Some x.
Proof. intros; apply l_rec_bounded; lia. Qed.
Print Assumptions path_is_finite.

(* one more call makes no difference *)
Lemma l_rec_more : forall {V W} (sc : scene V W) fuel r v p s rand x, l_rec sc fuel r v p s rand = Some x ->
  l_rec sc (Datatypes.S fuel) r v p s rand = Some x.
Proof.
  intros V W sc fuel; induction fuel as [| fuel IH]; intros r v p s rand x E; [discriminate |].
  remember (Datatypes.S fuel) as f2 eqn:F2; rewrite F2 in E; cbn [l_rec] in E |- *.
  destruct (roulette _ _ _ _); [| exact E].
  destruct (Nat.eqb r DEFAULT_BOUNCES); [exact E |].
  destruct (sc_bsdf _ _ _ _ _ _) as [[[f wi] pdf] spec]; destruct (black pdf || black f)%bool; [exact E |].
  destruct (sc_trace _ _ _) as [v2 |]; [| exact E].
  match type of E with context [l_rec sc fuel ?a ?b ?c ?d ?e] => destruct (l_rec sc fuel a b c d e) eqn:L; [| discriminate] end.
  rewrite (IH _ _ _ _ _ _ L); exact E.
Qed.

(* C126.  The index of the light is always one of the scene, even for the number 1. *)
Lemma int_part_bounds : forall x, 0 <= x -> (0 <= Int_part x)%Z /\ IZR (Int_part x) <= x < IZR (Int_part x) + 1.
Proof.
  intros x X; destruct (base_Int_part x) as [A B]; split; [| lra].
  apply Z.lt_succ_r; apply lt_IZR; rewrite succ_IZR; lra.
Qed.
Theorem chosen_light_exists : forall {V W} (sc : scene V W) r, sc_lights sc <> [] -> 0 <= r <= 1 ->
  exists l, nth_error (sc_lights sc) (choose_light (length (sc_lights sc)) r) = Some l /\ In l (sc_lights sc).
Proof.
  intros V W sc r NE _; destruct (nth_error (sc_lights sc) (choose_light (length (sc_lights sc)) r)) as [l |] eqn:E.
  - exists l; split; [reflexivity | eapply nth_error_In; exact E].
  - exfalso; apply nth_error_None in E; unfold choose_light in E.
    destruct (sc_lights sc); [contradiction | cbn [length] in E; lia].
Qed.
Print Assumptions chosen_light_exists.
(* every light is chosen, each by an interval of numbers of the same length *)
Theorem light_chosen_uniformly : forall n k r, (k < n)%nat -> 0 <= r < 1 ->
  choose_light n r = k <-> INR k / INR n <= r < INR (Datatypes.S k) / INR n.
Proof.
  intros n k r K R1; assert (N : 0 < INR n) by (apply lt_0_INR; lia).
  assert (X : 0 <= r * INR n) by (apply Rmult_le_pos; lra).
  destruct (int_part_bounds _ X) as (P & B1 & B2); set (z := Int_part (r * INR n)) in *.
  assert (ZN : IZR z < INR n) by (apply Rle_lt_trans with (r * INR n); [exact B1 | replace (INR n) with (1 * INR n) at 2 by ring; apply Rmult_lt_compat_r; lra]).
  assert (ZI : IZR z = INR (Z.to_nat z)) by (rewrite INR_IZR_INZ, Z2Nat.id; auto).
  assert (ZL : (Z.to_nat z < n)%nat) by (apply INR_lt; rewrite <- ZI; exact ZN).
  unfold choose_light; fold z; rewrite Nat.min_l by lia.
  split.
  - intro E; rewrite <- E, S_INR, <- ZI; split.
    + apply Rmult_le_reg_r with (INR n); [exact N |]; unfold Rdiv; rewrite Rmult_assoc, Rinv_l, Rmult_1_r by lra; exact B1.
    + apply Rmult_lt_reg_r with (INR n); [exact N |]; unfold Rdiv; rewrite Rmult_assoc, Rinv_l, Rmult_1_r by lra; exact B2.
  - intros [L U].
    assert (L' : INR k <= r * INR n).
    { apply Rmult_le_reg_r with (/ INR n); [apply Rinv_0_lt_compat; exact N |]; rewrite Rmult_assoc, Rinv_r, Rmult_1_r by lra; exact L. }
    assert (U' : r * INR n < INR k + 1).
    { rewrite <- S_INR; apply Rmult_lt_reg_r with (/ INR n); [apply Rinv_0_lt_compat; exact N |]; rewrite Rmult_assoc, Rinv_r, Rmult_1_r by lra; exact U. }
    rewrite ZI in B1, B2.
    assert (A1 : INR (Z.to_nat z) < INR (Datatypes.S k)) by (rewrite S_INR; lra).
    assert (A2 : INR k < INR (Datatypes.S (Z.to_nat z))) by (rewrite S_INR; lra).
    apply INR_lt in A1; apply INR_lt in A2; lia.
Qed.
Print Assumptions light_chosen_uniformly.
Example third_of_four : choose_light 4 (5 / 8) = 2%nat.
Proof. apply light_chosen_uniformly; [lia | lra | cbn; lra]. Qed.

(* C127.  Multiple importance sampling of one light: for a direction that both strategies can
   give, with the densities they report, the two contributions weighted with these densities
   add up to what arrives from that direction. *)
Theorem mis_is_unbiased : forall {V W} (sc : scene V W) k l v wi c d h f lp bp r1 r2 r3 r4 r5 sp,
  sl_sample l v r1 r2 = (c, wi, lp, d) -> sc_bsdf sc v r3 r4 r5 false = (f, wi, bp, sp) ->
  (* the material and the light report the same value, emission and densities either way *)
  sc_value sc v wi = f -> sc_pdf sc v wi = bp -> sl_pdf l v wi = lp -> 0 < lp -> 0 < bp ->
  (* the light is seen in that direction *)
  sc_occluded sc v wi d = false -> sc_trace sc v wi = Some h -> sc_hit_light sc h = Some k -> sc_faces_geo sc h = true ->
  c = sl_emission l ->
  lp * light_strategy sc l v r1 r2 + bp * bsdf_strategy sc k l v r3 r4 r5 = f * sl_emission l * sc_absdot sc v wi.
Proof.
  intros V W sc k l v wi c d h f lp bp r1 r2 r3 r4 r5 sp SL SB VF PF LF LP BP OC TR HL FA CE.
  unfold light_strategy, bsdf_strategy; rewrite SL, SB, VF, PF, LF, OC, TR, HL, FA, Nat.eqb_refl, <- CE.
  assert (P1 : positive lp = true) by (unfold positive; destruct (Rlt_dec 0 lp); [reflexivity | contradiction]).
  assert (P2 : positive bp = true) by (unfold positive; destruct (Rlt_dec 0 bp); [reflexivity | contradiction]).
  assert (P3 : black lp = false) by (unfold black; destruct (Req_EM_T lp 0); [lra | reflexivity]).
  rewrite P1, P2, P3; cbn [andb].
  assert (D : 0 < lp * lp + bp * bp) by (apply Rplus_lt_0_compat; apply Rmult_lt_0_compat; assumption).
  unfold black; destruct (Req_EM_T c 0) as [C | C]; destruct (Req_EM_T f 0) as [F | F]; cbn [negb andb]; try rewrite C; try rewrite F; field; repeat split; try lra.
Qed.
Print Assumptions mis_is_unbiased.

(* a scene meeting the hypotheses: one light that fills everything, a grey surface *)
Definition lamp : slight bool unit := mk_slight 3 (fun _ _ _ => (3, tt, 2, 1)) (fun _ _ => 2).
Definition lamps (n : nat) : scene bool unit :=
  mk_scene (repeat lamp n) (fun v => if v then Some 0%nat else None) (fun _ => true) (fun _ => true)
    (fun v _ => if v then 0 else 1 / 2) (fun _ _ => 1) (fun v _ _ _ _ => (if v then 0 else 1 / 2, tt, 1, false))
    (fun _ _ => 1) (fun _ _ _ => false) (fun _ _ => Some true) (fun x => x).
Example lamp_mis : 2 * light_strategy (lamps 1) lamp false 0 0 + 1 * bsdf_strategy (lamps 1) 0 lamp false 0 0 0 = 1 / 2 * 3 * 1.
Proof. apply (mis_is_unbiased (lamps 1) 0 lamp false tt 3 1 true (1/2) 2 1 0 0 0 0 0 false); try reflexivity; lra. Qed.

(* C128.  A light seen by the camera appears twice as bright as it is. *)
Lemma black_0 : black 0 = true. Proof. unfold black; destruct (Req_EM_T 0 0); [reflexivity | lra]. Qed.
Lemma direct_nothing : forall {V W} (sc : scene V W) v rand, reflects_nothing sc v ->
  direct_l sc v rand = if sc_faces sc v then hit_emission sc v else 0.
Proof.
  intros V W sc v rand [N1 N2]; unfold direct_l; destruct (length (sc_lights sc)) eqn:L; [reflexivity |].
  destruct (nth_error _ _) as [l |]; [| reflexivity].
  assert (A : forall a b, light_strategy sc l v a b = 0).
  { intros a b; unfold light_strategy; destruct (sl_sample _ _ _ _) as [[[c wi] lp] d]; rewrite N1, black_0.
    destruct (positive lp && negb (black c))%bool; reflexivity. }
  assert (B : forall k a b c, bsdf_strategy sc k l v a b c = 0).
  { intros k a b c; unfold bsdf_strategy; specialize (N2 a b c false); destruct (sc_bsdf _ _ _ _ _ _) as [[[f wi] pdf] spec].
    cbn in N2; rewrite N2, black_0; destruct (positive pdf); reflexivity. }
  rewrite A, B; ring.
Qed.
Theorem visible_light_refuted : forall {V W} (sc : scene V W) v rand, reflects_nothing sc v -> sc_faces sc v = true ->
  radiance sc 6 v rand = Some (2 * hit_emission sc v).
Proof.
  intros V W sc v rand N F; unfold radiance; remember 5%nat as n eqn:NE; cbn [l_rec Nat.eqb orb andb]; rewrite F; unfold roulette at 1; cbn [Nat.ltb Nat.leb].
  rewrite direct_nothing by exact N; rewrite F.
  destruct (Nat.eqb 0 DEFAULT_BOUNCES) eqn:E; [discriminate |].
  destruct N as [_ N2].
  match goal with |- context [sc_bsdf sc v ?a ?b ?c true] => specialize (N2 a b c true); destruct (sc_bsdf sc v a b c true) as [[[f wi] pdf] spec] end.
  cbn in N2; rewrite N2, black_0, orb_true_r; cbv iota; apply f_equal; ring.
Qed.
Print Assumptions visible_light_refuted.
Example lamp_seen : forall rand, radiance (lamps 1) 6 true rand = Some (2 * 3).
Proof. intro; apply (visible_light_refuted (lamps 1) true); [split; intros; reflexivity | reflexivity]. Qed.

(* C129.  One light is chosen, and its contribution is not multiplied by their number: over the
   choice, the mean of the direct light is the sum of the contributions of the lights divided
   by their number.  c k is any number that chooses the light k. *)
Definition put (k : nat) (x : R) (rand : nat -> R) : nat -> R := fun i => if Nat.eqb i k then x else rand i.
Lemma put_0 : forall x rand, put 0 x rand 0%nat = x. Proof. reflexivity. Qed.
Lemma sum_ext : forall n (f g : nat -> R), (forall k, (k < n)%nat -> f k = g k) -> total n f = total n g.
Proof. intro n; induction n; intros f g E; cbn [total]; [reflexivity | rewrite (IHn f g), E; auto]. Qed.
Lemma choice_constant : forall {V W} (sc : scene V W) v rand k l x, sc_hit_light sc v = None ->
  nth_error (sc_lights sc) k = Some l -> let n := length (sc_lights sc) in
  INR k / INR n <= x < INR (Datatypes.S k) / INR n ->
  direct_l sc v (put 0 x rand) = light_strategy sc l v (rand 1%nat) (rand 2%nat) + bsdf_strategy sc k l v (rand 3%nat) (rand 4%nat) (rand 5%nat).
Proof.
  intros V W sc v rand k l x HN NE n B.
  assert (K : (k < n)%nat) by (apply nth_error_Some; rewrite NE; discriminate).
  assert (N0 : 0 < INR n) by (apply lt_0_INR; lia).
  assert (CH : choose_light n x = k).
  { apply light_chosen_uniformly; [exact K | | exact B]; destruct B as [B1 B2]; split.
    - apply Rle_trans with (INR k / INR n); [| exact B1]; apply Rmult_le_pos; [apply pos_INR | left; apply Rinv_0_lt_compat; exact N0].
    - apply Rlt_le_trans with (INR (Datatypes.S k) / INR n); [exact B2 |].
      apply Rmult_le_reg_r with (INR n); [exact N0 |]; unfold Rdiv; rewrite Rmult_assoc, Rinv_l, Rmult_1_l, Rmult_1_r by lra.
      apply le_INR; lia. }
  unfold direct_l; rewrite put_0; fold n; rewrite CH, NE.
  assert (E : (if sc_faces sc v then hit_emission sc v else 0) = 0) by (unfold hit_emission; rewrite HN; destruct (sc_faces sc v); reflexivity).
  rewrite E; destruct n as [| n']; [lia |]; unfold put; cbn [Nat.eqb]; ring.
Qed.
Lemma sum_scale : forall n a (f : nat -> R), total n (fun k => f k / a) = total n f / a.
Proof. intros n a f; induction n; cbn [total]; [unfold Rdiv; ring | rewrite IHn; unfold Rdiv; ring]. Qed.
(* what the light number k sends *)
Definition sends {V W} (sc : scene V W) (v : V) (rand : nat -> R) (k : nat) : R :=
  match nth_error (sc_lights sc) k with
  | Some l => light_strategy sc l v (rand 1%nat) (rand 2%nat) + bsdf_strategy sc k l v (rand 3%nat) (rand 4%nat) (rand 5%nat)
  | None => 0
  end.
Theorem many_lights_refuted : forall {V W} (sc : scene V W) v rand c, sc_hit_light sc v = None ->
  let n := length (sc_lights sc) in
  (forall k, (k < n)%nat -> INR k / INR n <= c k < INR (Datatypes.S k) / INR n) ->
  let mean := total n (fun k => direct_l sc v (put 0 (c k) rand) / INR n) in
  mean = total n (sends sc v rand) / INR n /\
  ((1 < n)%nat -> total n (sends sc v rand) <> 0 -> mean <> total n (sends sc v rand)).
Proof.
  intros V W sc v rand c HN n C mean.
  assert (M : mean = total n (sends sc v rand) / INR n).
  { unfold mean; rewrite sum_scale; f_equal; apply sum_ext; intros k K; unfold sends.
    destruct (nth_error (sc_lights sc) k) as [l |] eqn:E; [| apply nth_error_None in E; fold n in E; lia].
    apply choice_constant; [exact HN | exact E | apply C; exact K]. }
  split; [exact M |]; intros N1 T0 E; rewrite M in E; apply T0.
  assert (N2 : 2 <= INR n) by (change 2 with (INR 2); apply le_INR; lia).
  set (t := total n (sends sc v rand)) in *.
  assert (Q : t * (INR n - 1) = 0).
  { assert (t = t * INR n) by (rewrite <- E at 2; unfold Rdiv; rewrite Rmult_assoc, Rinv_l by lra; ring); lra. }
  apply Rmult_integral in Q; destruct Q; lra.
Qed.
Print Assumptions many_lights_refuted.
Example two_lamps : forall rand, total 2 (sends (lamps 2) false rand) <> 0 /\ sc_hit_light (lamps 2) false = None.
Proof.
  intro rand; split; [| reflexivity]; unfold sends, light_strategy, bsdf_strategy, black, positive; cbn.
  repeat match goal with
  | |- context [Rlt_dec ?a ?b] => destruct (Rlt_dec a b); [| exfalso; lra]; cbn
  | |- context [Req_EM_T ?a ?b] => destruct (Req_EM_T a b); [exfalso; lra |]; cbn
  end; lra.
Qed.

(* C130.  Russian roulette: with t the smaller of the luminance and one half, the numbers below t
   end the path and the others multiply the rest by t, so that what lies behind the fourth
   bounce is kept with the mean weight (1 - t) t, at most a quarter of what it is. *)
Theorem roulette_refuted : forall {V W} (sc : scene V W) v p s rand f wi pdf spec v2,
  sc_lights sc <> [] -> sc_bsdf sc v (rand 7%nat) (rand 8%nat) (rand 9%nat) true = (f, wi, pdf, spec) ->
  f <> 0 -> pdf <> 0 -> sc_trace sc v wi = Some v2 -> 0 <= sc_luminance sc p ->
  let t := Rmin (sc_luminance sc p) (1 / 2) in
  let rest := p * (f * sc_absdot sc v wi / pdf) *
    ((if (spec && sc_faces sc v2)%bool then hit_emission sc v2 else 0) + direct_l sc v2 (shift 10 rand)) in
  exists direct,
    (forall x, l_rec sc 2 4 v p s (put 6 x rand) = Some (direct + if Rlt_dec x t then 0 else t * rest)) /\
    0 <= t <= 1 / 2 /\ (1 - t) * t <= 1 / 4 /\
    (rest <> 0 -> (1 - t) * (t * rest) <> rest).
Proof.
  intros V W sc v p s rand f wi pdf spec v2 NL SB F P TR LU t rest.
  assert (T : 0 <= t <= 1 / 2) by (unfold t; split; [apply Rmin_glb; lra | apply Rmin_r]).
  assert (Q : (1 - t) * t <= 1 / 4) by (pose proof (Rle_0_sqr (t - 1 / 2)) as S; unfold Rsqr in S; lra).
  assert (BF : black f = false) by (unfold black; destruct (Req_EM_T f 0); [contradiction | reflexivity]).
  assert (BP : black pdf = false) by (unfold black; destruct (Req_EM_T pdf 0); [contradiction | reflexivity]).
  destruct (sc_lights sc) as [| l0 ls] eqn:SL; [contradiction |].
  assert (LEN : exists n', length (sc_lights sc) = Datatypes.S n') by (rewrite SL; cbn; eauto); destruct LEN as [n' LEN].
  exists ((if (s && sc_faces sc v)%bool then p * hit_emission sc v else 0) + p * direct_l sc v rand).
  split; [| split; [exact T | split; [exact Q |]]].
  - intro x.
    assert (D1 : forall y, direct_l sc v (put 6 y rand) = direct_l sc v rand).
    { intro y; unfold direct_l; rewrite LEN; unfold put; cbn [Nat.eqb]; reflexivity. }
    assert (D2 : direct_l sc v2 (shift 4 (shift 6 (put 6 x rand))) = direct_l sc v2 (shift 10 rand)).
    { unfold direct_l; rewrite LEN; unfold shift, put; cbn [Nat.eqb Nat.add]; reflexivity. }
    cbn [l_rec]; rewrite LEN, D1; unfold DEFAULT_BOUNCES; cbn [Nat.eqb orb].
    assert (R4 : roulette sc 4 p (shift 6 (put 6 x rand) 0%nat) = if Rlt_dec x t then None else Some t) by reflexivity.
    rewrite R4; destruct (Rlt_dec x t); [f_equal; ring |].
    assert (SB' : sc_bsdf sc v (shift 6 (put 6 x rand) 1%nat) (shift 6 (put 6 x rand) 2%nat) (shift 6 (put 6 x rand) 3%nat) true = (f, wi, pdf, spec)) by exact SB.
    rewrite SB', BF, BP, TR; cbn [orb]; rewrite D2.
    match goal with |- context [roulette sc 5 ?a ?b] => destruct (roulette sc 5 a b) end;
      f_equal; unfold rest; destruct (spec && sc_faces sc v2)%bool; field; exact P.
  - intros R0 E; apply R0.
    assert (Z : rest * (1 - (1 - t) * t) = 0) by lra; apply Rmult_integral in Z; destruct Z; lra.
Qed.
Print Assumptions roulette_refuted.
Example lamp_roulette : 0 <= sc_luminance (lamps 1) (1 / 4) /\ sc_trace (lamps 1) false tt = Some true /\
  sc_bsdf (lamps 1) false 0 0 0 true = (1 / 2, tt, 1, false) /\
  forall rand, hit_emission (lamps 1) true + direct_l (lamps 1) true rand <> 0.
Proof.
  split; [cbn; lra |]; split; [reflexivity |]; split; [reflexivity |]; intro rand.
  rewrite (direct_nothing (lamps 1) true) by (split; intros; reflexivity); cbn; lra.
Qed.

(* C131.  A light that is found by following a path is counted although it has been sampled
   at the vertex before: where everything happens along one direction, of density p in both
   strategies, the direct light of the vertex is the exact answer and the path gives twice. *)
Theorem indirect_emission_refuted : forall {V W} (sc : scene V W) l v wi d v2 f p,
  sc_lights sc = [l] -> sc_hit_light sc v = None ->
  (forall a b, sl_sample l v a b = (sl_emission l, wi, p, d)) ->
  (forall a b c s, sc_bsdf sc v a b c s = (f, wi, p, false)) ->
  sc_value sc v wi = f -> sc_pdf sc v wi = p -> sl_pdf l v wi = p -> 0 < p -> f <> 0 ->
  sc_occluded sc v wi d = false -> sc_trace sc v wi = Some v2 -> sc_hit_light sc v2 = Some 0%nat ->
  sc_faces_geo sc v2 = true -> sc_faces sc v2 = true -> reflects_nothing sc v2 ->
  let exact := f * sl_emission l * sc_absdot sc v wi / p in
  forall rand, direct_l sc v rand = exact /\ radiance sc 6 v rand = Some (2 * exact).
Proof.
  intros V W sc l v wi d v2 f p SL HN SA SB VF PF LF P F0 OC TR HL FG FS RN exact rand.
  assert (P1 : positive p = true) by (unfold positive; destruct (Rlt_dec 0 p); [reflexivity | contradiction]).
  assert (P3 : black p = false) by (unfold black; destruct (Req_EM_T p 0); [lra | reflexivity]).
  assert (BF : black f = false) by (unfold black; destruct (Req_EM_T f 0); [contradiction | reflexivity]).
  assert (D : forall rand, direct_l sc v rand = exact).
  { intro rd; unfold direct_l, hit_emission; rewrite HN, SL; cbn [length].
    assert (CH : choose_light 1 (rd 0%nat) = 0%nat) by (unfold choose_light; lia).
    rewrite CH; cbn [nth_error]; unfold light_strategy, bsdf_strategy; rewrite SA, SB, VF, PF, LF, P1, P3, BF, OC, TR, HL, FG; cbn [andb negb Nat.eqb].
    unfold exact, black; destruct (Req_EM_T (sl_emission l) 0) as [E0 | E0]; cbn [negb andb]; try rewrite E0; destruct (sc_faces sc v); field; split; try lra;
      assert (0 < p * p) by (apply Rmult_lt_0_compat; assumption); lra. }
  split; [apply D |].
  assert (E2 : hit_emission sc v2 = sl_emission l) by (unfold hit_emission; rewrite HL, SL; reflexivity).
  unfold radiance; remember 4%nat as n eqn:NE; cbn [l_rec Nat.eqb orb andb]; rewrite D, SB, P3, BF, TR; unfold roulette; cbn [Nat.ltb Nat.leb orb].
  destruct (Nat.eqb 0 DEFAULT_BOUNCES) eqn:E; [discriminate |].
  rewrite direct_nothing, FS, E2 by exact RN.
  destruct (Nat.eqb 1 DEFAULT_BOUNCES) eqn:E'; [discriminate |].
  assert (HE : hit_emission sc v = 0) by (unfold hit_emission; rewrite HN; reflexivity).
  rewrite HE; destruct RN as [_ N2].
  match goal with |- context [sc_bsdf sc v2 ?a ?b ?c true] => specialize (N2 a b c true); destruct (sc_bsdf sc v2 a b c true) as [[[f2 wi2] pdf2] spec2] end.
  cbn in N2; rewrite N2, black_0, orb_true_r; cbv iota; unfold exact; cbn [andb]; destruct (sc_faces sc v); apply f_equal; field; lra.
Qed.
Print Assumptions indirect_emission_refuted.
Definition lamp1 : slight bool unit := mk_slight 3 (fun _ _ _ => (3, tt, 1, 1)) (fun _ _ => 1).
Definition lit_room : scene bool unit :=
  mk_scene [lamp1] (fun v => if v then Some 0%nat else None) (fun _ => true) (fun _ => true)
    (fun v _ => if v then 0 else 1 / 2) (fun _ _ => 1) (fun v _ _ _ _ => (if v then 0 else 1 / 2, tt, 1, false))
    (fun _ _ => 1) (fun _ _ _ => false) (fun _ _ => Some true) (fun x => x).
Example lit_room_doubled : forall rand, radiance lit_room 6 false rand = Some (2 * (1 / 2 * 3 * 1 / 1)).
Proof.
  intro rand; apply (indirect_emission_refuted lit_room lamp1 false tt 1 true (1 / 2) 1); try reflexivity; try lra; try (intros; reflexivity).
  split; intros; reflexivity.
Qed.

(* C132.  The radiance is never negative. *)
Lemma div_pos : forall a b, 0 <= a -> 0 < b -> 0 <= a / b.
Proof. intros a b A B; apply Rmult_le_pos; [exact A | left; apply Rinv_0_lt_compat; exact B]. Qed.
Lemma sq_pos : forall a b, 0 < a -> 0 < a * a + b * b.
Proof. intros a b A; pose proof (Rle_0_sqr b) as Q; unfold Rsqr in Q; assert (0 < a * a) by (apply Rmult_lt_0_compat; assumption); lra. Qed.
Lemma positive_spec : forall x, positive x = true -> 0 < x.
Proof. intros x; unfold positive; destruct (Rlt_dec 0 x); [auto | discriminate]. Qed.
Lemma emission_pos : forall {V W} (sc : scene V W) v, physical sc -> 0 <= hit_emission sc v.
Proof.
  intros V W sc v (L & _); unfold hit_emission; destruct (sc_hit_light sc v); [| lra].
  destruct (nth_error _ _) as [l |] eqn:E; [| lra]; apply nth_error_In in E; apply L; exact E.
Qed.
Lemma direct_pos : forall {V W} (sc : scene V W) v rand, physical sc -> 0 <= direct_l sc v rand.
Proof.
  intros V W sc v rand PH; pose proof (emission_pos sc v PH) as EP; unfold direct_l.
  assert (E : 0 <= if sc_faces sc v then hit_emission sc v else 0) by (destruct (sc_faces sc v); lra).
  destruct (length (sc_lights sc)); [exact E |].
  destruct (nth_error _ _) as [l |] eqn:N; [| exact E]; apply nth_error_In in N.
  destruct PH as (L & VA & BS & BP & AD & _); destruct (L l N) as [LE LS].
  assert (A : forall a b, 0 <= light_strategy sc l v a b).
  { intros a b; unfold light_strategy; specialize (LS v a b); destruct (sl_sample _ _ _ _) as [[[c wi] lp] d]; cbn in LS.
    destruct (positive lp) eqn:P; cbn [andb]; [| lra]; apply positive_spec in P.
    destruct (negb (black c)); [| lra]; destruct (negb _ && negb _)%bool; [| lra].
    destruct (positive (sc_pdf sc v wi)); [| lra].
    apply div_pos; [| exact P]; repeat apply Rmult_le_pos; auto; try lra.
    left; apply Rinv_0_lt_compat, sq_pos, P. }
  assert (B : forall k a b c, 0 <= bsdf_strategy sc k l v a b c).
  { intros k a b c; unfold bsdf_strategy; specialize (BS v a b c false); destruct (sc_bsdf _ _ _ _ _ _) as [[[f wi] pdf] spec]; cbn in BS.
    destruct (positive pdf) eqn:P; cbn [andb]; [| lra]; apply positive_spec in P.
    destruct (negb (black f)); [| lra]; destruct (black _); [lra |].
    destruct (sc_trace _ _ _) as [h2 |]; [| lra]; destruct (sc_hit_light _ _) as [k2 |]; [| lra].
    destruct (Nat.eqb k2 k); [| lra]; destruct (sc_faces_geo _ _); [| lra].
    apply div_pos; [| exact P]; repeat apply Rmult_le_pos; auto; try lra.
    left; apply Rinv_0_lt_compat, sq_pos, P. }
  specialize (A (rand 1%nat) (rand 2%nat)).
  match goal with |- context [bsdf_strategy sc ?k l v ?a ?b ?c] => specialize (B k a b c) end; lra.
Qed.
Lemma l_rec_pos : forall {V W} (sc : scene V W), physical sc -> forall fuel r v p s rand x, 0 <= p ->
  l_rec sc fuel r v p s rand = Some x -> 0 <= x.
Proof.
  intros V W sc PH fuel; induction fuel as [| fuel IH]; intros r v p s rand x P E; [discriminate |].
  cbn [l_rec] in E.
  set (ret := (if _ : bool then _ else _) + p * direct_l sc v rand) in E.
  assert (RP : 0 <= ret).
  { unfold ret; pose proof (direct_pos sc v rand PH); pose proof (emission_pos sc v PH).
    assert (0 <= p * direct_l sc v rand) by (apply Rmult_le_pos; assumption).
    assert (0 <= p * hit_emission sc v) by (apply Rmult_le_pos; assumption).
    destruct (_ && _)%bool; lra. }
  clearbody ret.
  destruct (roulette _ _ _ _) as [q |] eqn:RO; [| injection E as <-; exact RP].
  destruct (Nat.eqb r DEFAULT_BOUNCES); [injection E as <-; exact RP |].
  pose proof PH as (_ & _ & BS & BP & AD & LU).
  match type of E with context [sc_bsdf sc v ?a ?b ?c true] =>
    specialize (BS v a b c true); specialize (BP v a b c true); destruct (sc_bsdf sc v a b c true) as [[[f wi] pdf] spec] end.
  cbn [fst snd] in BS, BP.
  destruct (black pdf) eqn:B; cbn [orb] in E; [injection E as <-; exact RP |].
  destruct (black f); [injection E as <-; exact RP |].
  destruct (sc_trace _ _ _) as [v2 |]; [| injection E as <-; exact RP].
  match type of E with context [l_rec sc fuel ?a ?b ?c ?d ?e] => destruct (l_rec sc fuel a b c d e) as [y |] eqn:L; [| discriminate] end.
  injection E as <-.
  assert (PP : 0 < pdf) by (unfold black in B; destruct (Req_EM_T pdf 0); [discriminate | lra]).
  assert (Q : 0 <= q).
  { unfold roulette in RO; destruct (Nat.ltb 3 r); [| injection RO as <-; lra].
    destruct (Rlt_dec _ _); [discriminate |]; injection RO as <-; apply Rmin_glb; [apply LU; exact P | lra]. }
  apply IH in L; [lra |].
  apply Rmult_le_pos; [exact P |]; apply Rmult_le_pos; [| exact Q]; apply div_pos; [| exact PP]; apply Rmult_le_pos; auto.
Qed.
Theorem radiance_not_negative : forall {V W} (sc : scene V W) v rand, physical sc ->
  exists x, radiance sc 6 v rand = Some x /\ 0 <= x.
Proof.
  intros V W sc v rand PH; destruct (path_is_finite sc v rand) as [x X]; exists x; split; [exact X |].
  eapply l_rec_pos; [exact PH | | exact X]; lra.
Qed.
Print Assumptions radiance_not_negative.
Example lit_room_physical : physical lit_room.
Proof.
  repeat split; cbn; try (intros; lra); intros; try (destruct v; lra).
  - destruct H as [<- | []]; cbn; lra.
  - destruct H as [<- | []]; cbn; lra.
Qed.
