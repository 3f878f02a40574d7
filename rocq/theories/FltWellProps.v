(* The random numbers of FltModel are those of WellModel. *)
From Coq Require Import ZArith Reals Lra Psatz Lia List.
From Flocq Require Import Core.Core IEEE754.BinarySingleNaN.
From Flocq Require Import Mult_error.
From Verif Require Import Common WellModel FltModel FltFacts FltProps.
Import ListNotations.
Local Open Scope R_scope.

(* the rounding of WellModel is the one of the operations above *)
Lemma float_of_u32_rnd : forall n, (n < 2 ^ 32)%N -> rnd (IZR (Z.of_N n)) = IZR (Z.of_N (float_of_u32 n)).
Proof.
  intros n L; destruct (N.eq_dec n 0) as [-> | NZ]; [change (float_of_u32 0) with 0%N; apply rnd_fits, fits_0 |].
  assert (SZ : (2 ^ (N.size n - 1) <= n < 2 ^ N.size n)%N).
  { split; [| apply N.size_gt]; rewrite N.size_log2 by exact NZ; replace (N.succ (N.log2 n) - 1)%N with (N.log2 n) by lia; apply N.log2_spec; lia. }
  unfold float_of_u32; cbv zeta; set (k := N.size n) in *; set (e := (k - 24)%N).
  destruct (N.le_gt_cases k 24) as [K | K].
  - replace e with 0%N by (unfold e; lia); rewrite N.pow_0_r, N.div_1_r, N.mod_1_r, N.mul_1_r; cbn [N.mul N.ltb N.eqb N.compare orb andb].
    apply rnd_fits, fits_Z; assert (n < 2 ^ 24)%N by (apply N.lt_le_trans with (1 := proj2 SZ), N.pow_le_mono_r; lia).
    change (2 ^ 24)%Z with (Z.of_N (2 ^ 24)); lia.
  - pose proof (N.div_mod n (2 ^ e) ltac:(apply N.pow_nonzero; discriminate)) as DM.
    pose proof (N.mod_lt n (2 ^ e) ltac:(apply N.pow_nonzero; discriminate)) as ML.
    set (q := (n / 2 ^ e)%N) in *; set (r := (n mod 2 ^ e)%N) in *.
    assert (PE : IZR (Z.of_N (2 ^ e)) = bpow radix2 (Z.of_N e)).
    { rewrite N2Z.inj_pow; apply (IZR_Zpower radix2); lia. }
    assert (PP : 0 < bpow radix2 (Z.of_N e)) by apply bpow_gt_0.
    assert (MG : mag radix2 (IZR (Z.of_N n)) = Z.of_N k :> Z).
    { apply mag_unique_pos; split.
      - replace (bpow radix2 (Z.of_N k - 1)) with (IZR (Z.of_N (2 ^ (k - 1)))).
        + apply IZR_le; lia.
        + rewrite N2Z.inj_pow; replace (Z.of_N k - 1)%Z with (Z.of_N (k - 1)) by lia; apply (IZR_Zpower radix2); lia.
      - replace (bpow radix2 (Z.of_N k)) with (IZR (Z.of_N (2 ^ k))).
        + apply IZR_lt; lia.
        + rewrite N2Z.inj_pow; apply (IZR_Zpower radix2); lia. }
    unfold rnd, round, scaled_mantissa, cexp; rewrite MG.
    assert (FE : FLT_exp (-149) 24 (Z.of_N k) = Z.of_N e) by (unfold FLT_exp, e; lia); rewrite FE.
    unfold F2R; cbn [Fnum Fexp]; rewrite N2Z.inj_mul, mult_IZR, PE; f_equal; apply f_equal.
    assert (X : IZR (Z.of_N n) * bpow radix2 (- Z.of_N e) = IZR (Z.of_N q) + IZR (Z.of_N r) / bpow radix2 (Z.of_N e)).
    { rewrite bpow_opp, DM, N2Z.inj_add, N2Z.inj_mul, plus_IZR, mult_IZR, PE; field; lra. }
    rewrite X; set (f := IZR (Z.of_N r) / bpow radix2 (Z.of_N e)).
    assert (RB : 0 <= IZR (Z.of_N r) < bpow radix2 (Z.of_N e)).
    { split; [apply (IZR_le 0); lia | rewrite <- PE; apply IZR_lt; lia]. }
    assert (FB : 0 <= f < 1).
    { unfold f; split; [apply Rmult_le_pos; [lra | left; apply Rinv_0_lt_compat, PP] |].
      apply Rmult_lt_reg_r with (bpow radix2 (Z.of_N e)); [exact PP |]; unfold Rdiv; rewrite Rmult_assoc, Rinv_l by lra; lra. }
    assert (FF : f * bpow radix2 (Z.of_N e) = IZR (Z.of_N r)) by (unfold f; field; lra).
    assert (FL : Zfloor (IZR (Z.of_N q) + f) = Z.of_N q) by (apply Zfloor_imp; rewrite plus_IZR; lra).
    assert (CE : 0 < f -> Zceil (IZR (Z.of_N q) + f) = (Z.of_N q + 1)%Z).
    { intro P; rewrite Zceil_floor_neq; [rewrite FL; reflexivity |]; rewrite FL; lra. }
    unfold Znearest; rewrite FL; replace (IZR (Z.of_N q) + f - IZR (Z.of_N q)) with f by ring.
    assert (OD : negb (Z.even (Z.of_N q)) = N.odd q) by (destruct q as [| [p | p |]]; reflexivity); rewrite OD.
    destruct (Rcompare_spec f (/ 2)) as [C | C | C].
    + assert (U : (2 * r < 2 ^ e)%N).
      { apply N2Z.inj_lt, lt_IZR; rewrite N2Z.inj_mul, mult_IZR, PE; change (IZR (Z.of_N 2)) with 2; nra. }
      destruct (N.ltb_spec (2 ^ e) (2 * r)); [lia |]; destruct (N.eqb_spec (2 ^ e) (2 * r)); [lia |]; reflexivity.
    + assert (U : (2 * r = 2 ^ e)%N).
      { apply N2Z.inj, eq_IZR; rewrite N2Z.inj_mul, mult_IZR, PE; change (IZR (Z.of_N 2)) with 2; nra. }
      destruct (N.ltb_spec (2 ^ e) (2 * r)); [lia |]; destruct (N.eqb_spec (2 ^ e) (2 * r)); [| lia]; cbn [orb andb].
      destruct (N.odd q); [rewrite CE by lra; lia | reflexivity].
    + assert (U : (2 ^ e < 2 * r)%N).
      { apply N2Z.inj_lt, lt_IZR; rewrite N2Z.inj_mul, mult_IZR, PE; change (IZR (Z.of_N 2)) with 2; nra. }
      destruct (N.ltb_spec (2 ^ e) (2 * r)); [| lia]; cbn [orb]; rewrite CE by lra; lia.
Qed.

(* C324: the number of the generator in single precision is the one of the model of the generator *)
Theorem float_random_number : forall s, Forall (fun w => (w < 2 ^ 32)%N) (w_state s) ->
  val (f_rand (Z.of_N (wget (w_state s) (w_i s)))) = IZR (Z.of_N (well_out s)) / 4294967296.
Proof.
  intros s W; unfold well_out; set (n := wget (w_state s) (w_i s)).
  assert (L : (n < 2 ^ 32)%N).
  { unfold n, wget; destruct (nth_in_or_default (w_i s) (w_state s) 0%N) as [I | ->]; [| reflexivity].
    rewrite Forall_forall in W; apply W, I. }
  destruct (of_Z_val (Z.of_N n)) as [F V]; [change (2 ^ 127)%Z with (Z.of_N (2 ^ 127)); lia |]; rewrite float_of_u32_rnd in V by exact L.
  destruct (fnum_val 1 (-32)) as [F' V'].
  { rewrite Rmult_1_l, Rabs_pos_eq by apply bpow_ge_0; apply bpow_le; lia. }
  assert (V2 : val (fnum 1 (-32)) = bpow radix2 (-32)) by (rewrite V', Rmult_1_l; apply rnd_fits, fits_bpow; lia).
  assert (B : 0 <= IZR (Z.of_N (float_of_u32 n)) <= 4294967296).
  { split; [apply (IZR_le 0); lia |]; rewrite <- float_of_u32_rnd by exact L.
    apply (rnd_between _ 0 4294967296); [apply fits_0 | |].
    - replace 4294967296 with (bpow radix2 32) by reflexivity; apply fits_bpow; lia.
    - split; [apply (IZR_le 0); lia | apply (IZR_le _ 4294967296); change 4294967296%Z with (Z.of_N (2 ^ 32)); lia]. }
  destruct (fmul_val (of_Z (Z.of_N n)) (fnum 1 (-32)) F F') as [_ M].
  { rewrite V, V2, u32_bpow; apply (big 2); [lia |]; apply abs_bounds; lra. }
  unfold f_rand; rewrite M, V, V2, u32_bpow.
  (* the product is exact *)
  rewrite <- u32_bpow, <- V; set (x := of_Z (Z.of_N n)) in *.
  rewrite rnd_fits; [rewrite u32_bpow; reflexivity |].
  destruct (Req_dec (val x) 0) as [-> | NZ]; [rewrite Rmult_0_l; apply fits_0 |].
  unfold fits; pose proof (fits_val x) as FX; unfold fits in FX.
  apply mult_bpow_exact_FLT; [exact FX |].
  assert (1 <= mag radix2 (val x))%Z; [| lia].
  apply mag_ge_bpow; change (bpow radix2 (1 - 1)) with 1; rewrite V, Rabs_pos_eq by lra; rewrite V in NZ.
  apply (IZR_le 1); assert (float_of_u32 n <> 0)%N; [| lia]; intro E; rewrite E in NZ; apply NZ; reflexivity.
Qed.
Print Assumptions float_random_number.
Example float_random_number_ex : let s := mk_well 3 (repeat 4294967295%N 32) in
  Forall (fun w => (w < 2 ^ 32)%N) (w_state s) /\ well_out s = 4294967296%N.
Proof. split; [repeat constructor | vm_compute; reflexivity]. Qed.
