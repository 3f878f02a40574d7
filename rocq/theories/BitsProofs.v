From Verif Require Import Common ByteLemmas BitsModel.
Local Open Scope N_scope.

(* ---- kd nodes ---- *)

Lemma bits_small : forall a k i, a < 2 ^ k -> k <= i -> N.testbit a i = false.
Proof.
  intros a k i Ha Hi. destruct (N.eq_dec a 0) as [-> | Hz]; [apply N.bits_0 |].
  apply N.bits_above_log2. assert (N.log2 a < k) by (apply N.log2_lt_pow2; lia). lia.
Qed.

Lemma land_lor_small : forall a m, N.land (N.lor a m) m = m.
Proof.
  intros a m. apply N.bits_inj. intros i. rewrite N.land_spec, N.lor_spec.
  destruct (N.testbit a i), (N.testbit m i); reflexivity.
Qed.

Lemma land_high_zero : forall a k c, a < 2 ^ k -> N.land a (N.shiftl c k) = 0.
Proof. intros a k c H. now apply land_zero_disjoint. Qed.

Lemma land_ones_id : forall a k, a < 2 ^ k -> N.land a (N.ones k) = a.
Proof. intros a k Ha. rewrite N.land_ones. now apply N.mod_small. Qed.

Lemma kd_leaf_pf : forall off num, num < 2 ^ 31 ->
  kd_isLeaf (kd_leaf off num) = true /\ kd_getAssetOffset (kd_leaf off num) = off /\
  kd_getAssetsNumber (kd_leaf off num) = num.
Proof.
  intros off num Hn. unfold kd_isLeaf, kd_getAssetOffset, kd_getAssetsNumber, kd_leaf.
  cbn [kd_union kd_data]. split; [| split; [reflexivity |]].
  - rewrite land_lor_small. reflexivity.
  - rewrite N.land_lor_distr_l. change (N.land 2147483648 2147483647) with 0.
    rewrite N.lor_0_r. change 2147483647 with (N.ones 31). now apply land_ones_id.
Qed.

Lemma kd_interior_pf : forall split axis child, (0 <= axis <= 2)%Z -> child < 2 ^ 29 ->
  kd_isLeaf (kd_interior split axis child) = false /\
  kd_getAxis (kd_interior split axis child) = Z.to_N axis /\
  kd_getSplit (kd_interior split axis child) = split /\
  kd_getOtherChildOffset (kd_interior split axis child) = child.
Proof.
  intros split axis child Ha Hc.
  unfold kd_isLeaf, kd_getAxis, kd_getSplit, kd_getOtherChildOffset, kd_interior.
  cbn [kd_union kd_data].
  assert (C : (axis = 0 \/ axis = 1 \/ axis = 2)%Z) by lia.
  assert (E1 : N.land child 2147483648 = 0) by (apply (land_high_zero child 29 4); exact Hc).
  assert (E2 : N.land child 1610612736 = 0) by (apply (land_high_zero child 29 3); exact Hc).
  assert (E3 : N.land child 536870911 = child)
    by (change 536870911 with (N.ones 29); now apply land_ones_id).
  destruct C as [-> | [-> | ->]]; cbn [Z.eqb Pos.eqb];
    rewrite ?N.land_lor_distr_l, E1, E2, E3; repeat split; try (vm_compute; reflexivity);
    destruct child; reflexivity.
Qed.

(* ---- Morton codes ---- *)

(* Functions on words that distribute over | are determined by powers of two. *)
Definition linear (f : N -> N) : Prop :=
  f 0 = 0 /\ forall a b, f (N.lor a b) = N.lor (f a) (f b).

Lemma u64_land : forall x, u64 x = N.land x (N.ones 64).
Proof. intros x. unfold u64. now rewrite N.land_ones. Qed.

Lemma linear_step : forall k m, linear (spread_step k m).
Proof.
  intros k m. split.
  - unfold spread_step. rewrite N.shiftl_0_l. reflexivity.
  - intros a b. unfold spread_step. rewrite !u64_land, N.shiftl_lor.
    rewrite !N.land_lor_distr_l. apply N.bits_inj. intros i. rewrite !N.lor_spec.
    repeat match goal with |- context [N.testbit ?x i] => destruct (N.testbit x i) end; reflexivity.
Qed.

Lemma linear_land : forall m, linear (fun v => N.land v m).
Proof. intros m. split; [reflexivity |]. intros a b. apply N.land_lor_distr_l. Qed.

Lemma linear_comp : forall f g, linear f -> linear g -> linear (fun v => f (g v)).
Proof.
  intros f g [F0 F] [G0 G]. split; [now rewrite G0 |]. intros a b. now rewrite G, F.
Qed.

Lemma linear_expand : linear expand.
Proof.
  unfold expand.
  apply (linear_comp (spread_step 2 _)); [apply linear_step |].
  apply (linear_comp (spread_step 4 _)); [apply linear_step |].
  apply (linear_comp (spread_step 8 _)); [apply linear_step |].
  apply (linear_comp (spread_step 16 _)); [apply linear_step |].
  apply (linear_comp (spread_step 32 _)); [apply linear_step |].
  apply linear_land.
Qed.

Lemma linear_pdep_from : forall n pos mask, linear (fun v => pdep_from n pos v mask).
Proof.
  intros n. induction n as [| n IH]; intros pos mask.
  - split; reflexivity.
  - cbn [pdep_from]. destruct (N.testbit mask pos); [| apply IH].
    destruct (IH (pos + 1) mask) as [Z0 L]. split.
    + change (N.shiftr 0 1) with 0. rewrite Z0, N.land_0_l, N.shiftl_0_l. reflexivity.
    + intros a b. rewrite N.land_lor_distr_l, N.shiftl_lor, N.shiftr_lor, L.
      apply N.bits_inj. intros i. rewrite !N.lor_spec.
      repeat match goal with |- context [N.testbit ?x i] => destruct (N.testbit x i) end; reflexivity.
Qed.

Lemma linear_pdep : forall mask, linear (fun v => pdep v mask).
Proof. intros mask. apply linear_pdep_from. Qed.

Lemma split_top : forall n x, x < 2 ^ N.of_nat (S n) ->
  exists x', x' < 2 ^ N.of_nat n /\
    x = N.lor x' (if N.testbit x (N.of_nat n) then 2 ^ N.of_nat n else 0) /\
    forall i, i < N.of_nat n -> N.testbit x' i = N.testbit x i.
Proof.
  intros n x Hx. set (k := N.of_nat n). exists (x mod 2 ^ k).
  split; [apply N.mod_lt; apply N.pow_nonzero; lia |]. split.
  - apply N.bits_inj. intros i. rewrite N.lor_spec.
    destruct (N.lt_ge_cases i k) as [Hi | Hi].
    + rewrite N.mod_pow2_bits_low by exact Hi.
      destruct (N.testbit x k); [rewrite N.pow2_bits_false by lia | rewrite N.bits_0];
        now rewrite orb_false_r.
    + rewrite N.mod_pow2_bits_high by exact Hi. cbn [orb].
      destruct (N.eq_dec i k) as [-> | Hne].
      * destruct (N.testbit x k); [now rewrite N.pow2_bits_true | now rewrite N.bits_0].
      * rewrite (bits_small x (N.of_nat (S n)) i Hx) by (unfold k in *; lia).
        destruct (N.testbit x k); [now rewrite N.pow2_bits_false by lia | now rewrite N.bits_0].
  - intros i Hi. now apply N.mod_pow2_bits_low.
Qed.

Lemma linear_bits : forall f c n, linear f ->
  (forall k, (k < n)%nat -> f (2 ^ N.of_nat k) = 2 ^ (3 * N.of_nat k + c)) ->
  forall x, x < 2 ^ N.of_nat n ->
  (forall k, (k < n)%nat -> N.testbit (f x) (3 * N.of_nat k + c) = N.testbit x (N.of_nat k)) /\
  (forall i, (forall k, (k < n)%nat -> i <> 3 * N.of_nat k + c) -> N.testbit (f x) i = false).
Proof.
  intros f c n [F0 FL]. induction n as [| n IH]; intros Hp x Hx.
  - assert (x = 0) as -> by (cbn in Hx; lia). rewrite F0.
    split; [intros k Hk; lia | intros i _; apply N.bits_0].
  - destruct (split_top n x Hx) as (x' & Hx' & E & Hlow).
    destruct (IH (fun k Hk => Hp k ltac:(lia)) x' Hx') as [P1 P2].
    assert (Ef : f x = N.lor (f x') (if N.testbit x (N.of_nat n)
                   then 2 ^ (3 * N.of_nat n + c) else 0)).
    { rewrite E at 1. rewrite FL. f_equal. destruct (N.testbit x (N.of_nat n)); [| exact F0].
      apply Hp. lia. }
    rewrite Ef. split.
    + intros k Hk. rewrite N.lor_spec.
      destruct (Nat.eq_dec k n) as [-> | Hne].
      * rewrite P2 by (intros k Hk'; lia). cbn [orb].
        destruct (N.testbit x (N.of_nat n)); [apply N.pow2_bits_true | apply N.bits_0].
      * rewrite P1 by lia. rewrite Hlow by lia.
        destruct (N.testbit x (N.of_nat n));
          [rewrite N.pow2_bits_false by lia | rewrite N.bits_0]; apply orb_false_r.
    + intros i Hi. rewrite N.lor_spec. rewrite P2 by (intros k Hk; apply Hi; lia).
      destruct (N.testbit x (N.of_nat n)); [| apply N.bits_0].
      rewrite N.pow2_bits_false; [reflexivity |]. specialize (Hi n ltac:(lia)). lia.
Qed.

Definition pow_check (f : N -> N) (c : N) (n : nat) : bool :=
  forallb (fun k => f (2 ^ N.of_nat k) =? 2 ^ (3 * N.of_nat k + c)) (seq 0 n).

Lemma pow_check_ok : forall f c n, pow_check f c n = true ->
  forall k, (k < n)%nat -> f (2 ^ N.of_nat k) = 2 ^ (3 * N.of_nat k + c).
Proof.
  intros f c n H k Hk. unfold pow_check in H. rewrite forallb_forall in H.
  apply N.eqb_eq. apply (H k). apply in_seq. lia.
Qed.

(* bit i of a word that holds bit k of x at 3k+c, and nothing else *)
Definition lane (x c i : N) (b : bool) : Prop :=
  (forall k, (k < 21)%nat -> i = 3 * N.of_nat k + c -> b = N.testbit x (N.of_nat k)) /\
  ((forall k, (k < 21)%nat -> i <> 3 * N.of_nat k + c) -> b = false).

Lemma lane_of : forall f c, linear f -> pow_check f c 21 = true -> forall x i, x < 2 ^ 21 ->
  lane x c i (N.testbit (f x) i).
Proof.
  intros f c Hl Hc x i Hx.
  destruct (linear_bits f c 21 Hl (pow_check_ok f c 21 Hc) x Hx) as [P1 P2].
  split; [intros k Hk ->; now apply P1 | apply P2].
Qed.

Definition shifted (s : N) (v : N) : N := u64 (N.shiftl (expand v) s).

Lemma linear_shifted : forall s, linear (shifted s).
Proof.
  intros s. unfold shifted. destruct linear_expand as [E0 E]. split.
  - rewrite E0, N.shiftl_0_l. reflexivity.
  - intros a b. rewrite E, N.shiftl_lor, !u64_land. apply N.land_lor_distr_l.
Qed.

Lemma lane_value : forall x c i b, lane x c i b -> x < 2 ^ 21 -> c < 3 ->
  b = ((i mod 3 =? c) && N.testbit x (i / 3))%bool.
Proof.
  intros x c i b [L1 L2] Hx Hc.
  pose proof (N.div_mod i 3 ltac:(lia)) as D.
  destruct (N.eqb_spec (i mod 3) c) as [Em | Nm]; cbn [andb].
  - destruct (N.lt_ge_cases (i / 3) 21) as [Hlt | Hge].
    + rewrite (L1 (N.to_nat (i / 3))) by lia. f_equal. lia.
    + rewrite (bits_small x 21) by assumption. apply L2. intros k Hk ->.
      clear - Hge Hk Hc. dlia.
  - apply L2. intros k Hk ->. apply Nm. clear - Hc. dlia.
Qed.

(* the code as an interleaving *)
Definition interleaves (code x y z : N) : Prop := forall i,
  N.testbit code i =
  if i mod 3 =? 0 then N.testbit x (i / 3)
  else if i mod 3 =? 1 then N.testbit y (i / 3) else N.testbit z (i / 3).

Lemma lanes_interleave : forall a b c x y z,
  (forall i, N.testbit a i = ((i mod 3 =? 0) && N.testbit x (i / 3))%bool) ->
  (forall i, N.testbit b i = ((i mod 3 =? 1) && N.testbit y (i / 3))%bool) ->
  (forall i, N.testbit c i = ((i mod 3 =? 2) && N.testbit z (i / 3))%bool) ->
  interleaves (N.lor (N.lor a b) c) x y z.
Proof.
  intros a b c x y z Ha Hb Hc i. rewrite !N.lor_spec, Ha, Hb, Hc.
  pose proof (N.mod_lt i 3 ltac:(lia)) as Hm.
  destruct (N.eqb_spec (i mod 3) 0) as [-> | H0]; [cbn; now rewrite !orb_false_r |].
  destruct (N.eqb_spec (i mod 3) 1) as [-> | H1]; [cbn; now rewrite !orb_false_r |].
  assert (E : i mod 3 = 2) by lia. rewrite E. reflexivity.
Qed.

Lemma morton_portable_pf : forall x y z, x < 2 ^ 21 -> y < 2 ^ 21 -> z < 2 ^ 21 ->
  interleaves (morton_portable x y z) x y z.
Proof.
  intros x y z Hx Hy Hz. unfold morton_portable. apply lanes_interleave; intros i.
  - apply lane_value; try assumption; [| lia].
    apply (lane_of expand 0 linear_expand); [vm_compute; reflexivity | assumption].
  - apply lane_value; try assumption; [| lia].
    apply (lane_of (shifted 1) 1 (linear_shifted 1)); [vm_compute; reflexivity | assumption].
  - apply lane_value; try assumption; [| lia].
    apply (lane_of (shifted 2) 2 (linear_shifted 2)); [vm_compute; reflexivity | assumption].
Qed.

Lemma morton_bmi2_pf : forall x y z, x < 2 ^ 21 -> y < 2 ^ 21 -> z < 2 ^ 21 ->
  interleaves (morton_bmi2 x y z) x y z.
Proof.
  intros x y z Hx Hy Hz. unfold morton_bmi2. apply lanes_interleave; intros i.
  - apply lane_value; try assumption; [| lia].
    apply (lane_of (fun v => pdep v _) 0 (linear_pdep _)); [vm_compute; reflexivity | assumption].
  - apply lane_value; try assumption; [| lia].
    apply (lane_of (fun v => pdep v _) 1 (linear_pdep _)); [vm_compute; reflexivity | assumption].
  - apply lane_value; try assumption; [| lia].
    apply (lane_of (fun v => pdep v _) 2 (linear_pdep _)); [vm_compute; reflexivity | assumption].
Qed.

Lemma interleaves_fun : forall c1 c2 x y z,
  interleaves c1 x y z -> interleaves c2 x y z -> c1 = c2.
Proof. intros c1 c2 x y z H1 H2. apply N.bits_inj. intros i. now rewrite H1, H2. Qed.

Lemma interleaves_bits : forall c x y z, interleaves c x y z -> forall k,
  N.testbit c (3 * k) = N.testbit x k /\ N.testbit c (3 * k + 1) = N.testbit y k /\
  N.testbit c (3 * k + 2) = N.testbit z k.
Proof.
  intros c x y z H k. rewrite !H.
  assert (E0 : (3 * k) mod 3 = 0) by dlia. assert (D0 : (3 * k) / 3 = k) by dlia.
  assert (E1 : (3 * k + 1) mod 3 = 1) by dlia. assert (D1 : (3 * k + 1) / 3 = k) by dlia.
  assert (E2 : (3 * k + 2) mod 3 = 2) by dlia. assert (D2 : (3 * k + 2) / 3 = k) by dlia.
  rewrite E0, D0, E1, D1, E2, D2. auto.
Qed.

Lemma interleaves_inj : forall c x y z x' y' z',
  interleaves c x y z -> interleaves c x' y' z' -> x = x' /\ y = y' /\ z = z'.
Proof.
  intros c x y z x' y' z' H H'.
  repeat split; apply N.bits_inj; intros k;
    destruct (interleaves_bits _ _ _ _ H k) as (A & B & C);
    destruct (interleaves_bits _ _ _ _ H' k) as (A' & B' & C'); congruence.
Qed.

Lemma interleaves_shift : forall c x y z j, interleaves c x y z ->
  interleaves (N.shiftr c (3 * j)) (N.shiftr x j) (N.shiftr y j) (N.shiftr z j).
Proof.
  intros c x y z j H i. rewrite !N.shiftr_spec', H.
  assert (E : (i + 3 * j) mod 3 = i mod 3) by dlia.
  assert (D : (i + 3 * j) / 3 = i / 3 + j) by dlia. rewrite E, D. reflexivity.
Qed.

(* order: the code grows with every coordinate *)
Lemma interleaves_step : forall c x y z, interleaves c x y z ->
  interleaves (c / 8) (x / 2) (y / 2) (z / 2) /\
  c = 8 * (c / 8) + (x mod 2 + 2 * (y mod 2) + 4 * (z mod 2)).
Proof.
  intros c x y z H. split.
  - pose proof (interleaves_shift c x y z 1 H) as S. rewrite !N.shiftr_div_pow2 in S. exact S.
  - assert (E : c mod 8 = x mod 2 + 2 * (y mod 2) + 4 * (z mod 2)).
    { destruct (interleaves_bits _ _ _ _ H 0) as (B0 & B1 & B2).
      change (3 * 0) with 0 in B0. change (3 * 0 + 1) with 1 in B1. change (3 * 0 + 2) with 2 in B2.
      assert (C1 : N.b2n (N.testbit c 1) = c / 2 mod 2)
        by (rewrite N.testbit_spec' ; reflexivity).
      assert (C2 : N.b2n (N.testbit c 2) = c / 4 mod 2)
        by (rewrite N.testbit_spec' ; reflexivity).
      assert (C0 : N.b2n (N.testbit c 0) = c mod 2) by (rewrite N.testbit_spec', N.pow_0_r, N.div_1_r; reflexivity).
      assert (X0 : N.b2n (N.testbit x 0) = x mod 2) by (rewrite N.testbit_spec', N.pow_0_r, N.div_1_r; reflexivity).
      assert (Y0 : N.b2n (N.testbit y 0) = y mod 2) by (rewrite N.testbit_spec', N.pow_0_r, N.div_1_r; reflexivity).
      assert (Z0 : N.b2n (N.testbit z 0) = z mod 2) by (rewrite N.testbit_spec', N.pow_0_r, N.div_1_r; reflexivity).
      rewrite <- X0, <- Y0, <- Z0, <- B0, <- B1, <- B2, C0, C1, C2. clear. dlia. }
    pose proof (N.div_mod c 8 ltac:(lia)). lia.
Qed.

Lemma interleaves_mono : forall n c c' x y z x' y' z', c < 2 ^ N.of_nat n ->
  interleaves c x y z -> interleaves c' x' y' z' ->
  x <= x' -> y <= y' -> z <= z' -> c <= c'.
Proof.
  intros n. induction n as [n IH] using lt_wf_ind.
  intros c c' x y z x' y' z' Hc H H' Hx Hy Hz.
  destruct (interleaves_step _ _ _ _ H) as [S E]. destruct (interleaves_step _ _ _ _ H') as [S' E'].
  destruct (N.eq_dec c 0) as [-> | Hnz]; [lia |].
  destruct n as [| n]; [cbn in Hc; lia |].
  assert (Hq : c / 8 <= c' / 8).
  { apply (IH n ltac:(lia) (c / 8) (c' / 8) (x / 2) (y / 2) (z / 2) (x' / 2) (y' / 2) (z' / 2));
      try assumption; try (apply N.div_le_mono; lia).
    rewrite Nat2N.inj_succ, N.pow_succ_r' in Hc. apply N.div_lt_upper_bound; lia. }
  destruct (N.eq_dec (c / 8) (c' / 8)) as [Eq | Ne].
  - (* same upper parts: the coordinates' upper parts agree, compare low bits *)
    rewrite Eq in S. destruct (interleaves_inj _ _ _ _ _ _ _ S S') as (X & Y & Z).
    clear - E E' Eq X Y Z Hx Hy Hz. dlia.
  - clear - E E' Hq Ne. dlia.
Qed.
