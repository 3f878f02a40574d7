(* Proofs about the Array2D model. *)
From Verif Require Import Common Array2DModel Array2DSpec.
Local Open Scope N_scope.

(* ---- the bit smear ---- *)

Definition win (w s t : N) : Prop :=
  forall i, N.testbit t i = true <-> exists j, j < w /\ N.testbit s (i + j) = true.

Lemma win_step : forall w s t, win w s t -> win (2 * w) s (N.lor t (N.shiftr t w)).
Proof.
  unfold win. intros w s t H i. rewrite N.lor_spec, orb_true_iff, N.shiftr_spec', !H.
  split.
  - intros [[j [Hj Hb]] | [j [Hj Hb]]].
    + exists j. split; [lia | exact Hb].
    + exists (w + j). split; [lia |].
      replace (i + (w + j)) with (i + w + j) by lia. exact Hb.
  - intros [j [Hj Hb]].
    destruct (N.lt_ge_cases j w) as [Hlt | Hge].
    + left. exists j. auto.
    + right. exists (j - w). split; [lia |].
      replace (i + w + (j - w)) with (i + j) by lia. exact Hb.
Qed.

Lemma win_smear : forall s, win 32 s (smear s).
Proof.
  intros s. unfold smear.
  assert (H0 : win 1 s s).
  { intros i. split.
    - intros Hb. exists 0. split; [lia | now rewrite N.add_0_r].
    - intros [j [Hj Hb]]. replace j with 0 in Hb by lia. now rewrite N.add_0_r in Hb. }
  apply win_step in H0. apply win_step in H0. apply win_step in H0.
  apply win_step in H0. apply win_step in H0. exact H0.
Qed.

Lemma testbit_ones : forall n i, N.testbit (2 ^ n - 1) i = (i <? n).
Proof.
  intros n i. replace (2 ^ n - 1) with (N.ones n)
    by (rewrite N.ones_equiv; lia).
  destruct (N.ltb_spec i n) as [H | H].
  - now apply N.ones_spec_low.
  - now apply N.ones_spec_high.
Qed.

Lemma smear_log2 : forall s, 0 < s -> s < 2 ^ 32 -> smear s = 2 ^ (N.succ (N.log2 s)) - 1.
Proof.
  intros s Hp Hb.
  assert (Hl : N.log2 s < 32) by (apply N.log2_lt_pow2; assumption).
  apply N.bits_inj. intros i. rewrite testbit_ones.
  apply eq_iff_eq_true. rewrite N.ltb_lt, (win_smear s i).
  split.
  - intros [j [_ Hj]].
    destruct (N.lt_ge_cases i (N.succ (N.log2 s))) as [H | H]; [exact H |].
    rewrite N.bits_above_log2 in Hj by lia. discriminate.
  - intros H. exists (N.log2 s - i). split; [lia |].
    replace (i + (N.log2 s - i)) with (N.log2 s) by lia.
    apply N.bit_log2. lia.
Qed.

Lemma pow2_land : forall n, 0 < n -> N.land n (n - 1) = 0 -> exists k, n = 2 ^ k.
Proof.
  intros n Hp Hl. exists (N.log2 n).
  pose proof (N.log2_spec n Hp) as [Hlo Hhi].
  destruct (N.eq_dec n (2 ^ N.log2 n)) as [He | Hne]; [exact He |].
  exfalso.
  assert (Hb : N.testbit (N.land n (n - 1)) (N.log2 n) = true).
  { rewrite N.land_spec, N.bit_log2 by lia.
    assert (N.log2 (n - 1) = N.log2 n) as E
        by (apply N.log2_unique; [lia |]; split; lia).
    rewrite <- E. rewrite N.bit_log2; [reflexivity |].
    assert (0 < 2 ^ N.log2 n) by (apply N.neq_0_lt_0, N.pow_nonzero; lia). lia. }
  rewrite Hl, N.bits_0 in Hb. discriminate.
Qed.

Lemma pow2_land_conv : forall k, N.land (2 ^ k) (2 ^ k - 1) = 0.
Proof.
  intros k. apply N.bits_inj_0. intros i.
  rewrite N.land_spec, testbit_ones, N.pow2_bits_eqb.
  destruct (N.eqb_spec k i) as [-> | H]; [| reflexivity].
  cbn. apply N.ltb_ge. lia.
Qed.

Lemma pow2_pos : forall k, 0 < 2 ^ k.
Proof. intros k. apply N.neq_0_lt_0, N.pow_nonzero. lia. Qed.

Lemma u32_pred : forall s, 0 < s -> s <= 2 ^ 32 -> u32 (s + 2 ^ 32 - 1) = s - 1.
Proof.
  intros s H0 H1. unfold u32.
  replace (s + 2 ^ 32 - 1) with ((s - 1) + 1 * 2 ^ 32) by lia.
  rewrite N.mod_add by lia. apply N.mod_small. lia.
Qed.

Lemma block_side_pow : forall lb, block_side lb = 2 ^ lb.
Proof. intros lb. unfold block_side. now rewrite N.shiftl_mul_pow2, N.mul_1_l. Qed.

Lemma round_side_pow2 : forall lb side,
  lb <= 31 -> side <= 2 ^ 31 ->
  exists k, round_side lb side = 2 ^ k /\ lb <= k <= 31 /\ side <= 2 ^ k /\
            (forall j, lb <= j -> side <= 2 ^ j -> k <= j).
Proof.
  intros lb side Hlb Hs. unfold round_side. cbv zeta.
  rewrite !block_side_pow.
  assert (Hlb2 : 2 ^ lb <= 2 ^ 31) by (apply N.pow_le_mono_r; lia).
  pose proof (pow2_pos lb) as Hlbp.
  set (s := if side <? 2 ^ lb then 2 ^ lb else side).
  assert (Hsl : 2 ^ lb <= s /\ side <= s /\ s <= 2 ^ 31 /\ (s = side \/ s = 2 ^ lb)).
  { subst s. destruct (N.ltb_spec side (2 ^ lb)); lia. }
  destruct Hsl as (H1 & H2 & H3 & H4).
  assert (Hmin : forall j, lb <= j -> side <= 2 ^ j -> s <= 2 ^ j).
  { intros j Hj Hsj. destruct H4 as [-> | ->]; [exact Hsj |].
    apply N.pow_le_mono_r; lia. }
  rewrite u32_pred by lia.
  destruct (N.eqb_spec (N.land s (s - 1)) 0) as [Hz | Hnz]; cbn [negb].
  - destruct (pow2_land s) as [k Hk]; [lia | exact Hz |].
    exists k. split; [exact Hk |]. split.
    + split.
      * apply (N.pow_le_mono_r_iff 2); lia.
      * apply (N.pow_le_mono_r_iff 2); lia.
    + split; [lia |]. intros j Hj Hsj. specialize (Hmin j Hj Hsj).
      apply (N.pow_le_mono_r_iff 2); lia.
  - assert (Hs1 : 1 < s).
    { destruct (N.eq_dec s 1) as [-> | ]; [| lia]. exfalso. apply Hnz. reflexivity. }
    rewrite smear_log2 by lia.
    set (m := N.log2 (s - 1)).
    assert (Hm : 2 ^ m <= s - 1 < 2 ^ N.succ m) by (apply N.log2_spec; lia).
    assert (Hm31 : m < 31) by (apply N.log2_lt_pow2; lia).
    assert (Hle : 2 ^ N.succ m <= 2 ^ 31) by (apply N.pow_le_mono_r; lia).
    pose proof (pow2_pos (N.succ m)) as Hmp.
    replace (2 ^ N.succ m - 1 + 1) with (2 ^ N.succ m) by lia.
    unfold u32. rewrite (N.mod_small (2 ^ N.succ m)) by lia.
    destruct (N.eqb_spec (2 ^ N.succ m) 0) as [Hc | _]; [lia |].
    rewrite N.add_0_r, N.mod_small by lia.
    exists (N.succ m). split; [reflexivity |].
    assert (Hlbm : lb < N.succ m \/ lb = N.succ m).
    { destruct (N.lt_trichotomy lb (N.succ m)) as [H | [H | H]]; auto.
      assert (2 ^ N.succ m <= 2 ^ lb) by (apply N.pow_le_mono_r; lia).
      assert (Hsb : s = 2 ^ lb) by lia.
      exfalso. apply Hnz. rewrite Hsb. apply pow2_land_conv. }
    split; [lia |]. split; [lia |].
    intros j Hj Hsj. specialize (Hmin j Hj Hsj).
    destruct (N.lt_ge_cases j (N.succ m)) as [H | H]; [| lia].
    assert (2 ^ j <= 2 ^ m) by (apply N.pow_le_mono_r; lia). lia.
Qed.

(* ---- the index map ---- *)

Definition flat (lb k x y : N) : N :=
  2 ^ lb * 2 ^ lb * (y / 2 ^ lb * 2 ^ (k - lb) + x / 2 ^ lb)
  + (2 ^ lb * (y mod 2 ^ lb) + x mod 2 ^ lb).

Lemma block_parts : forall lb k x,
  lb <= k -> x < 2 ^ k -> x / 2 ^ lb < 2 ^ (k - lb).
Proof.
  intros lb k x Hk Hx. apply N.div_lt_upper_bound.
  - apply N.pow_nonzero. lia.
  - rewrite <- N.pow_add_r. replace (lb + (k - lb)) with k by lia. exact Hx.
Qed.

Lemma pow_split : forall lb k, lb <= k -> 2 ^ k = 2 ^ lb * 2 ^ (k - lb).
Proof. intros lb k H. rewrite <- N.pow_add_r. f_equal. lia. Qed.

Lemma pow2_sq_pos : forall k, 1 <= 2 ^ k * 2 ^ k.
Proof. intros k. pose proof (pow2_pos k). nia. Qed.

Lemma pow_sq_le : forall k, k <= 15 -> 2 ^ k * 2 ^ k <= 2 ^ 30.
Proof. intros k H. rewrite <- N.pow_add_r. apply N.pow_le_mono_r; lia. Qed.

Lemma digits_lt : forall a b c d, a < c -> b < d -> a * d + b < c * d.
Proof. intros a b c d Ha Hb. nia. Qed.

Lemma flat_lt : forall lb k x y,
  lb <= k -> x < 2 ^ k -> y < 2 ^ k -> flat lb k x y < 2 ^ k * 2 ^ k.
Proof.
  intros lb k x y Hk Hx Hy. unfold flat.
  pose proof (block_parts lb k x Hk Hx) as HX.
  pose proof (block_parts lb k y Hk Hy) as HY.
  assert (Hmx : x mod 2 ^ lb < 2 ^ lb) by (apply N.mod_lt, N.pow_nonzero; lia).
  assert (Hmy : y mod 2 ^ lb < 2 ^ lb) by (apply N.mod_lt, N.pow_nonzero; lia).
  pose proof (pow_split lb k) as E. specialize (E ltac:(assumption)).
  rewrite E.
  set (B := 2 ^ lb) in *. set (C := 2 ^ (k - lb)) in *.
  set (xb := x / B) in *. set (yb := y / B) in *.
  set (xo := x mod B) in *. set (yo := y mod B) in *.
  clearbody xb yb xo yo B C. clear E.
  pose proof (digits_lt yb xb C C HY HX) as H1.
  pose proof (digits_lt yo xo B B Hmy Hmx) as H2.
  pose proof (digits_lt (yb * C + xb) (yo * B + xo) (C * C) (B * B) H1 H2). nia.
Qed.

Lemma digits_inj : forall a b c d e,
  b < e -> d < e -> a * e + b = c * e + d -> a = c /\ b = d.
Proof.
  intros a b c d e Hb Hd H.
  apply N.div_mod_unique with (b := e); try assumption.
  lia.
Qed.

Lemma flat_inj : forall lb k x y x' y',
  lb <= k -> x < 2 ^ k -> y < 2 ^ k -> x' < 2 ^ k -> y' < 2 ^ k ->
  flat lb k x y = flat lb k x' y' -> x = x' /\ y = y'.
Proof.
  intros lb k x y x' y' Hk Hx Hy Hx' Hy'. unfold flat.
  pose proof (block_parts lb k x Hk Hx) as HX.
  pose proof (block_parts lb k y Hk Hy) as HY.
  pose proof (block_parts lb k x' Hk Hx') as HX'.
  pose proof (block_parts lb k y' Hk Hy') as HY'.
  assert (Hz : 2 ^ lb <> 0) by (apply N.pow_nonzero; lia).
  pose proof (N.mod_lt x _ Hz) as Hmx. pose proof (N.mod_lt y _ Hz) as Hmy.
  pose proof (N.mod_lt x' _ Hz) as Hmx'. pose proof (N.mod_lt y' _ Hz) as Hmy'.
  pose proof (N.div_mod x _ Hz) as Dx. pose proof (N.div_mod y _ Hz) as Dy.
  pose proof (N.div_mod x' _ Hz) as Dx'. pose proof (N.div_mod y' _ Hz) as Dy'.
  set (B := 2 ^ lb) in *. set (C := 2 ^ (k - lb)) in *.
  set (xb := x / B) in *. set (yb := y / B) in *.
  set (xo := x mod B) in *. set (yo := y mod B) in *.
  set (xb' := x' / B) in *. set (yb' := y' / B) in *.
  set (xo' := x' mod B) in *. set (yo' := y' mod B) in *.
  clearbody B C xb yb xo yo xb' yb' xo' yo'.
  intros H.
  pose proof (digits_lt yo xo B B Hmy Hmx) as H2.
  pose proof (digits_lt yo' xo' B B Hmy' Hmx') as H2'.
  destruct (digits_inj (yb * C + xb) (yo * B + xo) (yb' * C + xb') (yo' * B + xo')
              (B * B) H2 H2') as [E1 E2]; [nia |].
  destruct (digits_inj _ _ _ _ _ HX HX' E1) as [E3 E4].
  destruct (digits_inj _ _ _ _ _ Hmx Hmx' E2) as [E5 E6].
  subst. split; reflexivity.
Qed.

Lemma shiftr_pow2 : forall lb k, lb <= k -> N.shiftr (2 ^ k) lb = 2 ^ (k - lb).
Proof.
  intros lb k H. rewrite N.shiftr_div_pow2. replace k with ((k - lb) + lb) at 1 by lia.
  rewrite N.pow_add_r. apply N.div_mul, N.pow_nonzero. lia.
Qed.

Lemma land_mask : forall lb x, N.land x (block_mask lb) = x mod 2 ^ lb.
Proof.
  intros lb x. unfold block_mask. rewrite block_side_pow.
  replace (2 ^ lb - 1) with (N.ones lb) by (rewrite N.ones_equiv; lia).
  apply N.land_ones.
Qed.

Lemma index_flat : forall lb k x y,
  lb <= k -> k <= 15 -> x < 2 ^ k -> y < 2 ^ k ->
  index lb (2 ^ (k - lb)) x y = Z.of_N (flat lb k x y).
Proof.
  intros lb k x y Hlb Hk Hx Hy. unfold index. cbv zeta.
  rewrite !land_mask, !block_side_pow, !N.shiftr_div_pow2.
  pose proof (flat_lt lb k x y Hlb Hx Hy) as Hlt. unfold flat in *.
  pose proof (pow_sq_le k ltac:(assumption)) as Hkk.
  pose proof (pow2_sq_pos lb) as Hb1.
  set (P := 2 ^ lb * 2 ^ lb) in *.
  set (Q := y / 2 ^ lb * 2 ^ (k - lb)) in *.
  set (R := x / 2 ^ lb) in *.
  set (D := 2 ^ lb * (y mod 2 ^ lb) + x mod 2 ^ lb) in *.
  clearbody P Q R D.
  assert (HPQ : P * (Q + R) < 2 ^ 30) by lia.
  assert (HQ : Q + R <= P * (Q + R)) by nia.
  unfold u32. rewrite (N.mod_small Q) by lia.
  rewrite (N.mod_small (Q + R)) by lia.
  rewrite (N.mod_small (P * (Q + R))) by lia.
  unfold int32. rewrite (N.mod_small (P * (Q + R))) by lia.
  destruct (N.ltb_spec (P * (Q + R)) (2 ^ 31)) as [_ | Hc]; lia.
Qed.

(* ---- refinement ---- *)

Section Refine.
Context {T : Type} (lb : N) (zero : T).

(* The array has side 2^k. *)
Definition shaped (k : N) (a : arr T) : Prop :=
  arr_blocks a = 2 ^ (k - lb) /\ arr_len a = 2 ^ k * 2 ^ k.

Lemma in_range : forall k a x y,
  lb <= k -> k <= 15 -> shaped k a -> x < 2 ^ k -> y < 2 ^ k ->
  ((0 <=? index lb (arr_blocks a) x y) &&
   (index lb (arr_blocks a) x y <? Z.of_N (arr_len a)))%Z = true.
Proof.
  intros k a x y Hlb Hk [Hb Hl] Hx Hy. rewrite Hb, Hl, index_flat by assumption.
  pose proof (flat_lt lb k x y Hlb Hx Hy). lia.
Qed.

Lemma set_ok : forall k a x y v,
  lb <= k -> k <= 15 -> shaped k a -> x < 2 ^ k -> y < 2 ^ k ->
  exists a', set lb a x y v = Ok a' /\ shaped k a' /\
    get lb a' x y = Ok (Some v) /\
    forall x' y', x' < 2 ^ k -> y' < 2 ^ k -> (x', y') <> (x, y) ->
      get lb a' x' y' = get lb a x' y'.
Proof.
  intros k a x y v Hlb Hk Hsh Hx Hy. unfold set. cbv zeta.
  rewrite (in_range k) by assumption.
  eexists. split; [reflexivity |]. split; [exact Hsh |].
  assert (Hsh' : shaped k (mk_arr (arr_blocks a) (arr_len a)
             (fun j => if (j =? index lb (arr_blocks a) x y)%Z then Some v
                       else arr_cell a j))) by exact Hsh.
  split.
  - unfold get. cbv zeta. rewrite (in_range k) by assumption.
    cbn [arr_cell arr_blocks]. now rewrite Z.eqb_refl.
  - intros x' y' Hx' Hy' Hne. unfold get. cbv zeta.
    rewrite !(in_range k) by assumption. cbn [arr_cell arr_blocks].
    destruct (Z.eqb_spec (index lb (arr_blocks a) x' y') (index lb (arr_blocks a) x y))
      as [He | _]; [| reflexivity].
    exfalso. destruct Hsh as [Hb Hl]. rewrite Hb, !index_flat in He by assumption.
    apply Hne. destruct (flat_inj lb k x' y' x y); try assumption; try lia.
    subst. reflexivity.
Qed.

Lemma zero_len : forall k, lb <= k -> k <= 15 ->
  u32 (u32 (u32 (2 ^ (k - lb) * 2 ^ (k - lb)) * 2 ^ lb) * 2 ^ lb) = 2 ^ k * 2 ^ k.
Proof.
  intros k Hlb Hk. unfold u32.
  pose proof (pow_split lb k) as E. specialize (E ltac:(assumption)).
  pose proof (pow_sq_le k ltac:(assumption)) as Hkk.
  rewrite E in *. pose proof (pow2_pos lb). pose proof (pow2_pos (k - lb)).
  set (B := 2 ^ lb) in *. set (C := 2 ^ (k - lb)) in *. clearbody B C.
  assert (C * C * B * B = B * C * (B * C)) as E2 by ring.
  assert (C * C * B <= C * C * B * B) by nia.
  assert (C * C <= C * C * B) by nia.
  rewrite (N.mod_small (C * C)) by lia.
  rewrite (N.mod_small (C * C * B)) by lia.
  rewrite N.mod_small by lia. exact E2.
Qed.

Lemma zero_ok : forall k a,
  lb <= k -> k <= 15 -> shaped k a ->
  exists a', zero_out lb zero a = Ok a' /\ shaped k a' /\
    forall x y, x < 2 ^ k -> y < 2 ^ k -> get lb a' x y = Ok (Some zero).
Proof.
  intros k a Hlb Hk [Hb Hl]. unfold zero_out. cbv zeta.
  rewrite Hb, block_side_pow, zero_len, Hl by assumption.
  rewrite N.leb_refl. eexists. split; [reflexivity |].
  split; [split; reflexivity |].
  intros x y Hx Hy. unfold get. cbv zeta. cbn [arr_blocks arr_len arr_cell].
  rewrite index_flat by assumption.
  pose proof (flat_lt lb k x y Hlb Hx Hy) as Hf.
  replace ((0 <=? Z.of_N (flat lb k x y)) &&
           (Z.of_N (flat lb k x y) <? Z.of_N (2 ^ k * 2 ^ k)))%Z with true by lia.
  reflexivity.
Qed.

Lemma copy_ok : forall k a,
  lb <= k -> k <= 15 -> shaped k a ->
  exists a', copy lb a = Ok a' /\ shaped k a' /\
    forall x y, x < 2 ^ k -> y < 2 ^ k -> get lb a' x y = get lb a x y.
Proof.
  intros k a Hlb Hk [Hb Hl]. unfold copy. cbv zeta.
  rewrite Hb, block_side_pow, zero_len, Hl by assumption.
  rewrite N.leb_refl. eexists. split; [reflexivity |].
  split; [split; reflexivity |].
  intros x y Hx Hy. unfold get. cbv zeta. cbn [arr_blocks arr_len arr_cell].
  rewrite Hb, Hl. rewrite index_flat by assumption.
  pose proof (flat_lt lb k x y Hlb Hx Hy) as Hf.
  replace ((0 <=? Z.of_N (flat lb k x y)) &&
           (Z.of_N (flat lb k x y) <? Z.of_N (2 ^ k * 2 ^ k)))%Z with true by lia.
  reflexivity.
Qed.

Lemma new_shaped : forall side, lb <= 15 -> side <= 2 ^ 15 ->
  exists k, lb <= k <= 15 /\ side <= 2 ^ k /\ round_side lb side = 2 ^ k /\
            shaped k (new lb side) /\
            forall x y, x < 2 ^ k -> y < 2 ^ k -> get lb (@new T lb side) x y = Ok None.
Proof.
  intros side Hlb Hs.
  destruct (round_side_pow2 lb side) as (k & Hr & Hk & Hsk & Hmin);
    [lia | lia |].
  assert (Hk15 : k <= 15) by (apply Hmin; lia).
  assert (Hsh : shaped k (@new T lb side)).
  { unfold shaped, new. cbv zeta. cbn [arr_blocks arr_len]. rewrite Hr.
    rewrite shiftr_pow2 by lia. split; reflexivity. }
  exists k. repeat split; try assumption; try lia; try apply Hsh.
  intros x y Hx Hy. unfold get. cbv zeta. rewrite (in_range k) by (assumption || lia).
  reflexivity.
Qed.

End Refine.

Lemma run_refines : forall T lb (zero : T) k os a (f : N -> N -> option T),
  lb <= k -> k <= 15 -> shaped lb k a -> Forall (op_below (2 ^ k)) os ->
  (forall x y, x < 2 ^ k -> y < 2 ^ k -> get lb a x y = Ok (f x y)) ->
  exists a', run lb zero a os = Ok a' /\ shaped lb k a' /\
    forall x y, x < 2 ^ k -> y < 2 ^ k ->
      get lb a' x y = Ok (last_write zero os x y (f x y)).
Proof.
  intros T lb zero k os. induction os as [| o os IH]; intros a f Hlb Hk Hsh Hall Hget.
  - exists a. cbn [run last_write]. auto.
  - inversion Hall as [| o' os' Ho Hos]; subst. cbn [run].
    destruct o as [x0 y0 v |]; cbn [step last_write].
    + destruct Ho as [Hx0 Hy0].
      destruct (set_ok lb k a x0 y0 v) as (a' & E & Hsh' & Hg & Hg'); try assumption.
      rewrite E. cbn [bind].
      destruct (IH a' (fun x y => if (x =? x0) && (y =? y0) then Some v else f x y))
        as (a2 & E2 & Hsh2 & Hg2); try assumption.
      * intros x y Hx Hy.
        destruct (N.eqb_spec x x0) as [-> | Hx1]; destruct (N.eqb_spec y y0) as [-> | Hy1];
          cbn [andb]; try exact Hg; rewrite Hg'; auto; congruence.
      * exists a2. auto.
    + destruct (zero_ok lb zero k a) as (a' & E & Hsh' & Hg); try assumption.
      rewrite E. cbn [bind].
      destruct (IH a' (fun _ _ => Some zero)) as (a2 & E2 & Hsh2 & Hg2); try assumption.
      exists a2. auto.
Qed.

Lemma array2d_refines_lemma : forall T lb (zero : T) side os,
  lb <= 15 -> side <= 2 ^ 15 ->
  Forall (op_below (round_side lb side)) os ->
  exists a, run lb zero (new lb side) os = Ok a /\
    forall x y, x < round_side lb side -> y < round_side lb side ->
      get lb a x y = Ok (last_write zero os x y None).
Proof.
  intros T lb zero side os Hlb Hs Hall.
  destruct (new_shaped (T := T) lb side Hlb Hs) as (k & Hk & Hsk & Hr & Hsh & Hg).
  rewrite Hr in *.
  destruct (run_refines T lb zero k os (new lb side) (fun _ _ => None))
    as (a & E & _ & Hg2); try assumption; try lia.
  exists a. auto.
Qed.

(* copy of a reachable array *)
Lemma array2d_copy_lemma : forall T lb (zero : T) side os a,
  lb <= 15 -> side <= 2 ^ 15 ->
  Forall (op_below (round_side lb side)) os ->
  run lb zero (new lb side) os = Ok a ->
  exists a', copy lb a = Ok a' /\
    forall os', Forall (op_below (round_side lb side)) os' ->
    exists b, run lb zero a' os' = Ok b /\
    forall x y, x < round_side lb side -> y < round_side lb side ->
      get lb b x y = Ok (last_write zero (os ++ os') x y None).
Proof.
  intros T lb zero side os a Hlb Hs Hall Hrun.
  destruct (new_shaped (T := T) lb side Hlb Hs) as (k & Hk & Hsk & Hr & Hsh & Hg).
  rewrite Hr in *.
  destruct (run_refines T lb zero k os (new lb side) (fun _ _ => None))
    as (a1 & E & Hsh1 & Hg2); try assumption; try lia.
  rewrite Hrun in E. injection E as <-.
  destruct (copy_ok lb k a) as (a' & Ec & Hshc & Hgc); try assumption; try lia.
  exists a'. split; [exact Ec |]. intros os' Hall'.
  destruct (run_refines T lb zero k os' a' (fun x y => last_write zero os x y None))
    as (b & Eb & _ & Hgb); try assumption; try lia.
  - intros x y Hx Hy. rewrite Hgc by assumption. auto.
  - exists b. split; [exact Eb |]. intros x y Hx Hy. rewrite Hgb by assumption.
    f_equal. generalize (@None T). clear.
    induction os as [| o os IH]; intros acc; [reflexivity |].
    destruct o as [x0 y0 v |]; cbn [last_write app]; apply IH.
Qed.

(* ---- constructor from values ---- *)

Lemma fill_row_ok : forall T lb k (values : list T) old y xs a,
  lb <= k -> k <= 15 -> shaped lb k a -> y < 2 ^ k -> old <= 2 ^ k ->
  (N.to_nat (old * old) <= length values)%nat -> y < old ->
  Forall (fun x => x < old) xs ->
  exists a', fill_row lb values old y xs a = Ok a' /\ shaped lb k a' /\
    forall x' y', x' < 2 ^ k -> y' < 2 ^ k ->
      get lb a' x' y' =
      if (y' =? y) && existsb (N.eqb x') xs
      then Ok (nth_error values (N.to_nat (y' * old + x'))) else get lb a x' y'.
Proof.
  intros T lb k values old y xs. induction xs as [| x xs IH];
    intros a Hlb Hk Hsh Hy Hold Hlen Hyo Hall.
  - exists a. cbn [fill_row existsb]. split; [reflexivity |]. split; [exact Hsh |].
    intros x' y' _ _. now rewrite andb_false_r.
  - inversion Hall as [| x0 xs0 Hx Hxs]; subst. cbn [fill_row].
    destruct (nth_error values (N.to_nat (y * old + x))) as [v |] eqn:Ev.
    2: { apply nth_error_None in Ev. nia. }
    destruct (set_ok lb k a x y v) as (a1 & E1 & Hsh1 & Hg1 & Hg1'); try assumption; try lia.
    rewrite E1. cbn [bind].
    destruct (IH a1) as (a2 & E2 & Hsh2 & Hg2); try assumption.
    exists a2. split; [exact E2 |]. split; [exact Hsh2 |].
    intros x' y' Hx' Hy'. rewrite Hg2 by assumption. cbn [existsb].
    destruct (N.eqb_spec y' y) as [-> | Hny]; cbn [andb].
    + destruct (N.eqb_spec x' x) as [-> | Hnx]; cbn [orb].
      * destruct (existsb (N.eqb x) xs); [reflexivity |]. now rewrite Hg1, Ev.
      * destruct (existsb (N.eqb x') xs); [reflexivity |]. apply Hg1'; auto. congruence.
    + apply Hg1'; auto. congruence.
Qed.

Lemma fill_rows_ok : forall T lb k (values : list T) old ys a,
  lb <= k -> k <= 15 -> shaped lb k a -> old <= 2 ^ k ->
  (N.to_nat (old * old) <= length values)%nat ->
  Forall (fun y => y < old) ys ->
  exists a', fill_rows lb values old ys a = Ok a' /\ shaped lb k a' /\
    forall x' y', x' < 2 ^ k -> y' < 2 ^ k ->
      get lb a' x' y' =
      if existsb (N.eqb y') ys && (x' <? old)
      then Ok (nth_error values (N.to_nat (y' * old + x'))) else get lb a x' y'.
Proof.
  intros T lb k values old ys. induction ys as [| y ys IH];
    intros a Hlb Hk Hsh Hold Hlen Hall.
  - exists a. cbn [fill_rows existsb andb]. auto.
  - inversion Hall as [| y0 ys0 Hy Hys]; subst. cbn [fill_rows].
    set (xs := map N.of_nat (seq 0 (N.to_nat old))).
    assert (Hxs : forall x, existsb (N.eqb x) xs = (x <? old)).
    { intros x. apply eq_iff_eq_true. rewrite existsb_exists, N.ltb_lt. unfold xs. split.
      - intros [z [Hin Hz]]. apply in_map_iff in Hin. destruct Hin as [n [Hn Hin]].
        apply in_seq in Hin. apply N.eqb_eq in Hz. lia.
      - intros Hlt. exists x. split; [| apply N.eqb_refl].
        apply in_map_iff. exists (N.to_nat x). split; [lia |]. apply in_seq. lia. }
    assert (Hfx : Forall (fun x => x < old) xs).
    { apply Forall_forall. intros x Hin. apply N.ltb_lt. rewrite <- Hxs.
      apply existsb_exists. exists x. split; [exact Hin | apply N.eqb_refl]. }
    destruct (fill_row_ok T lb k values old y xs a) as (a1 & E1 & Hsh1 & Hg1);
      try assumption; try lia.
    rewrite E1. cbn [bind].
    destruct (IH a1) as (a2 & E2 & Hsh2 & Hg2); try assumption.
    exists a2. split; [exact E2 |]. split; [exact Hsh2 |].
    intros x' y' Hx' Hy'. rewrite Hg2, Hg1, Hxs by assumption. cbn [existsb].
    destruct (N.eqb_spec y' y) as [-> | Hny]; cbn [andb orb].
    + destruct (existsb (N.eqb y) ys); cbn [andb]; destruct (x' <? old); reflexivity.
    + reflexivity.
Qed.

Lemma array2d_from_values_lemma : forall T lb (values : list T) side,
  lb <= 15 -> side <= 2 ^ 15 -> length values = N.to_nat (side * side) ->
  exists a, new_from lb values side = Ok a /\
    forall x y, x < round_side lb side -> y < round_side lb side ->
      get lb a x y =
      Ok (if (x <? side) && (y <? side) then nth_error values (N.to_nat (y * side + x))
          else None).
Proof.
  intros T lb values side Hlb Hs Hlen.
  destruct (new_shaped (T := T) lb side Hlb Hs) as (k & Hk & Hsk & Hr & Hsh & Hg).
  rewrite Hr in *. unfold new_from.
  set (ys := map N.of_nat (seq 0 (N.to_nat side))).
  assert (Hys : forall x, existsb (N.eqb x) ys = (x <? side)).
  { intros x. apply eq_iff_eq_true. rewrite existsb_exists, N.ltb_lt. unfold ys. split.
    - intros [z [Hin Hz]]. apply in_map_iff in Hin. destruct Hin as [n [Hn Hin]].
      apply in_seq in Hin. apply N.eqb_eq in Hz. lia.
    - intros Hlt. exists x. split; [| apply N.eqb_refl].
      apply in_map_iff. exists (N.to_nat x). split; [lia |]. apply in_seq. lia. }
  assert (Hfy : Forall (fun x => x < side) ys).
  { apply Forall_forall. intros x Hin. apply N.ltb_lt. rewrite <- Hys.
    apply existsb_exists. exists x. split; [exact Hin | apply N.eqb_refl]. }
  destruct (fill_rows_ok T lb k values side ys (new lb side)) as (a & E & _ & Hga);
    try assumption; try lia.
  exists a. split; [exact E |]. intros x y Hx Hy.
  rewrite Hga, Hys by assumption. rewrite andb_comm.
  destruct ((x <? side) && (y <? side)); [reflexivity | now apply Hg].
Qed.

(* ---- what happens beyond ---- *)

Lemma side_65536_ub_lemma :
  round_side LOG_BS 65536 = 65536 /\
  get LOG_BS (@new N LOG_BS 65536) 0 40000 = UB.
Proof. split; vm_compute; reflexivity. Qed.

(* zero_out clears nothing at all for side 65536 *)
Lemma zero_65536_lemma :
  exists a, zero_out LOG_BS 0 (@new N LOG_BS 65536) = Ok a /\
            get LOG_BS a 0 0 = Ok None.
Proof. eexists. split; vm_compute; reflexivity. Qed.

Lemma round_side_huge_lemma : forall side,
  2 ^ 31 < side -> side < 2 ^ 32 -> round_side LOG_BS side = 1.
Proof.
  intros side H1 H2. unfold round_side. cbv zeta. rewrite block_side_pow.
  change (2 ^ LOG_BS) with 32.
  destruct (N.ltb_spec side 32) as [Hc | _]; [lia |].
  rewrite u32_pred by lia.
  destruct (N.eqb_spec (N.land side (side - 1)) 0) as [Hz | Hnz]; cbn [negb].
  - destruct (pow2_land side) as [k Hk]; [lia | exact Hz |].
    assert (k < 32) by (apply (N.pow_lt_mono_r_iff 2); lia).
    assert (31 < k) by (apply (N.pow_lt_mono_r_iff 2); lia). lia.
  - rewrite smear_log2 by lia.
    replace (N.log2 (side - 1)) with 31; [reflexivity |].
    symmetry. apply N.log2_unique; [lia |]. split; lia.
Qed.
