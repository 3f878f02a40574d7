(* Theorems about FltModel: sums in a pixel, and the choice of a light and of a face. *)
From Coq Require Import ZArith Reals Lra Lia List Sorted.
From Flocq Require Import Core.Core IEEE754.BinarySingleNaN.
From Verif Require Import Common FltModel FltFacts FltProps.
Import ListNotations.
Local Open Scope R_scope.

Lemma nan_add : forall x y : f32, is_nan x = true -> is_nan (fadd x y) = true.
Proof. intros [ | | | ] y N; try discriminate; reflexivity. Qed.
Lemma nan_add_r : forall x y : f32, is_nan y = true -> is_nan (fadd x y) = true.
Proof. intros [ | | | ] [ | | | ] N; try discriminate; reflexivity. Qed.
Lemma nan_mul : forall x y : f32, is_nan x = true -> is_nan (fmul x y) = true.
Proof. intros [ | | | ] y N; try discriminate; reflexivity. Qed.
Lemma nan_nonneg : forall x : f32, is_nan x = true -> is_nan (f_nonneg x) = true.
Proof. intros [ | | | ] N; try discriminate; reflexivity. Qed.
Lemma nan_gt : forall x y : f32, is_nan x = true -> fgt x y = false.
Proof. intros [ | | | ] [ | | | ] N; try discriminate; reflexivity. Qed.
Lemma nan_transfer : forall power cut slope x, is_nan x = true -> is_nan (f_transfer power cut slope x) = true.
Proof. intros power cut slope x N; unfold f_transfer; rewrite nan_gt by exact N; apply nan_mul, N. Qed.
Lemma nan_byte : forall x, is_nan x = true -> f_byte x = Ok 255%Z.
Proof. intros x N; destruct (float_byte x) as (b & E & _ & B & _); rewrite E, (B N); reflexivity. Qed.

(* C314: one undefined sample *)
Theorem float_undefined_sample_refuted : forall power cut slope rows p before c w after,
  is_nan (c_r c) = true \/ is_nan (c_g c) = true \/ is_nan (c_b c) = true ->
  let q := fold_left f_accumulate (before ++ (c, w) :: after) p in
  fgt (p_n q) fzero = true -> f_save power cut slope rows q = Ok (255, 255, 255)%Z.
Proof.
  intros power cut slope [[m0 m1] m2] p before c w after N q W.
  assert (Q : is_nan (p_x q) = true \/ is_nan (p_y q) = true \/ is_nan (p_z q) = true).
  { unfold q; clear W q; rewrite fold_left_app; cbn [fold_left]; set (p0 := fold_left f_accumulate before p); clearbody p0.
    assert (I : is_nan (p_x (f_accumulate p0 (c, w))) = true \/ is_nan (p_y (f_accumulate p0 (c, w))) = true \/
                is_nan (p_z (f_accumulate p0 (c, w))) = true).
    { cbn [f_accumulate p_x p_y p_z]; destruct N as [N | [N | N]]; [left | right; left | right; right];
        apply nan_add_r, nan_mul, nan_nonneg, N. }
    revert I; generalize (f_accumulate p0 (c, w)); induction after as [| [c' w'] after IH]; intros p1 I; [exact I |].
    cbn [fold_left]; apply IH; cbn [f_accumulate p_x p_y p_z]; destruct I as [I | [I | I]]; [left | right; left | right; right];
      apply nan_add, I. }
  assert (R : forall m x y z, is_nan x = true \/ is_nan y = true \/ is_nan z = true -> is_nan (f_row m x y z) = true).
  { intros [[a b] d] x y z [K | [K | K]]; unfold f_row; [apply nan_add, nan_add, nan_mul, K | apply nan_add, nan_add_r, nan_mul, K | apply nan_add_r, nan_mul, K]. }
  unfold f_save; rewrite W; cbv zeta; set (v := fdiv fone (p_n q)).
  assert (S : is_nan (fmul (p_x q) v) = true \/ is_nan (fmul (p_y q) v) = true \/ is_nan (fmul (p_z q) v) = true).
  { destruct Q as [Q | [Q | Q]]; [left | right; left | right; right]; apply nan_mul, Q. }
  rewrite !nan_byte by (apply nan_transfer, R, S); reflexivity.
Qed.
Print Assumptions float_undefined_sample_refuted.
(* a white sample over a black pixel with nine samples, with one undefined *)
Example float_undefined_sample_ex : let c0 := mk_fcolor fzero fzero fzero in
  let bad := mk_fcolor (fdiv fzero fzero) fzero fzero in
  let q := fold_left f_accumulate (repeat (c0, fone) 8 ++ (bad, fone) :: nil) (mk_fpixel fzero fzero fzero fzero) in
  fgt (p_n q) fzero = true /\ is_nan (c_r bad) = true.
Proof. split; vm_compute; reflexivity. Qed.

(* C315: the weights of the box filter count the samples, up to 2^24 *)
Theorem float_weight_counts : forall samples p,
  Forall (fun s : fcolor * f32 => snd s = fone) samples -> p_n p = fzero ->
  val (p_n (fold_left f_accumulate samples p)) = IZR (Z.min (Z.of_nat (length samples)) (2 ^ 24)).
Proof.
  assert (T : rnd (IZR (2 ^ 24) + 1) = IZR (2 ^ 24)).
  { destruct (of_Z_val 16777217) as [_ V]; [lia |]; change (IZR (2 ^ 24)) with 16777216; replace (16777216 + 1) with (IZR 16777217) by lra.
    rewrite <- V, (lit_val _ 8388608 1) by (vm_compute; reflexivity); cbn; lra. }
  assert (G : forall samples p n, Forall (fun s : fcolor * f32 => snd s = fone) samples -> fin (p_n p) -> (0 <= n <= 2 ^ 24)%Z ->
    val (p_n p) = IZR n -> val (p_n (fold_left f_accumulate samples p)) = IZR (Z.min (n + Z.of_nat (length samples)) (2 ^ 24))).
  { induction samples as [| [c w] samples IH]; intros p n A F N V.
    - cbn [fold_left length Z.of_nat]; rewrite V; f_equal; lia.
    - inversion A as [| ? ? W A']; subst; cbn [snd] in W; subst w; destruct fone_val as [F1 V1].
      assert (NR : 0 <= IZR n <= IZR (2 ^ 24)) by (split; [apply (IZR_le 0); lia | apply IZR_le; lia]).
      destruct (fadd_val (p_n p) fone F F1) as [F' V'].
      { rewrite V, V1; apply (big (2 ^ 25)); [lia |]; apply abs_bounds; change (IZR (2 ^ 25)) with 33554432; change (IZR (2 ^ 24)) with 16777216 in NR; lra. }
      rewrite V, V1 in V'; cbn [fold_left length].
      destruct (Z.eq_dec n (2 ^ 24)) as [-> | E].
      + rewrite (IH _ (2 ^ 24)%Z A'); [f_equal; lia | exact F' | lia |]; cbn [f_accumulate p_n]; rewrite V'; exact T.
      + rewrite (IH _ (n + 1)%Z A'); [f_equal; lia | exact F' | lia |]; cbn [f_accumulate p_n].
        rewrite V', plus_IZR; apply rnd_fits; rewrite <- (plus_IZR n 1); apply fits_Z; lia. }
  intros samples p A Z; destruct fzero_val as [F V]; rewrite (G samples p 0%Z A); [reflexivity | rewrite Z; exact F | lia | rewrite Z; exact V].
Qed.
Print Assumptions float_weight_counts.
Example float_weight_counts_ex : B2SF (p_n (fold_left f_accumulate (repeat (mk_fcolor fone fzero fone, fone) 100) (mk_fpixel fzero fzero fzero fzero))) = B2SF (of_Z 100).
Proof. vm_compute; reflexivity. Qed.

(* C316: the chosen light exists, and is the one whose share of [0,1) the number is in *)
Theorem float_light : forall r n, fin r -> 0 <= val r <= 1 -> (1 <= n <= 2 ^ 20)%Z ->
  exists i, f_light r n = Ok i /\ (0 <= i < n)%Z /\ IZR i - / 8 <= IZR n * val r <= IZR i + 1 + / 8.
Proof.
  intros r n F B N; destruct (of_Z_exact n) as [FN VN]; [lia |].
  assert (NR : 1 <= IZR n <= 1048576) by (split; [apply (IZR_le 1); lia | apply (IZR_le n 1048576); lia]).
  assert (P : 0 <= val r * IZR n <= IZR n).
  { split; [apply Rmult_le_pos; lra |]; rewrite <- (Rmult_1_l (IZR n)) at 2; apply Rmult_le_compat_r; lra. }
  destruct (fmul_val r (of_Z n) F FN) as [FM VM].
  { rewrite VN; apply (big (2 ^ 20)); [lia |]; apply abs_bounds; change (IZR (2 ^ 20)) with 1048576; lra. }
  rewrite VN in VM; assert (Q : 0 <= rnd (val r * IZR n) <= IZR n) by (apply rnd_between; [apply fits_0 | apply fits_Z; lia | exact P]).
  assert (T : Ztrunc (val (fmul r (of_Z n))) = Zfloor (rnd (val r * IZR n))) by (rewrite VM; apply Ztrunc_floor, Q).
  set (k := rnd (val r * IZR n)) in *.
  assert (K : (0 <= Zfloor k <= n)%Z) by (split; [apply Zfloor_lub, Q | apply le_IZR, Rle_trans with k; [apply Zfloor_lb | apply Q]]).
  exists (Z.min (Zfloor k) (n - 1)); split.
  { unfold f_light, to_int; rewrite to_range_ok; [cbn [bind]; rewrite T; reflexivity | exact FM | rewrite T; lia]. }
  split; [lia |].
  pose proof (err (val r * IZR n)) as E; rewrite (Rabs_pos_eq (val r * IZR n)) in E by lra; fold k in E; apply abs_bounds in E; unfold u24 in E.
  pose proof (Zfloor_lb k); pose proof (Zfloor_ub k).
  destruct (Z.le_gt_cases (Zfloor k) (n - 1)) as [L | L].
  - rewrite Z.min_l by exact L; lra.
  - rewrite Z.min_r by lia; rewrite minus_IZR; assert (IZR n <= IZR (Zfloor k)) by (apply IZR_le; lia); lra.
Qed.
Print Assumptions float_light.
(* a random number of 1, the largest word *)
Example float_light_ex : f_light (f_rand (2 ^ 32 - 1)) 5 = Ok 4%Z /\ f_light (f_rand (2 ^ 31)) 5 = Ok 2%Z.
Proof. split; vm_compute; reflexivity. Qed.

(* ----- faces ----- *)

Lemma pick_val : forall r t, fin r -> 0 <= val r <= 1 -> fin t -> 0 <= val t <= bpow radix2 127 ->
  fin (f_pick r t) /\ val (f_pick r t) = rnd (val r * val t) /\ 0 <= rnd (val r * val t) <= val t.
Proof.
  intros r t FR BR FT BT; destruct fone_val as [F1 V1]; destruct fzero_val as [F0 V0].
  destruct (fsub_val fone r F1 FR) as [FS VS].
  { rewrite V1; apply (big 2); [lia |]; apply abs_bounds; lra. }
  destruct (fmul_val (fsub fone r) fzero FS F0) as [FM VM].
  { rewrite V0, Rmult_0_r; apply (big 2); [lia |]; apply abs_bounds; lra. }
  rewrite V0, Rmult_0_r, (rnd_fits 0 fits_0) in VM.
  assert (P : 0 <= val r * val t <= val t).
  { split; [apply Rmult_le_pos; lra |]; rewrite <- (Rmult_1_l (val t)) at 2; apply Rmult_le_compat_r; lra. }
  destruct (fmul_val r t FR FT) as [FX VX].
  { rewrite Rabs_pos_eq by lra; lra. }
  assert (Q : 0 <= rnd (val r * val t) <= val t) by (apply rnd_between; [apply fits_0 | apply fits_val | exact P]).
  destruct (fadd_val (fmul (fsub fone r) fzero) (fmul r t) FM FX) as [FA VA].
  { rewrite VM, Rplus_0_l, VX, Rabs_pos_eq by lra; lra. }
  rewrite VM, Rplus_0_l, VX, (rnd_fits _ (fits_rnd _)) in VA; split; [exact FA |]; split; [exact VA | exact Q].
Qed.

Lemma densities_length : forall areas s, length (f_densities s areas) = length areas.
Proof. induction areas as [| a areas IH]; intro s; [reflexivity |]; cbn; f_equal; apply IH. Qed.

(* C317: the cumulative areas never decrease *)
Theorem float_densities_sorted : forall areas,
  Forall (fun a => fin a /\ 0 <= val a) areas -> Forall fin (f_densities fzero areas) ->
  StronglySorted Rle (map val (f_densities fzero areas)) /\ Forall (fun d => 0 <= val d) (f_densities fzero areas).
Proof.
  assert (G : forall areas s, fin s -> Forall (fun a => fin a /\ 0 <= val a) areas -> Forall fin (f_densities s areas) ->
    StronglySorted Rle (map val (f_densities s areas)) /\ Forall (fun d => val s <= val d) (f_densities s areas)).
  { induction areas as [| a areas IH]; intros s FS A D; [split; constructor |].
    inversion A as [| ? ? [FA PA] A']; subst; cbn [f_densities] in D; cbv zeta in D; inversion D as [| ? ? FD D']; subst.
    assert (L : val s <= val (fadd s a)).
    { rewrite fadd_fin by assumption; rewrite <- (rnd_fits (val s)) at 1 by apply fits_val; apply rnd_le; lra. }
    destruct (IH (fadd s a) FD A' D') as [S M]; cbn [f_densities map]; cbv zeta; split.
    - constructor; [exact S |]; rewrite Forall_map; exact M.
    - constructor; [exact L |]; apply Forall_impl with (2 := M); intros d; lra. }
  intros areas A D; destruct fzero_val as [F V]; destruct (G areas fzero F A D) as [S M]; split; [exact S |]; rewrite V in M; exact M.
Qed.
Print Assumptions float_densities_sorted.
Example float_densities_sorted_ex : map (fun d => B2SF d) (f_densities fzero [of_Z 3; fnum 1 (-1); of_Z 4]) = map (fun d => B2SF d) [of_Z 3; fnum 7 (-1); fnum 15 (-1)].
Proof. vm_compute; reflexivity. Qed.

Lemma get_nth : forall d i, (0 <= i < Z.of_nat (length d))%Z -> exists x, f_get d i = Ok x /\ nth_error d (Z.to_nat i) = Some x.
Proof.
  intros d i I; unfold f_get; destruct (Z.ltb_spec i 0); [lia |].
  destruct (nth_error d (Z.to_nat i)) as [x |] eqn:E; [exists x; auto |]; apply nth_error_None in E; lia.
Qed.

Lemma fin_nth : forall d i x, Forall fin d -> nth_error d i = Some x -> fin x.
Proof. intros d i x F E; rewrite Forall_forall in F; apply F, (nth_error_In _ _ E). Qed.

(* the search ends between two densities around the sample *)
Lemma search_ends : forall d x, Forall fin d -> fin x -> forall fuel start end_ ds de,
  (0 <= start < end_)%Z -> (end_ < Z.of_nat (length d))%Z -> (end_ - start <= Z.of_nat fuel)%Z ->
  f_get d start = Ok ds -> f_get d end_ = Ok de -> val ds <= val x < val de ->
  exists k dk dn, f_search fuel d x start end_ = Ok k /\ (start <= k < end_)%Z /\
    f_get d k = Ok dk /\ f_get d (k + 1) = Ok dn /\ val dk <= val x < val dn.
Proof.
  intros d x FD FX; induction fuel as [| fuel IH]; intros start end_ ds de S E FU GS GE B; [lia |].
  cbn [f_search]; set (mid := ((start + end_) / 2)%Z).
  assert (M : (start <= mid < end_)%Z).
  { unfold mid; split; [apply Z.div_le_lower_bound; lia | apply Z.div_lt_upper_bound; lia]. }
  destruct (get_nth d mid) as (dm & GM & NM); [lia |]; destruct (get_nth d (mid + 1)) as (dn & GN & NN); [lia |].
  pose proof (fin_nth _ _ _ FD NM) as FM; pose proof (fin_nth _ _ _ FD NN) as FN.
  rewrite GM; cbn [bind]; unfold fgt; fold (flt x dm); fold (flt x dn).
  destruct (fle dm x) eqn:LE.
  - rewrite GN; cbn [bind]; apply fle_val in LE; [| exact FM | exact FX].
    unfold fgt; fold (flt x dn); destruct (flt x dn) eqn:LT.
    + apply flt_val in LT; [| exact FX | exact FN]; exists mid, dm, dn; split; [reflexivity |]; repeat (split; [assumption |]); assumption.
    + assert (N : flt x dm = false).
      { destruct (flt x dm) eqn:K; [| reflexivity]; apply flt_val in K; [lra | exact FX | exact FM]. }
      rewrite N; destruct (IH mid end_ dm de) as (k & dk & dn' & R); try assumption; try lia.
      * destruct (Z.eq_dec mid start) as [Q | Q]; [exfalso | lia].
        assert (Q2 : (mid + 1 = end_)%Z).
        { assert (end_ <= start + 1 \/ start + 2 <= end_)%Z as [? | ?] by lia; [lia |].
          assert (start + 1 <= mid)%Z by (unfold mid; apply Z.div_le_lower_bound; lia); lia. }
        rewrite Q2, GE in GN; injection GN as <-.
        assert (flt x de = true) by (apply flt_val; [exact FX | exact FN | apply B]); congruence.
      * lra.
      * exists k, dk, dn'; destruct R as (R1 & R2 & R3); split; [exact R1 |]; split; [lia | exact R3].
  - cbn [bind].
    assert (LT : val x < val dm).
    { apply Rnot_le_lt; intro K; assert (fle dm x = true) by (apply fle_val; assumption); congruence. }
    assert (T : flt x dm = true) by (apply flt_val; assumption); rewrite T.
    destruct (Z.eq_dec mid start) as [Q | Q].
    { rewrite Q, GS in GM; injection GM as <-; lra. }
    destruct (IH start mid ds dm) as (k & dk & dn' & R1 & R2 & R3); try assumption; try lia; [lra |].
    exists k, dk, dn'; split; [exact R1 |]; split; [lia | exact R3].
Qed.

(* C318: a face is found for every random number if the last face adds to the sum *)
Theorem float_face_found : forall areas r0 a n fuel,
  Forall (fun a => fin a /\ 0 <= val a) (areas ++ [a]) -> areas <> [] ->
  let d := f_densities fzero (areas ++ [a]) in
  Forall (fun x => fin x /\ val x <= bpow radix2 127) d ->
  length areas = n -> (exists u v, nth_error d (n - 1) = Some u /\ nth_error d n = Some v /\ val u < val v) ->
  fin r0 -> 0 <= val r0 <= 1 -> (n <= fuel)%nat ->
  exists k, f_sample_face fuel d r0 = Ok k /\ (0 <= k <= Z.of_nat n)%Z.
Proof.
  intros areas r0 a n fuel A NE d D LN (u & v & NU & NV & UV) FR BR FU.
  assert (FD : Forall fin d) by (apply Forall_impl with (2 := D); intros x H; apply H).
  destruct (float_densities_sorted (areas ++ [a]) A FD) as [_ POS]; fold d in POS.
  assert (LD : length d = S n) by (unfold d; rewrite densities_length, app_length; cbn; lia).
  assert (N1 : (1 <= n)%nat) by (subst n; destruct areas; [congruence | cbn; lia]).
  unfold f_sample_face; rewrite LD; replace (Z.of_nat (S n) - 1)%Z with (Z.of_nat n) by lia.
  assert (GV : f_get d (Z.of_nat n) = Ok v) by (unfold f_get; destruct (Z.ltb_spec (Z.of_nat n) 0); [lia |]; rewrite Nat2Z.id, NV; reflexivity).
  assert (GU : f_get d (Z.of_nat n - 1) = Ok u).
  { unfold f_get; destruct (Z.ltb_spec (Z.of_nat n - 1) 0); [lia |]; replace (Z.to_nat (Z.of_nat n - 1)) with (n - 1)%nat by lia; rewrite NU; reflexivity. }
  rewrite GV; cbn [bind].
  assert (VB : 0 <= val v <= bpow radix2 127).
  { split; [rewrite Forall_forall in POS; apply POS, (nth_error_In _ _ NV) | rewrite Forall_forall in D; apply (D v), (nth_error_In _ _ NV)]. }
  pose proof (fin_nth _ _ _ FD NV) as FV; pose proof (fin_nth _ _ _ FD NU) as FUu.
  destruct (pick_val r0 v FR BR FV VB) as (FX & VX & BX); set (x := f_pick r0 v) in *.
  destruct (get_nth d 0) as (d0 & G0 & N0); [lia |]; pose proof (fin_nth _ _ _ FD N0) as F0.
  rewrite G0; cbn [bind]; destruct (flt x d0) eqn:E0; [exists 0%Z; split; [reflexivity | lia] |].
  rewrite GU; cbn [bind]; unfold fgt; fold (flt u x); destruct (flt u x) eqn:E1; [exists (Z.of_nat n); split; [reflexivity | lia] |].
  destruct (search_ends d x FD FX fuel 0 (Z.of_nat n) d0 v) as (k & dk & dn & R1 & R2 & _); try assumption; try lia.
  { split.
    - apply Rnot_lt_le; intro K; assert (flt x d0 = true) by (apply flt_val; assumption); congruence.
    - apply Rle_lt_trans with (val u); [| exact UV]; apply Rnot_lt_le; intro K; assert (flt u x = true) by (apply flt_val; assumption); congruence. }
  exists k; split; [exact R1 | lia].
Qed.
Print Assumptions float_face_found.
Example float_face_found_ex : f_sample_face 4 (f_densities fzero [of_Z 3; fnum 1 (-1); of_Z 4]) (f_rand (2 ^ 32 - 1)) = Ok 2%Z.
Proof. vm_compute; reflexivity. Qed.

(* no density above the sample: the search does not end *)
Lemma search_lost : forall d x, Forall (fun y => fin y /\ val y <= val x) d -> fin x -> forall fuel start end_,
  (0 <= start <= end_)%Z -> (end_ + 1 = Z.of_nat (length d))%Z -> (start < end_)%Z -> f_search fuel d x start end_ = OutOfFuel.
Proof.
  intros d x D FX; induction fuel as [| fuel IH]; intros start end_ S E L; [reflexivity |].
  cbn [f_search]; set (mid := ((start + end_) / 2)%Z).
  assert (M : (start <= mid < end_)%Z).
  { unfold mid; split; [apply Z.div_le_lower_bound; lia | apply Z.div_lt_upper_bound; lia]. }
  destruct (get_nth d mid) as (dm & GM & NM); [lia |]; destruct (get_nth d (mid + 1)) as (dn & GN & NN); [lia |].
  rewrite Forall_forall in D; destruct (D dm (nth_error_In _ _ NM)) as [FM LM]; destruct (D dn (nth_error_In _ _ NN)) as [FN LN].
  assert (T : fle dm x = true) by (apply fle_val; assumption).
  assert (N : forall y, fin y -> val y <= val x -> flt x y = false).
  { intros y FY LY; destruct (flt x y) eqn:K; [| reflexivity]; apply flt_val in K; [lra | exact FX | exact FY]. }
  rewrite GM; cbn [bind]; rewrite T, GN; cbn [bind]; unfold fgt; fold (flt x dm); fold (flt x dn).
  rewrite (N dn FN LN), (N dm FM LM); apply IH; lia.
Qed.

(* adding less than a 2^25th of a number leaves it as it is *)
Lemma absorbed : forall s a, fits s -> 0 <= a -> 0 <= s -> a * 33554432 < s -> rnd (s + a) = s.
Proof.
  intros s a F A S L; apply Rle_antisym; [| rewrite <- (rnd_fits s F) at 1; apply rnd_le; lra].
  apply round_N_le_midp; auto with typeclass_instances.
  rewrite succ_eq_pos by exact S; assert (SP : 0 < s) by lra.
  assert (U : s <= 16777216 * ulp radix2 (FLT_exp (-149) 24) s).
  { rewrite ulp_neq_0 by lra; unfold cexp; set (m := mag radix2 s : Z).
    assert (B : s <= bpow radix2 m) by (pose proof (bpow_mag_gt radix2 s) as K; rewrite Rabs_pos_eq in K by lra; unfold m; lra).
    apply Rle_trans with (1 := B); replace 16777216 with (bpow radix2 24) by reflexivity; rewrite <- bpow_plus; apply bpow_le.
    unfold FLT_exp; lia. }
  lra.
Qed.

Lemma rand_one : forall z, (2 ^ 32 - 128 <= z < 2 ^ 32)%Z -> fin (f_rand z) /\ val (f_rand z) = 1.
Proof.
  intros z Z; destruct (rand_val z) as (F & _); [lia |]; split; [exact F |].
  destruct (of_Z_val z) as [FZ VZ]; [lia |].
  assert (E : rnd (IZR z) = 4294967296).
  { apply Rle_antisym.
    - apply (rnd_between _ 0 4294967296); [apply fits_0 | |].
      + replace 4294967296 with (bpow radix2 32) by reflexivity; apply fits_bpow; lia.
      + split; [apply (IZR_le 0); lia | apply (IZR_le z 4294967296); lia].
    - destruct (of_Z_val 4294967168) as [_ V]; [lia |].
      assert (K : rnd (IZR 4294967168) = 4294967296).
      { rewrite <- V, (lit_val _ 8388608 9) by (vm_compute; reflexivity); cbn; lra. }
      rewrite <- K; apply rnd_le, IZR_le; lia. }
  destruct (fnum_val 1 (-32)) as [F' V'].
  { rewrite Rmult_1_l, Rabs_pos_eq by apply bpow_ge_0; apply bpow_le; lia. }
  assert (V2 : val (fnum 1 (-32)) = / 4294967296).
  { rewrite V', Rmult_1_l, rnd_fits by (apply fits_bpow; lia); apply u32_bpow. }
  destruct (fmul_val (of_Z z) (fnum 1 (-32)) FZ F') as [_ W].
  { rewrite VZ, V2, E; apply (big 2); [lia |]; apply abs_bounds; lra. }
  unfold f_rand; rewrite W, VZ, V2, E; replace (4294967296 * / 4294967296) with 1 by field; apply rnd_fits, fits_1.
Qed.

Lemma densities_app : forall areas s a, f_densities s (areas ++ [a]) = f_densities s areas ++ [fadd (last (f_densities s areas) s) a].
Proof.
  assert (L : forall (l : list f32) x d e, last (x :: l) d = last (x :: l) e).
  { intros l; induction l as [| y l IH]; intros x d e; [reflexivity |]; apply (IH y d e). }
  induction areas as [| b areas IH]; intros s a; [reflexivity |]; cbn [app f_densities]; cbv zeta; cbn [app]; f_equal.
  rewrite IH; do 3 f_equal; destruct (f_densities (fadd s b) areas) as [| y l] eqn:E; [reflexivity |]; cbn [last]; apply (L l y).
Qed.

Lemma sorted_last : forall (l : list R) y, StronglySorted Rle (l ++ [y]) -> Forall (fun x => x <= y) l.
Proof.
  induction l as [| x l IH]; intros y S; [constructor |]; cbn in S; inversion S as [| ? ? S' F]; subst; constructor; [| apply IH, S'].
  apply Forall_app in F; destruct F as [_ F]; inversion F; assumption.
Qed.

(* C319: a last face with a small area of its own stops the renderer *)
Theorem float_face_hangs_refuted : forall areas a fuel z,
  Forall (fun a => fin a /\ 0 < val a) (areas ++ [a]) -> areas <> [] ->
  let d := f_densities fzero (areas ++ [a]) in
  Forall (fun x => fin x /\ val x <= bpow radix2 127) d ->
  val a * 33554432 < val (last (f_densities fzero areas) fzero) ->
  (2 ^ 32 - 128 <= z < 2 ^ 32)%Z ->
  f_sample_face fuel d (f_rand z) = OutOfFuel.
Proof.
  intros areas a fuel z A NE d D SM Z; destruct (rand_one z Z) as [FR VR].
  assert (FD : Forall fin d) by (apply Forall_impl with (2 := D); intros x H; apply H).
  assert (A' : Forall (fun a => fin a /\ 0 <= val a) (areas ++ [a])) by (apply Forall_impl with (2 := A); intros x [H K]; split; [exact H | lra]).
  destruct (float_densities_sorted (areas ++ [a]) A' FD) as [SRT POS]; fold d in SRT, POS.
  set (s := last (f_densities fzero areas) fzero) in *.
  assert (DE : d = f_densities fzero areas ++ [fadd s a]) by apply densities_app.
  set (D0 := f_densities fzero areas) in *; set (n := length areas).
  assert (LN : length D0 = n) by apply densities_length.
  assert (N1 : (1 <= n)%nat) by (unfold n; destruct areas; [congruence | cbn; lia]).
  assert (NS : nth_error D0 (n - 1) = Some s).
  { clear - LN N1; unfold s; clearbody D0; destruct (exists_last (l := D0)) as (l & y & ->); [intros ->; cbn in LN; lia |].
    rewrite last_last; rewrite app_length in LN; cbn in LN; rewrite nth_error_app2 by lia; replace (n - 1 - length l)%nat with 0%nat by lia; reflexivity. }
  assert (FS : fin s).
  { rewrite DE in FD; apply Forall_app in FD; destruct FD as [FD _]; apply (fin_nth _ _ _ FD NS). }
  assert (FA : fin a /\ 0 < val a) by (apply Forall_app in A; destruct A as [_ A]; inversion A; assumption); destruct FA as [FA PA].
  set (t := fadd s a) in *.
  assert (FT : fin t) by (rewrite DE in FD; apply Forall_app in FD; destruct FD as [_ FD]; inversion FD; assumption).
  assert (VT : val t = val s).
  { unfold t; rewrite fadd_fin by assumption; apply absorbed; [apply fits_val | lra | lra | exact SM]. }
  assert (ALL : Forall (fun y => fin y /\ val y <= val t) d).
  { rewrite Forall_forall; intros y Y; rewrite Forall_forall in FD; split; [apply FD, Y |].
    rewrite DE in Y, SRT; rewrite map_app in SRT; cbn [map] in SRT; apply sorted_last in SRT; rewrite Forall_map, Forall_forall in SRT.
    apply in_app_or in Y; destruct Y as [Y | [<- | []]]; [apply SRT, Y | lra]. }
  assert (LD : length d = S n) by (rewrite DE, app_length, LN; cbn; lia).
  unfold f_sample_face; rewrite LD; replace (Z.of_nat (S n) - 1)%Z with (Z.of_nat n) by lia.
  assert (GT : f_get d (Z.of_nat n) = Ok t).
  { unfold f_get; destruct (Z.ltb_spec (Z.of_nat n) 0); [lia |]; rewrite Nat2Z.id, DE, nth_error_app2 by lia; rewrite LN, Nat.sub_diag; reflexivity. }
  assert (GS : f_get d (Z.of_nat n - 1) = Ok s).
  { unfold f_get; destruct (Z.ltb_spec (Z.of_nat n - 1) 0); [lia |]; replace (Z.to_nat (Z.of_nat n - 1)) with (n - 1)%nat by lia.
    rewrite DE, nth_error_app1, NS by lia; reflexivity. }
  assert (TB : val t <= bpow radix2 127).
  { rewrite Forall_forall in D; apply (D t); rewrite DE; apply in_or_app; right; left; reflexivity. }
  rewrite GT; cbn [bind]; destruct (pick_val (f_rand z) t FR) as (FX & VX & _); [rewrite VR; lra | exact FT | lra |].
  rewrite VR, Rmult_1_l, (rnd_fits _ (fits_val t)) in VX; set (x := f_pick (f_rand z) t) in *.
  assert (N : forall y, fin y -> val y <= val t -> flt x y = false).
  { intros y FY LY; destruct (flt x y) eqn:K; [| reflexivity]; apply flt_val in K; [lra | exact FX | exact FY]. }
  destruct (get_nth d 0) as (d0 & G0 & N0); [lia |]; rewrite Forall_forall in ALL.
  destruct (ALL d0 (nth_error_In _ _ N0)) as [F0 L0]; rewrite G0; cbn [bind]; rewrite (N d0 F0 L0), GS; cbn [bind].
  unfold fgt; fold (flt s x); destruct (flt s x) eqn:K; [apply flt_val in K; [lra | exact FS | exact FX] |].
  apply search_lost; [rewrite Forall_forall; intros y Y; rewrite VX; apply ALL, Y | exact FX | lia | lia | lia].
Qed.
Print Assumptions float_face_hangs_refuted.
(* a floor of 100 x 100 in two triangles and one triangle of 0.0001 *)
Example float_face_hangs_ex : let areas := [of_Z 5000; of_Z 5000] in let a := fnum 13743895 (-37) in
  Forall (fun a => fin a /\ 0 < val a) (areas ++ [a]) /\
  map (fun x => B2SF x) (f_densities fzero (areas ++ [a])) = map (fun x => B2SF x) [of_Z 5000; of_Z 10000; of_Z 10000] /\
  f_sample_face 1000 (f_densities fzero (areas ++ [a])) (f_rand (2 ^ 32 - 1)) = OutOfFuel.
Proof.
  cbv zeta; split; [| split; vm_compute; reflexivity].
  assert (V : val (of_Z 5000) = 5000) by (apply (of_Z_exact 5000); lia).
  repeat constructor; [rewrite V; lra | rewrite V; lra |].
  rewrite (lit_val _ 13743895 (-37)) by (vm_compute; reflexivity); cbn; lra.
Qed.
