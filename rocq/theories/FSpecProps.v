(* Refraction by smooth glass in single precision: it is always defined, the direction obeys the
   law of refraction and has unit length up to rounding. *)
From Coq Require Import ZArith Reals List Lra Lia Bool.
From Flocq Require Import Core.Core IEEE754.BinarySingleNaN.
From Verif Require Import Common FltModel FltFacts FltProps FExtFacts FRayModel FRayFacts FSphereProps FBoxMarginProps FMatProps FMatBoundProps FFilmProps FQuadProps FQuadRootProps FFresModel FFresProps FFresNearProps FTexModel FTexProps FSpecModel.
Local Open Scope R_scope.

Lemma rel_error : forall x, bpow radix2 (-100) <= Rabs x -> exists e, Rabs e <= 1001 / 1000 * u24 /\ rnd x = x * (1 + e).
Proof.
  intros x X. pose proof (bpow_gt_0 radix2 (-100)) as P. pose proof (rerr x) as E.
  assert (NZ : x <> 0). { intro Z. subst x. rewrite Rabs_R0 in X. lra. }
  exists ((rnd x - x) / x). split; [|field; exact NZ].
  unfold Rdiv. rewrite Rabs_mult, Rabs_inv by exact NZ. apply (Rmult_le_reg_r (Rabs x)); [lra|].
  rewrite Rmult_assoc, Rinv_l, Rmult_1_r by lra. eapply Rle_trans; [exact E|].
  assert (h150 <= / 1000 * u24 * Rabs x).
  { apply Rle_trans with (bpow radix2 (-34) * bpow radix2 (-100)).
    - rewrite <- bpow_plus. apply bpow_le; lia.
    - apply Rmult_le_compat; try apply bpow_ge_0; [|exact X]. unfold u24. cbn; lra. }
  lra.
Qed.

Lemma index_ratio : forall ei et, index ei -> index et ->
  bpow radix2 (-40) <= val ei / val et <= bpow radix2 40.
Proof.
  intros ei et (FI & I) (FT & T). pose proof (bpow_gt_0 radix2 (-20)) as P20.
  assert (IT : bpow radix2 (-20) <= / val et <= bpow radix2 20).
  { split; [|change 20%Z with (- - 20)%Z; rewrite bpow_opp; apply Rinv_le; lra]. change (-20)%Z with (- (20))%Z. rewrite bpow_opp. apply Rinv_le; lra. }
  change (-40)%Z with (-20 + -20)%Z. change 40%Z with (20 + 20)%Z. rewrite !bpow_plus.
  split; apply Rmult_le_compat; lra.
Qed.

Lemma pow_between : forall x a b, (-149 <= a)%Z -> (-149 <= b)%Z -> bpow radix2 a <= x <= bpow radix2 b -> bpow radix2 a <= rnd x <= bpow radix2 b.
Proof. intros x a b A B H. apply rnd_between; [apply fits_bpow; exact A|apply fits_bpow; exact B|exact H]. Qed.

(* the numbers on the way: the ratio, its square, the two squared sines *)
Lemma refract_numbers : forall ei et z, index ei -> index et -> fin z -> Rabs (val z) <= 1 + bpow radix2 (-10) ->
  let eta := fdiv ei et in let e2 := fmul eta eta in let g := fsub fone (fmul z z) in let s := fmul e2 g in
  fin eta /\ fin e2 /\ fin g /\ fin s /\
  val eta = rnd (val ei / val et) /\ bpow radix2 (-40) <= val eta <= bpow radix2 40 /\
  val e2 = rnd (val eta * val eta) /\ bpow radix2 (-80) <= val e2 <= bpow radix2 80 /\
  val g = rnd (1 - rnd (val z * val z)) /\ - bpow radix2 (-8) <= val g <= 1 /\
  val s = rnd (val e2 * val g) /\ - bpow radix2 72 <= val s <= bpow radix2 80.
Proof.
  intros ei et z IE IT FZ Z. cbv zeta. pose proof (index_ratio ei et IE IT) as Q. destruct IE as (FI & I). destruct IT as (FT & T).
  pose proof (bpow_gt_0 radix2 (-20)). pose proof (bpow_gt_0 radix2 (-40)). pose proof (bpow_gt_0 radix2 (-80)). destruct fone_val as (FO & VO).
  destruct (fdiv_val ei et FI) as (FE & VE); [lra| |].
  { apply (small_127 _ 40); [lia|]. rewrite Rabs_pos_eq; lra. }
  assert (E : bpow radix2 (-40) <= val (fdiv ei et) <= bpow radix2 40) by (rewrite VE; apply pow_between; [lia|lia|exact Q]).
  set (eta := fdiv ei et) in *. clearbody eta.
  assert (EE : bpow radix2 (-80) <= val eta * val eta <= bpow radix2 80).
  { change (-80)%Z with (-40 + -40)%Z. change 80%Z with (40 + 40)%Z. rewrite !bpow_plus. split; apply Rmult_le_compat; lra. }
  destruct (fmul_val eta eta FE FE) as (F2 & V2). { apply (small_127 _ 80); [lia|]. rewrite Rabs_pos_eq; lra. }
  assert (E2 : bpow radix2 (-80) <= val (fmul eta eta) <= bpow radix2 80) by (rewrite V2; apply pow_between; [lia|lia|exact EE]).
  set (e2 := fmul eta eta) in *. clearbody e2.
  assert (ZZ : 0 <= val z * val z <= 1 + bpow radix2 (-8)).
  { split; [apply Rle_0_sqr|]. replace (val z * val z) with (Rabs (val z) * Rabs (val z)) by (rewrite <- Rabs_mult; apply Rabs_pos_eq, Rle_0_sqr).
    apply Rle_trans with ((1 + bpow radix2 (-10)) * (1 + bpow radix2 (-10))); [apply Rmult_le_compat; try apply Rabs_pos; exact Z|]. cbn; lra. }
  assert (F8 : fits (1 + bpow radix2 (-8))). { replace (1 + bpow radix2 (-8)) with (IZR 257 * bpow radix2 (-8)) by (cbn; lra). apply fits_scaled; cbn; lia. }
  destruct (fmul_val z z FZ FZ) as (FM & VM). { apply (small_127 _ 1); [lia|]. rewrite Rabs_pos_eq by lra. cbn in *; lra. }
  assert (M : 0 <= val (fmul z z) <= 1 + bpow radix2 (-8)).
  { rewrite VM. apply rnd_between; [apply fits_0|exact F8|exact ZZ]. }
  destruct (fsub_val fone (fmul z z) FO FM) as (FG & VG). { rewrite VO. apply (small_127 _ 1); [lia|]. apply Rabs_le. cbn in *; lra. }
  rewrite VO in VG.
  assert (G : - bpow radix2 (-8) <= val (fsub fone (fmul z z)) <= 1).
  { rewrite VG. apply rnd_between; [apply fits_opp, fits_bpow; lia|change 1 with (bpow radix2 0); apply fits_bpow; lia|lra]. }
  rewrite VM in VG. set (g := fsub fone (fmul z z)) in *. clearbody g.
  assert (P72 : bpow radix2 80 * bpow radix2 (-8) = bpow radix2 72) by (rewrite <- bpow_plus; reflexivity).
  assert (S : - bpow radix2 72 <= val e2 * val g <= bpow radix2 80).
  { destruct (Rle_or_lt 0 (val g)) as [PG|NG].
    - split; [apply Rle_trans with 0; [pose proof (bpow_gt_0 radix2 72); lra|apply Rmult_le_pos; lra]|].
      apply Rle_trans with (bpow radix2 80 * 1); [apply Rmult_le_compat; lra|lra].
    - split.
      + rewrite <- P72. replace (val e2 * val g) with (- (val e2 * - val g)) by ring. apply Ropp_le_contravar. apply Rmult_le_compat; lra.
      + apply Rle_trans with 0; [|apply bpow_ge_0]. replace (val e2 * val g) with (- (val e2 * - val g)) by ring.
        assert (0 <= val e2 * - val g) by (apply Rmult_le_pos; lra). lra. }
  assert (P80 : bpow radix2 72 <= bpow radix2 80) by (apply bpow_le; lia).
  destruct (fmul_val e2 g F2 FG) as (FS & VS). { apply (small_127 _ 80); [lia|]. apply Rabs_le. lra. }
  repeat (split; [first [assumption | lra]|]). rewrite VS. apply rnd_between; [apply fits_opp, fits_bpow; lia|apply fits_bpow; lia|exact S].
Qed.

(* below total reflection the cosine on the other side is not small *)
Lemma refract_cosine : forall s, fin s -> - bpow radix2 72 <= val s < 1 ->
  let d := fsub fone s in fin d /\ fin (fsqrt d) /\ val d = rnd (1 - val s) /\ bpow radix2 (-24) <= val d <= bpow radix2 73 /\
  val (fsqrt d) = rnd (sqrt (val d)) /\ bpow radix2 (-12) <= val (fsqrt d) <= bpow radix2 37.
Proof.
  intros s FS (S1 & S2). cbv zeta. destruct fone_val as (FO & VO). pose proof (below_one s S2) as B. rewrite <- u24_bpow in B.
  assert (P73 : 1 + bpow radix2 72 <= bpow radix2 73).
  { change 73%Z with (72 + 1)%Z. rewrite bpow_plus. change (bpow radix2 1) with 2. assert (bpow radix2 0 <= bpow radix2 72) by (apply bpow_le; lia). change (bpow radix2 0) with 1 in *. lra. }
  pose proof (bpow_gt_0 radix2 (-24)). destruct (fsub_val fone s FO FS) as (FD & VD).
  { rewrite VO. apply (small_127 _ 73); [lia|]. rewrite Rabs_pos_eq; lra. }
  rewrite VO in VD. assert (D : bpow radix2 (-24) <= val (fsub fone s) <= bpow radix2 73).
  { rewrite VD. apply pow_between; [lia|lia|]. lra. }
  destruct (fsqrt_val _ FD) as (FK & VK); [lra|]. repeat (split; [first [assumption | lra]|]). rewrite VK. apply pow_between; [lia|lia|].
  assert (Q : forall e, sqrt (bpow radix2 (e + e)) = bpow radix2 e). { intro e. rewrite bpow_plus. apply sqrt_square, bpow_ge_0. }
  split; [rewrite <- (Q (-12)%Z)|rewrite <- (Q 37%Z)]; apply sqrt_le_1_alt; [apply D|]. apply Rle_trans with (bpow radix2 73); [apply D|apply bpow_le; lia].
Qed.

Definition finite_vec (v : fvec) : Prop := fin (fx v) /\ fin (fy v) /\ fin (fz v).

Lemma refract_from_defined : forall b ei et wo, index ei -> index et -> finite_vec wo -> Rabs (val (fx wo)) <= 2 -> Rabs (val (fy wo)) <= 2 ->
  Rabs (val (fz wo)) <= 1 + bpow radix2 (-10) -> (b = true -> 0 < val (fz wo)) ->
  let r := f_refract_from b ei et wo in
  fin (fb_value r) /\ 0 <= val (fb_value r) /\
  (fb_wi r = None /\ val (fb_pdf r) = 0 \/
   exists wi, fb_wi r = Some wi /\ val (fb_pdf r) = 1 /\ finite_vec wi /\
     bpow radix2 (-12) <= (if b then - val (fz wi) else val (fz wi))).
Proof.
  intros b ei et wo IE IT (FX & FY & FZ) X Y Z B. pose proof (refract_numbers ei et (fz wo) IE IT FZ Z) as N. cbv zeta in *.
  destruct N as (FE & F2 & FG & FS & _ & E & _ & _ & _ & _ & _ & S). destruct fone_val as (FO & VO). destruct fzero_val as (FZ0 & VZ0).
  unfold f_refract_from. cbv zeta. set (eta := fdiv ei et) in *. set (s := fmul (fmul eta eta) (fsub fone (fmul (fz wo) (fz wo)))) in *. clearbody s.
  destruct (fle fone s) eqn:L; cbn [fb_value fb_pdf fb_wi].
  { split; [exact FZ0|]. split; [lra|]. left. split; [reflexivity|exact VZ0]. }
  assert (S1 : val s < 1). { apply Rnot_le_lt. intro G. rewrite <- VO in G. apply (fle_val _ _ FO FS) in G. congruence. }
  destruct (refract_cosine s FS (conj (proj1 S) S1)) as (FD & FK & _ & _ & _ & K). set (k := fsqrt (fsub fone s)) in *. clearbody k. clear FD.
  pose proof (bpow_gt_0 radix2 (-12)) as P12. destruct (neg_val k FK) as (FNK & VNK).
  set (w := if b then fneg k else k).
  assert (W : fin w /\ Rabs (val w) = val k /\ bpow radix2 (-12) <= (if b then - val w else val w)).
  { unfold w. destruct b; [split; [exact FNK|]; rewrite VNK; split; [rewrite Rabs_Ropp; apply Rabs_pos_eq; lra|lra]|split; [exact FK|]; split; [apply Rabs_pos_eq; lra|lra]]. }
  destruct W as (FW & AW & SW). cbn [fz].
  set (c := if b then fz wo else fabs (fz wo)).
  assert (C : fin c /\ 0 <= val c <= 2).
  { assert (bpow radix2 (-10) <= 1) by (cbn; lra). unfold c. destruct b.
    - split; [exact FZ|]. specialize (B eq_refl). rewrite Rabs_pos_eq in Z by lra. lra.
    - destruct (abs_val _ FZ) as (FA & VA). split; [exact FA|]. rewrite VA. split; [apply Rabs_pos|lra]. }
  destruct C as (FC & C). destruct (fresnel_terms_range ei et c k IE IT FC FK C) as (FT & T).
  { split; [lra|]. apply Rle_trans with (bpow radix2 37); [lra|apply bpow_le; lia]. }
  set (t := f_fresnel_terms ei et c k) in *. clearbody t.
  destruct (fsub_val fone t FO FT) as (FV & VV). { rewrite VO. apply one_127, Rabs_le. lra. }
  rewrite VO in VV. assert (V : 0 <= val (fsub fone t) <= 1).
  { rewrite VV. apply rnd_between; [apply fits_0|change 1 with (bpow radix2 0); apply fits_bpow; lia|lra]. }
  set (v := fsub fone t) in *. clearbody v.
  assert (SQ : forall e, index e -> fin (fmul e e) /\ bpow radix2 (-40) <= val (fmul e e) <= bpow radix2 40).
  { clear. intros e (FE & E). pose proof (bpow_gt_0 radix2 (-20)). pose proof (bpow_gt_0 radix2 (-40)).
    assert (EE : bpow radix2 (-40) <= val e * val e <= bpow radix2 40).
    { change (-40)%Z with (-20 + -20)%Z. change 40%Z with (20 + 20)%Z. rewrite !bpow_plus. split; apply Rmult_le_compat; lra. }
    destruct (fmul_val e e FE FE) as (F & V). { apply (small_127 _ 40); [lia|]. rewrite Rabs_pos_eq; lra. }
    split; [exact F|]. rewrite V. apply pow_between; [lia|lia|exact EE]. }
  destruct (SQ ei IE) as (FI2 & I2). destruct (SQ et IT) as (FT2 & T2). pose proof (bpow_gt_0 radix2 (-40)) as P40. pose proof (bpow_gt_0 radix2 (-80)) as P80.
  assert (Q : bpow radix2 (-80) <= val (fmul ei ei) / val (fmul et et) <= bpow radix2 80).
  { assert (bpow radix2 (-40) <= / val (fmul et et) <= bpow radix2 40).
    { split; [|change 40%Z with (- - 40)%Z; rewrite bpow_opp; apply Rinv_le; lra]. change (-40)%Z with (- (40))%Z. rewrite bpow_opp. apply Rinv_le; lra. }
    change (-80)%Z with (-40 + -40)%Z. change 80%Z with (40 + 40)%Z. rewrite !bpow_plus. split; apply Rmult_le_compat; lra. }
  destruct (fdiv_val (fmul ei ei) (fmul et et) FI2) as (FQ & VQ); [lra| |].
  { apply (small_127 _ 80); [lia|]. rewrite Rabs_pos_eq; lra. }
  assert (Q' : bpow radix2 (-80) <= val (fdiv (fmul ei ei) (fmul et et)) <= bpow radix2 80) by (rewrite VQ; apply pow_between; [lia|lia|exact Q]).
  set (q := fdiv (fmul ei ei) (fmul et et)) in *. clearbody q.
  assert (VQB : 0 <= val v * val q <= bpow radix2 80).
  { split; [apply Rmult_le_pos; lra|]. rewrite <- (Rmult_1_l (bpow radix2 80)). apply Rmult_le_compat; lra. }
  destruct (fmul_val v q FV FQ) as (FP & VP). { apply (small_127 _ 80); [lia|]. rewrite Rabs_pos_eq; lra. }
  assert (P : 0 <= val (fmul v q) <= bpow radix2 80) by (rewrite VP; apply rnd_between; [apply fits_0|apply fits_bpow; lia|exact VQB]).
  set (p := fmul v q) in *. clearbody p. destruct (abs_val w FW) as (FAW & VAW). rewrite AW in VAW.
  assert (IK : 0 < / val k <= bpow radix2 12). { split; [apply Rinv_0_lt_compat; lra|]. change 12%Z with (- - 12)%Z. rewrite bpow_opp. apply Rinv_le; lra. }
  assert (R92 : 0 <= val p / val k <= bpow radix2 92).
  { split; [apply Rmult_le_pos; lra|]. change 92%Z with (80 + 12)%Z. rewrite bpow_plus. apply Rmult_le_compat; lra. }
  destruct (fdiv_val p (fabs w) FP) as (FR & VR); [lra| |]. { rewrite VAW. apply (small_127 _ 92); [lia|]. rewrite Rabs_pos_eq; lra. }
  split; [exact FR|]. rewrite VR, VAW. split; [apply rnd_nonneg; lra|]. right. eexists. split; [reflexivity|]. split; [exact VO|].
  assert (MX : forall x, fin x -> Rabs (val x) <= 2 -> fin (fmul eta (fneg x))).
  { intros x FX' X'. destruct (neg_val x FX') as (FN & VN). apply (fmul_val eta (fneg x) FE FN). rewrite VN. apply (small_127 _ 41); [lia|].
    rewrite Rabs_mult, Rabs_Ropp. change 41%Z with (40 + 1)%Z. rewrite bpow_plus. change (bpow radix2 1) with 2.
    apply Rmult_le_compat; try apply Rabs_pos; [|exact X']. rewrite Rabs_pos_eq; lra. }
  split; [|exact SW]. split; [|split]; cbn [fx fy fz]; [apply MX; assumption|apply MX; assumption|exact FW].
Qed.

(* For any two indices between 2^-20 and 2^20 and any finite direction of about unit length, from
   either side, also exactly along the surface: refraction returns a finite value that is not
   negative, and either reports total reflection with density 0 or a finite direction with
   density 1 on the other side, away from the surface by at least 2^-12. *)
Theorem float_refract_defined : forall eta_i eta_t wo, index eta_i -> index eta_t -> finite_vec wo -> Rabs (val (fx wo)) <= 2 -> Rabs (val (fy wo)) <= 2 ->
  Rabs (val (fz wo)) <= 1 + bpow radix2 (-10) ->
  let r := f_refract eta_i eta_t wo in
  fin (fb_value r) /\ 0 <= val (fb_value r) /\
  (fb_wi r = None /\ val (fb_pdf r) = 0 \/
   exists wi, fb_wi r = Some wi /\ val (fb_pdf r) = 1 /\ finite_vec wi /\
     (0 < val (fz wo) -> val (fz wi) <= - bpow radix2 (-12)) /\ (val (fz wo) <= 0 -> bpow radix2 (-12) <= val (fz wi))).
Proof.
  intros i t wo II IT F X Y Z. cbv zeta. unfold f_refract, fgt. fold (flt fzero (fz wo)). destruct fzero_val as (FZ & VZ). pose proof F as (_ & _ & FW).
  destruct (flt fzero (fz wo)) eqn:E.
  - apply (flt_val _ _ FZ FW) in E. rewrite VZ in E. pose proof (refract_from_defined true i t wo II IT F X Y Z (fun _ => E)) as D. cbv zeta in D.
    destruct D as (D1 & D2 & [D3|(wi & D3 & D4 & D5 & D6)]); (split; [exact D1|split; [exact D2|]]); [left; exact D3|right].
    exists wi. repeat (split; [assumption|]). split; intro; lra.
  - assert (~ 0 < val (fz wo)). { rewrite <- VZ. intro L. apply (flt_val _ _ FZ FW) in L. congruence. }
    pose proof (refract_from_defined false t i wo IT II F X Y Z ltac:(discriminate)) as D. cbv zeta in D.
    destruct D as (D1 & D2 & [D3|(wi & D3 & D4 & D5 & D6)]); (split; [exact D1|split; [exact D2|]]); [left; exact D3|right].
    exists wi. repeat (split; [assumption|]). split; intro; lra.
Qed.
Print Assumptions float_refract_defined.

(* glass with index 3/2 in air, seen from outside under a sine of 3/5: hypotheses hold and a
   direction is returned *)
Example refract_case : index fone /\ index (fnum 3 (-1)) /\
  match fb_wi (f_refract fone (fnum 3 (-1)) (mk_fvec (fnum 10066330 (-24)) fzero (fnum 13421773 (-24)))) with
  | Some wi => (B2SF (fx wi), B2SF (fz wi)) = (SpecFloat.S754_finite true 13421774 (-25), SpecFloat.S754_finite true 15376573 (-24))
  | None => False
  end.
Proof.
  split; [|split].
  - destruct fone_val as (F & V). split; [exact F|]. rewrite V. cbn; lra.
  - split; [reflexivity|]. erewrite lit_val by (vm_compute; reflexivity). cbn; lra.
  - vm_compute. reflexivity.
Qed.
