From Coq Require Import QArith Qround Qminmax Qabs Lqa Qfield.
From Verif Require Import Common Array2DModel ImgModel ImgSpec ImgProofs ImgProps EwaModel EwaSpec.
Local Open Scope Q_scope.

(* -- weights -- *)
Lemma weights_length : length ewa_weights = 128%nat.
Proof. reflexivity. Qed.

Lemma weight_nonneg : forall i, 0 <= nth i ewa_weights 0.
Proof.
  assert (F : forallb (fun w => Qle_bool 0 w) ewa_weights = true) by (vm_compute; reflexivity).
  rewrite forallb_forall in F. intros i. destruct (Nat.lt_ge_cases i (length ewa_weights)) as [L | L].
  - apply Qle_bool_iff, F, nth_In, L.
  - rewrite nth_overflow by exact L. lra.
Qed.

Lemma weight_pos : forall i, (i < 127)%nat -> 0 < nth i ewa_weights 0.
Proof.
  assert (F : forallb (fun w => negb (Qle_bool w 0)) (firstn 127 ewa_weights) = true) by (vm_compute; reflexivity).
  rewrite forallb_forall in F. intros i L.
  assert (E : nth i ewa_weights 0 = nth i (firstn 127 ewa_weights) 0).
  { rewrite <- (firstn_skipn 127 ewa_weights) at 1. apply app_nth1. rewrite firstn_length, weights_length. lia. }
  rewrite E. specialize (F (nth i (firstn 127 ewa_weights) 0)).
  assert (I : In (nth i (firstn 127 ewa_weights) 0) (firstn 127 ewa_weights)) by (apply nth_In; rewrite firstn_length, weights_length; lia).
  specialize (F I). apply Qnot_le_lt. intros X. apply Qle_bool_iff in X. rewrite X in F. discriminate.
Qed.

(* -- loops -- *)
Lemma in_upto : forall lo hi z, In z (upto lo hi) <-> (lo <= z <= hi)%Z.
Proof.
  intros lo hi z. unfold upto. rewrite in_map_iff. split.
  - intros (i & <- & Hi). apply in_seq in Hi. lia.
  - intros H. exists (Z.to_nat (z - lo)). split; [lia |]. apply in_seq. lia.
Qed.

Lemma in_box : forall u0 u1 v0 v1 x y, In (x, y) (box u0 u1 v0 v1) <-> (u0 <= x <= u1)%Z /\ (v0 <= y <= v1)%Z.
Proof.
  intros. unfold box. rewrite in_flat_map. split.
  - intros (y' & Hy & H). apply in_map_iff in H. destruct H as (x' & E & Hx). injection E as <- <-.
    apply in_upto in Hy. apply in_upto in Hx. tauto.
  - intros (Hx & Hy). exists y. split; [apply in_upto; exact Hy |]. apply in_map_iff. exists x. split; [reflexivity |]. apply in_upto. exact Hx.
Qed.

Lemma wrap_in : forall s z, (0 < s)%Z -> (- s <= z)%Z -> (0 <= wrap s z < s)%Z.
Proof.
  intros s z S H. unfold wrap. destruct (Z.ltb_spec z 0); [lia |]. destruct (Z.ltb_spec (s - 1) z); [| lia].
  apply Z.rem_bound_pos; lia.
Qed.

Lemma wrap_id : forall s z, (0 <= z < s)%Z -> wrap s z = z.
Proof. intros s z H. unfold wrap. destruct (Z.ltb_spec z 0); [lia |]. destruct (Z.ltb_spec (s - 1) z); [lia | reflexivity]. Qed.

Definition r2 (a b c u v : Q) (x y : Z) : Q :=
  a * (inject_Z x - u) * (inject_Z x - u) + b * (inject_Z y - v) * (inject_Z x - u) + c * (inject_Z y - v) * (inject_Z y - v).

Lemma le_bool_false : forall p q, Qle_bool p q = false <-> q < p.
Proof.
  intros p q. split; intros H.
  - apply Qnot_le_lt. intros X. apply Qle_bool_iff in X. congruence.
  - destruct (Qle_bool p q) eqn:E; [| reflexivity]. apply Qle_bool_iff in E. lra.
Qed.

Lemma index_ok : forall r, 0 <= r -> r < 1 -> exists i, to_int (r * 128) = Ok i /\ (0 <= i <= 127)%Z /\ (r < 127 # 128 -> (i < 127)%Z).
Proof.
  intros r R0 R1. exists (Qfloor (r * 128)).
  assert (P : 0 <= r * 128) by (apply Qmult_le_0_compat; lra).
  pose proof (floor_ge (r * 128) 0 P) as F0.
  assert (F1 : (Qfloor (r * 128) < 128)%Z) by (apply floor_below; change (inject_Z 128) with 128; lra).
  unfold to_int, to_range. rewrite trunc_pos by exact P.
  replace ((- 2 ^ 31 <=? Qfloor (r * 128)) && (Qfloor (r * 128) <? 2 ^ 31))%Z with true.
  2: { symmetry. apply andb_true_intro. change (2 ^ 31)%Z with 2147483648%Z. split; [apply Z.leb_le | apply Z.ltb_lt]; lia. }
  split; [reflexivity |]. split; [lia |]. intros L. apply floor_below. change (inject_Z 127) with 127. lra.
Qed.

Lemma gather_ok : forall l s f a b c u v lo hi, shows l s f -> within f s lo hi ->
  (forall p q, 0 <= a * p * p + b * q * p + c * q * q) ->
  forall ps, (forall x y, In (x, y) ps -> (0 <= wrap (Z.of_N s) x < Z.of_N s)%Z /\ (0 <= wrap (Z.of_N s) y < Z.of_N s)%Z) ->
  exists ws, gather l a b c u v ps = Ok ws /\
    (forall p, In p ws -> 0 <= fst p /\ forall ch, channel ch -> (lo <= ch (snd p) <= hi)%N) /\
    (forall x y, In (x, y) ps -> r2 a b c u v (wrap (Z.of_N s) x) (wrap (Z.of_N s) y) < 127 # 128 -> exists p, In p ws /\ 0 < fst p).
Proof.
  intros l s f a b c u v lo hi (SL & SF) W NN. induction ps as [| (x, y) ps IH]; intros H.
  - exists []. split; [reflexivity |]. split; [intros p [] | intros ? ? []].
  - destruct IH as (ws & G & F & P); [intros x' y' I; apply H; right; exact I |].
    destruct (H x y (or_introl eq_refl)) as [Hx Hy]. cbn [gather]. rewrite SL.
    set (nx := wrap (Z.of_N s) x) in *. set (ny := wrap (Z.of_N s) y) in *.
    set (r := a * (inject_Z nx - u) * (inject_Z nx - u) + b * (inject_Z ny - v) * (inject_Z nx - u) + c * (inject_Z ny - v) * (inject_Z ny - v)).
    assert (ER : r = r2 a b c u v nx ny) by reflexivity.
    destruct (Qle_bool 1 r) eqn:E1; cbn [negb].
    + exists ws. split; [exact G |]. split; [exact F |]. intros x' y' [E | I] L; [| exact (P x' y' I L)].
      injection E as <- <-. fold nx ny in L. rewrite <- ER in L. apply Qle_bool_iff in E1. lra.
    + apply le_bool_false in E1.
      assert (FE : fetch l nx ny = Ok (f (Z.to_N nx) (Z.to_N ny))).
      { rewrite <- (Z2N.id nx) at 1 by lia. rewrite <- (Z2N.id ny) at 1 by lia. apply SF; lia. }
      rewrite FE. cbn [bind]. destruct (index_ok r (NN _ _) E1) as (i & EI & BI & LI). rewrite EI. cbn [bind].
      rewrite Z.min_l by lia. replace (i <? 0)%Z with false by (symmetry; apply Z.ltb_ge; lia). rewrite G. cbn [bind].
      eexists. split; [reflexivity |]. split.
      * intros p [<- | I]; [| exact (F p I)]. cbn [fst snd]. split; [apply weight_nonneg |]. intros ch C. apply W; [exact C | lia | lia].
      * intros x' y' [E | I] L.
        -- injection E as <- <-. fold nx ny in L. rewrite <- ER in L. eexists. split; [left; reflexivity |]. cbn [fst].
           apply weight_pos. specialize (LI L). lia.
        -- destruct (P x' y' I L) as (p & Hp & Pp). exists p. split; [right; exact Hp | exact Pp].
Qed.

Lemma gather_eq : forall l l' a b c u v ps, l_side l = l_side l' ->
  (forall x y, In (x, y) ps -> let s := Z.of_N (l_side l) in r2 a b c u v (wrap s x) (wrap s y) < 1 -> fetch l (wrap s x) (wrap s y) = fetch l' (wrap s x) (wrap s y)) ->
  gather l a b c u v ps = gather l' a b c u v ps.
Proof.
  intros l l' a b c u v ps SE. induction ps as [| (x, y) ps IH]; intros H; [reflexivity |].
  cbn [gather]. rewrite <- SE.
  rewrite <- IH by (intros x' y' I; apply H; right; exact I).
  destruct (Qle_bool 1 _) eqn:E1; cbn [negb]; [reflexivity |]. apply le_bool_false in E1.
  specialize (H x y (or_introl eq_refl) E1). rewrite <- H. reflexivity.
Qed.

Lemma gather_fuel : forall l a b c u v ps, gather l a b c u v ps <> OutOfFuel.
Proof.
  assert (FT : forall l x y, fetch l x y <> OutOfFuel).
  { intros l x y. unfold fetch. destruct (_ || _)%bool; [discriminate |].
    unfold get. repeat match goal with |- context[if ?t then _ else _] => destruct t end; cbn [bind]; try discriminate.
    all: repeat match goal with |- context[match ?t with _ => _ end] => destruct t end; cbn [bind]; try discriminate. }
  induction ps as [| (x, y) ps IH]; cbn [gather]; [discriminate |].
  destruct (negb _); [| exact IH]. destruct (fetch l _ _) eqn:E; cbn [bind]; [| discriminate | exfalso; exact (FT _ _ _ E)].
  unfold to_int, to_range. destruct (_ && _)%bool; cbn [bind]; [| discriminate]. destruct (_ <? 0)%Z; [discriminate |].
  destruct (gather l a b c u v ps); cbn [bind]; [discriminate | discriminate | contradiction].
Qed.

Lemma gather_ub : forall l a b c u v ps x y, In (x, y) ps -> let s := Z.of_N (l_side l) in
  r2 a b c u v (wrap s x) (wrap s y) < 1 -> (wrap s x < 0)%Z -> gather l a b c u v ps = UB.
Proof.
  intros l a b c u v ps x y. induction ps as [| (x', y') ps IH]; intros I s R N; [destruct I |].
  destruct I as [E | I].
  - injection E as -> ->. cbn [gather]. fold s.
    replace (Qle_bool 1 _) with false by (symmetry; apply le_bool_false; exact R). cbn [negb].
    unfold fetch. replace (wrap s x <? 0)%Z with true by (symmetry; apply Z.ltb_lt; exact N). reflexivity.
  - specialize (IH I R N). cbn [gather]. rewrite IH. pose proof (gather_fuel l a b c u v [(x', y')]) as GF.
    cbn [gather] in GF. fold s in GF |- *. destruct (negb _); [| reflexivity].
    destruct (fetch l _ _); cbn [bind] in *; [| reflexivity | contradiction].
    destruct (to_int _); cbn [bind] in *; [| reflexivity | contradiction]. destruct (_ <? 0)%Z; reflexivity.
Qed.

(* -- sums -- *)
Lemma sum_pos : forall ws, (forall p : Q * texel, In p ws -> 0 <= fst p) -> (exists p, In p ws /\ 0 < fst p) -> 0 < weight_sum ws.
Proof.
  assert (NN : forall ws, (forall p : Q * texel, In p ws -> 0 <= fst p) -> 0 <= weight_sum ws).
  { induction ws as [| p ws IH]; intros H; cbn; [lra |]. pose proof (H p (or_introl eq_refl)).
    assert (0 <= weight_sum ws) by (apply IH; intros q Hq; apply H; right; exact Hq). unfold weight_sum in *. lra. }
  induction ws as [| p ws IH]; intros H (q & Hq & Pq); [destruct Hq |]. cbn. fold (weight_sum ws).
  assert (N2 : 0 <= weight_sum ws) by (apply NN; intros q' Hq'; apply H; right; exact Hq').
  destruct Hq as [-> | Hq]; [lra |]. pose proof (H p (or_introl eq_refl)).
  assert (0 < weight_sum ws) by (apply IH; [intros q' Hq'; apply H; right; exact Hq' | exists q; split; assumption]). lra.
Qed.

Lemma sum_between : forall ch ws lo hi, (forall p : Q * texel, In p ws -> 0 <= fst p /\ (lo <= ch (snd p) <= hi)%N) ->
  qN lo * weight_sum ws <= channel_sum ch ws /\ channel_sum ch ws <= qN hi * weight_sum ws.
Proof.
  intros ch ws lo hi. induction ws as [| p ws IH]; intros H; cbn; [split; lra |].
  fold (weight_sum ws). fold (channel_sum ch ws).
  destruct IH as [I1 I2]; [intros q Hq; apply H; right; exact Hq |]. destruct (H p (or_introl eq_refl)) as (P & L1 & L2).
  assert (A : qN lo * fst p <= qN (ch (snd p)) * fst p) by (apply Qmult_le_compat_r; [apply qN_le; exact L1 | exact P]).
  assert (B : qN (ch (snd p)) * fst p <= qN hi * fst p) by (apply Qmult_le_compat_r; [apply qN_le; exact L2 | exact P]).
  split; lra.
Qed.

Lemma mean_ok : forall ch ws lo hi, (hi < 256)%N -> (forall p : Q * texel, In p ws -> 0 <= fst p /\ (lo <= ch (snd p) <= hi)%N) ->
  0 < weight_sum ws -> exists n, to_u8 (channel_sum ch ws * (1 / weight_sum ws)) = Ok n /\ (lo <= n <= hi)%N.
Proof.
  intros ch ws lo hi H256 H P. destruct (sum_between ch ws lo hi H) as [S1 S2].
  set (q := channel_sum ch ws * (1 / weight_sum ws)).
  assert (E : q * weight_sum ws == channel_sum ch ws) by (unfold q; field; lra).
  assert (Q1 : qN lo <= q) by (apply (Qmult_lt_0_le_reg_r _ _ (weight_sum ws) P); rewrite E; exact S1).
  assert (Q2 : q <= qN hi) by (apply (Qmult_lt_0_le_reg_r _ _ (weight_sum ws) P); rewrite E; exact S2).
  assert (Q0 : 0 <= qN lo) by apply qN_pos.
  assert (H2 : qN hi <= 255) by (change 255 with (qN 255); apply qN_le; lia).
  rewrite to_u8_ok by lra. eexists. split; [reflexivity |].
  pose proof (floor_ge q (Z.of_N lo) Q1). assert (Qfloor q <= Z.of_N hi)%Z by (rewrite <- (Qfloor_Z (Z.of_N hi)); apply Qfloor_resp_le; exact Q2). lia.
Qed.

(* -- the box of the ellipse -- *)
Lemma sqr_nonneg : forall q, 0 <= q * q.
Proof. intros q. nra. Qed.
Lemma sqr_lt : forall p q, 0 <= q -> p * p < q * q -> p < q.
Proof. intros p q Q0 H. apply Qnot_le_lt. intros L. assert (q * q <= p * p) by nra. lra. Qed.
Lemma sqr_le : forall p q, 0 <= q -> p * p <= q * q -> p <= q.
Proof. intros p q Q0 H. destruct (Qlt_le_dec q p) as [L | L]; [| exact L]. assert (q * q < p * p) by nra. lra. Qed.

Lemma half_width : forall sq a0 b0 c0 f k, close_sqrt sq -> f == a0 * c0 - b0 * b0 * (1 # 4) -> ~ f == 0 -> 0 <= k ->
  let invf := 1 / f in let a := a0 * invf in let b := b0 * invf in let c := c0 * invf in
  let delta := - b * b + 4 * a * c in
  let h := 2 * (1 / delta) * sq (delta * (k * invf)) in
  (99 # 100) * k <= h * h /\ h * h <= (101 # 100) * k /\ (0 < f -> 0 <= h) /\ (f < 0 -> h <= 0).
Proof.
  intros sq a0 b0 c0 f k SQ F NZ K invf a b c delta h.
  assert (ED : delta == 4 * invf).
  { unfold delta, a, b, c. transitivity (4 * invf * invf * (a0 * c0 - b0 * b0 * (1 # 4))); [ring |]. rewrite <- F. unfold invf. field. exact NZ. }
  assert (EA : delta * (k * invf) == 4 * k * (invf * invf)) by (rewrite ED; ring).
  assert (PA : 0 <= delta * (k * invf)) by (rewrite EA; apply Qmult_le_0_compat; [lra | nra]).
  destruct (SQ _ PA) as (S0 & S1 & S2). set (r := sq (delta * (k * invf))) in *.
  assert (EI : 1 / delta == f / 4).
  { rewrite ED. unfold invf. field. exact NZ. }
  assert (EH : h == f * r * (1 # 2)) by (unfold h; rewrite EI; field).
  assert (EHH : h * h == f * f * (1 # 4) * (r * r)) by (rewrite EH; ring).
  assert (EK : f * f * (1 # 4) * (delta * (k * invf)) == k) by (rewrite EA; unfold invf; field; exact NZ).
  assert (FF : 0 <= f * f * (1 # 4)) by nra.
  rewrite EHH. clearbody r.
  split; [| split; [| split]].
  - rewrite <- EK at 1. set (g := f * f * (1 # 4)) in *. set (d := delta * (k * invf)) in *. clearbody g d.
    assert (g * ((99 # 100) * d) <= g * (r * r)) by (rewrite !(Qmult_comm g); apply Qmult_le_compat_r; assumption). lra.
  - rewrite <- EK at 1. set (g := f * f * (1 # 4)) in *. set (d := delta * (k * invf)) in *. clearbody g d.
    assert (g * (r * r) <= g * ((101 # 100) * d)) by (rewrite !(Qmult_comm g); apply Qmult_le_compat_r; assumption). lra.
  - intros P. rewrite EH. nra.
  - intros P. rewrite EH. nra.
Qed.

Lemma ceil_ge : forall q, q <= inject_Z (Qceiling q).
Proof. exact Qle_ceiling. Qed.
Lemma ceil_lt : forall q, inject_Z (Qceiling q) < q + 1.
Proof.
  intros q. pose proof (Qceiling_lt q) as H.
  assert (E : inject_Z (Qceiling q - 1) == inject_Z (Qceiling q) - 1) by (unfold Z.sub; rewrite inject_Z_plus; reflexivity).
  rewrite E in H. lra.
Qed.
Lemma ceil_le : forall q z, q <= inject_Z z -> (Qceiling q <= z)%Z.
Proof. intros q z H. rewrite <- (Qceiling_Z z). apply Qceiling_resp_le, H. Qed.

Lemma to_int_z : forall z, (- 2 ^ 31 <= z < 2 ^ 31)%Z -> to_int (inject_Z z) = Ok z.
Proof.
  intros z H. unfold to_int, to_range, qtrunc. rewrite Qfloor_Z, Qceiling_Z. destruct (Qle_bool 0 (inject_Z z)).
  all: replace ((- 2 ^ 31 <=? z) && (z <? 2 ^ 31))%Z with true; [reflexivity |].
  all: symmetry; apply andb_true_intro; split; [apply Z.leb_le | apply Z.ltb_lt]; apply H.
Qed.

Lemma to_int_or : forall z, to_int (inject_Z z) = Ok z \/ to_int (inject_Z z) = UB.
Proof.
  intros z. unfold to_int, to_range, qtrunc. rewrite Qfloor_Z, Qceiling_Z. destruct (Qle_bool 0 (inject_Z z)).
  all: destruct (_ && _)%bool; [left | right]; reflexivity.
Qed.

(* image_map.cpp:275-307, after the box is known *)
Definition ewa_tail (l : level) (a b c u v : Q) (u0 u1 v0 v1 : Z) : res texel :=
  let! ws := gather l a b c u v (box u0 u1 v0 v1) in
  let total := weight_sum ws in
  if Qeq_bool total 0 then UB
  else
    let inv := 1 / total in
    let! r := to_u8 (channel_sum t_r ws * inv) in
    let! g := to_u8 (channel_sum t_g ws * inv) in
    let! bl := to_u8 (channel_sum t_b ws * inv) in
    let! al := to_u8 (channel_sum t_a ws * inv) in
    Ok (mk_texel al r g bl).

Lemma ewa_axes : forall sq sd u v dudx dvdx dudy dvdy wide, close_sqrt sq -> along_axes dudx dvdx dudy dvdy wide ->
  let s := qN sd in let C := wide * s * (wide * s) + 1 in
  exists a b c hx hy, a == 1 / C /\ b == 0 /\ c == 1 /\
    0 <= hx /\ (99 # 100) * C <= hx * hx /\ hx * hx <= (101 # 100) * C /\
    0 <= hy /\ 99 # 100 <= hy * hy /\ hy * hy <= 101 # 100 /\
    forall m l lev, level_at m lev = Ok l -> l_side l = sd ->
    let p := place sd u in let q := place sd v in
    let u0 := Qceiling (p - hx) in let u1 := Qfloor (p + hx) in let v0 := Qceiling (q - hy) in let v1 := Qfloor (q + hy) in
    (ewa sq m u v dudx dvdx dudy dvdy lev = UB \/ ewa sq m u v dudx dvdx dudy dvdy lev = ewa_tail l a b c p q u0 u1 v0 v1) /\
    ((- 2 ^ 31 <= u0 < 2 ^ 31)%Z -> (- 2 ^ 31 <= u1 < 2 ^ 31)%Z -> (- 2 ^ 31 <= v0 < 2 ^ 31)%Z -> (- 2 ^ 31 <= v1 < 2 ^ 31)%Z ->
      ewa sq m u v dudx dvdx dudy dvdy lev = ewa_tail l a b c p q u0 u1 v0 v1).
Proof.
  intros sq sd u v dudx dvdx dudy dvdy wide SQ AX s C.
  set (a0 := ellipse_a (dvdx * s) (dvdy * s)). set (b0 := ellipse_b (dudx * s) (dvdx * s) (dudy * s) (dvdy * s)).
  set (c0 := ellipse_c (dudx * s) (dudy * s)).
  assert (A0 : a0 == 1).
  { unfold a0, ellipse_a. destruct AX as [(E1 & E2 & _) | (E1 & E2 & _)]; [rewrite E1 | rewrite E2]; ring. }
  assert (B0 : b0 == 0).
  { unfold b0, ellipse_b. destruct AX as [(E1 & E2 & _) | (E1 & E2 & _)]; rewrite E1, E2; ring. }
  assert (C0 : c0 == C).
  { unfold c0, ellipse_c, C. destruct AX as [(E1 & E2 & E3) | (E1 & E2 & E3)]; [rewrite E2, E3 | rewrite E1, E3]; ring. }
  assert (CP : 1 <= C) by (unfold C; nra).
  set (f := a0 * c0 - b0 * b0 * (1 # 4)).
  assert (F0 : f == C) by (unfold f; rewrite A0, B0, C0; ring).
  assert (NZ : ~ f == 0) by (rewrite F0; lra).
  assert (QF : Qeq_bool f 0 = false).
  { destruct (Qeq_bool f 0) eqn:E; [| reflexivity]. apply Qeq_bool_iff in E. contradiction. }
  assert (FE : f == a0 * c0 - b0 * b0 * (1 # 4)) by reflexivity.
  destruct (half_width sq a0 b0 c0 f c0 SQ FE NZ ltac:(rewrite C0; lra)) as (X1 & X2 & X3 & _).
  destruct (half_width sq a0 b0 c0 f a0 SQ FE NZ ltac:(rewrite A0; lra)) as (Y1 & Y2 & Y3 & _).
  cbv zeta in X1, X2, X3, Y1, Y2, Y3.
  set (delta := - (b0 * (1 / f)) * (b0 * (1 / f)) + 4 * (a0 * (1 / f)) * (c0 * (1 / f))) in *.
  set (hx := 2 * (1 / delta) * sq (delta * (c0 * (1 / f)))) in *. set (hy := 2 * (1 / delta) * sq (delta * (a0 * (1 / f)))) in *.
  exists (a0 * (1 / f)), (b0 * (1 / f)), (c0 * (1 / f)), hx, hy.
  split; [rewrite A0, F0; field; lra |]. split; [rewrite B0; field; exact NZ |]. split; [rewrite C0, F0; field; lra |].
  rewrite C0 in X1, X2. rewrite A0, Qmult_1_r in Y1, Y2.
  split; [apply X3; rewrite F0; lra |]. split; [exact X1 |]. split; [exact X2 |].
  split; [apply Y3; rewrite F0; lra |]. split; [exact Y1 |]. split; [exact Y2 |].
  intros m l lev LA SL. cbv zeta. unfold ewa. rewrite LA. cbn [bind]. rewrite SL. fold s.
  fold a0 b0 c0. fold f. rewrite QF. cbv zeta. fold delta. fold hx hy. unfold place. fold s. clearbody hx hy. split.
  - destruct (to_int_or (Qceiling (u * s - (1 # 2) - hx))) as [-> | ->]; cbn [bind]; [| left; reflexivity].
    destruct (to_int_or (Qfloor (u * s - (1 # 2) + hx))) as [-> | ->]; cbn [bind]; [| left; reflexivity].
    destruct (to_int_or (Qceiling (v * s - (1 # 2) - hy))) as [-> | ->]; cbn [bind]; [| left; reflexivity].
    destruct (to_int_or (Qfloor (v * s - (1 # 2) + hy))) as [-> | ->]; cbn [bind]; [| left; reflexivity].
    right. reflexivity.
  - intros R1 R2 R3 R4. rewrite (to_int_z _ R1), (to_int_z _ R2), (to_int_z _ R3), (to_int_z _ R4). reflexivity.
Qed.

Lemma r2_axes : forall C a b c u v x y, 0 < C -> a == 1 / C -> b == 0 -> c == 1 ->
  r2 a b c u v x y == (inject_Z x - u) * (inject_Z x - u) / C + (inject_Z y - v) * (inject_Z y - v).
Proof. intros C a b c u v x y CP A B E. unfold r2. rewrite A, B, E. field. lra. Qed.

(* the texel nearest to a coordinate *)
Lemma nearest : forall s u, (1 <= s)%N -> 0 <= u -> u <= 1 ->
  exists n, (0 <= n < Z.of_N s)%Z /\ inject_Z n - place s u <= 1 # 2 /\ - (1 # 2) <= inject_Z n - place s u.
Proof.
  intros s u S U0 U1. unfold place.
  assert (SQ : 1 <= qN s) by (change 1 with (qN 1); apply qN_le, S).
  assert (P0 : 0 <= u * qN s) by (apply Qmult_le_0_compat; lra).
  assert (P1 : u * qN s <= qN s) by (rewrite <- (Qmult_1_l (qN s)) at 2; apply Qmult_le_compat_r; lra).
  destruct (Qlt_le_dec (u * qN s) (qN s)) as [L | L].
  - exists (Qfloor (u * qN s)). pose proof (floor_le (u * qN s)). pose proof (floor_lt (u * qN s)).
    pose proof (floor_ge (u * qN s) 0 P0). pose proof (floor_below (u * qN s) (Z.of_N s) L). split; [lia |]. split; lra.
  - exists (Z.of_N s - 1)%Z. split; [lia |].
    assert (E : inject_Z (Z.of_N s - 1) == qN s - 1) by (unfold qN, Z.sub; rewrite inject_Z_plus; reflexivity).
    rewrite E. split; lra.
Qed.

Lemma place_range : forall s u, (1 <= s)%N -> 0 <= u -> u <= 1 -> - (1 # 2) <= place s u /\ place s u <= qN s - (1 # 2).
Proof.
  intros s u S U0 U1. unfold place.
  assert (SQ : 1 <= qN s) by (change 1 with (qN 1); apply qN_le, S).
  assert (P0 : 0 <= u * qN s) by (apply Qmult_le_0_compat; lra).
  assert (P1 : u * qN s <= qN s) by (rewrite <- (Qmult_1_l (qN s)) at 2; apply Qmult_le_compat_r; lra). split; lra.
Qed.

(* a footprint that fits in the level *)
Definition fits (s : N) (wide : Q) : Prop := (101 # 100) * (wide * qN s * (wide * qN s) + 1) <= (qN s - (1 # 2)) * (qN s - (1 # 2)).

Lemma fits_side : forall s wide, (1 <= s)%N -> fits s wide -> (2 <= s)%N.
Proof.
  intros s wide S F. destruct (N.eq_dec s 1) as [-> | N]; [exfalso | lia]. unfold fits in F. change (qN 1) with 1 in F.
  assert (0 <= wide * 1 * (wide * 1)) by nra. lra.
Qed.

(* the box of a footprint that fits *)
Lemma box_fits : forall s u h C, (1 <= s)%N -> 0 <= u -> u <= 1 -> 0 <= h -> h * h <= (101 # 100) * C ->
  (101 # 100) * C <= (qN s - (1 # 2)) * (qN s - (1 # 2)) -> forall x, (Qceiling (place s u - h) <= x <= Qfloor (place s u + h))%Z ->
  (- Z.of_N s <= x <= 2 * Z.of_N s)%Z.
Proof.
  intros s u h C S U0 U1 H0 H1 H2 x (X1 & X2). destruct (place_range s u S U0 U1) as [P0 P1].
  assert (SQ : 1 <= qN s) by (change 1 with (qN 1); apply qN_le, S).
  assert (HS : h <= qN s - (1 # 2)) by (apply sqr_le; lra).
  pose proof (ceil_ge (place s u - h)). pose proof (floor_le (place s u + h)).
  apply inject_le in X1. apply inject_le in X2. split.
  - apply inject_le. rewrite inject_Z_opp. fold (qN s). lra.
  - apply inject_le. rewrite inject_Z_mult. fold (qN s). change (inject_Z 2) with 2. lra.
Qed.

Lemma box_range : forall s u h C, (1 <= s)%N -> (s <= 2 ^ 15)%N -> 0 <= u -> u <= 1 -> 0 <= h -> h * h <= (101 # 100) * C ->
  (101 # 100) * C <= (qN s - (1 # 2)) * (qN s - (1 # 2)) ->
  (- 2 ^ 31 <= Qceiling (place s u - h) < 2 ^ 31)%Z /\ (- 2 ^ 31 <= Qfloor (place s u + h) < 2 ^ 31)%Z.
Proof.
  intros s u h C S S15 U0 U1 H0 H1 H2. destruct (place_range s u S U0 U1) as [P0 P1].
  assert (SQ : 1 <= qN s) by (change 1 with (qN 1); apply qN_le, S).
  assert (SQ2 : qN s <= 32768) by (change 32768 with (qN (2 ^ 15)); apply qN_le, S15).
  assert (HS : h <= qN s - (1 # 2)) by (apply sqr_le; lra).
  pose proof (ceil_ge (place s u - h)). pose proof (ceil_lt (place s u - h)). pose proof (floor_le (place s u + h)). pose proof (floor_lt (place s u + h)).
  change (2 ^ 31)%Z with 2147483648%Z. 
  assert (B : forall z, - (2147483648) <= inject_Z z -> inject_Z z < 2147483648 -> (- 2147483648 <= z < 2147483648)%Z).
  { intros z B1 B2. split; [apply inject_le; exact B1 | apply inject_lt; exact B2]. }
  split; apply B; lra.
Qed.

Lemma ewa_level : forall sq m l i s f lo hi u v dudx dvdx dudy dvdy wide, close_sqrt sq -> level_at m i = Ok l ->
  shows l s f -> within f s lo hi -> (hi < 256)%N -> (1 <= s)%N -> (s <= 2 ^ 15)%N ->
  0 <= u -> u <= 1 -> 0 <= v -> v <= 1 -> along_axes dudx dvdx dudy dvdy wide -> fits s wide ->
  exists t, ewa sq m u v dudx dvdx dudy dvdy i = Ok t /\ forall ch, channel ch -> (lo <= ch t <= hi)%N.
Proof.
  intros sq m l i s f lo hi u v dudx dvdx dudy dvdy wide SQ LA SH W H256 S S15 U0 U1 V0 V1 AX FT.
  pose proof SH as (SL & _).
  destruct (ewa_axes sq s u v dudx dvdx dudy dvdy wide SQ AX) as (a & b & c & hx & hy & EA & EB & EC & X0 & X1 & X2 & Y0 & Y1 & Y2 & E).
  specialize (E m l i LA SL). cbv zeta in E. set (C := wide * qN s * (wide * qN s) + 1) in *.
  assert (CP : 1 <= C) by (unfold C; nra).
  assert (S2 : (2 <= s)%N) by (apply (fits_side s wide S FT)).
  assert (SQ2 : 2 <= qN s) by (change 2 with (qN 2); apply qN_le, S2).
  assert (FY : (101 # 100) * 1 <= (qN s - (1 # 2)) * (qN s - (1 # 2))) by nra.
  assert (Y2' : hy * hy <= (101 # 100) * 1) by lra.
  destruct (box_range s u hx C S S15 U0 U1 X0 X2 FT) as [R1 R2]. destruct (box_range s v hy 1 S S15 V0 V1 Y0 Y2' FY) as [R3 R4].
  destruct E as [_ E]. specialize (E R1 R2 R3 R4). rewrite E. clear E R1 R2 R3 R4.
  pose proof (box_fits s u hx C S U0 U1 X0 X2 FT) as BX. pose proof (box_fits s v hy 1 S V0 V1 Y0 Y2' FY) as BY.
  set (p := place s u) in *. set (q := place s v) in *.
  destruct (gather_ok l s f a b c p q lo hi SH W) with (ps := box (Qceiling (p - hx)) (Qfloor (p + hx)) (Qceiling (q - hy)) (Qfloor (q + hy)))
    as (ws & G & F & P).
  { intros x y. rewrite EA, EB, EC.
    assert (Z1 : 0 <= 1 / C * x * x) by (assert (0 <= 1 / C) by (apply Qle_shift_div_l; lra); nra).
    assert (Z2 : 0 <= 1 * y * y) by nra. lra. }
  { intros x y I. apply in_box in I. destruct I as [Ix Iy]. specialize (BX x Ix). specialize (BY y Iy).
    split; apply wrap_in; lia. }
  destruct (nearest s u S U0 U1) as (nx & NX & NX1 & NX2). destruct (nearest s v S V0 V1) as (ny & NY & NY1 & NY2).
  fold p in NX1, NX2. fold q in NY1, NY2.
  assert (HX : 1 # 2 <= hx) by (apply sqr_le; [exact X0 | nra]). assert (HY : 1 # 2 <= hy) by (apply sqr_le; [exact Y0 | nra]).
  assert (PW : 0 < weight_sum ws).
  { apply sum_pos; [intros p' I; apply (F p' I) |]. apply (P nx ny).
    - apply in_box. split; split; try (apply ceil_le; lra); apply floor_ge; lra.
    - rewrite !wrap_id by lia. rewrite (r2_axes C) by (try assumption; lra).
      assert (D1 : (inject_Z nx - p) * (inject_Z nx - p) / C <= 1 # 4).
      { apply Qle_shift_div_r; [lra |]. nra. }
      assert (D2 : (inject_Z ny - q) * (inject_Z ny - q) <= 1 # 4) by nra. lra. }
  unfold ewa_tail. rewrite G. cbn [bind]. cbv zeta.
  replace (Qeq_bool (weight_sum ws) 0) with false.
  2: { symmetry. destruct (Qeq_bool (weight_sum ws) 0) eqn:E; [| reflexivity]. apply Qeq_bool_iff in E. lra. }
  assert (M : forall ch, channel ch -> exists n, to_u8 (channel_sum ch ws * (1 / weight_sum ws)) = Ok n /\ (lo <= n <= hi)%N).
  { intros ch Ch. apply mean_ok; [exact H256 | | exact PW]. intros p' I. destruct (F p' I) as [F1 F2]. split; [exact F1 | apply F2, Ch]. }
  destruct (M t_r ltac:(right; left; reflexivity)) as (r & -> & Br).
  destruct (M t_g ltac:(right; right; left; reflexivity)) as (g & -> & Bg).
  destruct (M t_b ltac:(right; right; right; reflexivity)) as (bl & -> & Bb).
  destruct (M t_a ltac:(left; reflexivity)) as (al & -> & Ba).
  cbn [bind]. eexists. split; [reflexivity |]. intros ch [-> | [-> | [-> | ->]]]; assumption.
Qed.

(* the result depends on the texels inside the ellipse, at distances that do not wrap *)
Lemma ewa_depends : forall sq m m' l l' i s u v dudx dvdx dudy dvdy wide, close_sqrt sq -> level_at m i = Ok l -> level_at m' i = Ok l' ->
  l_side l = s -> l_side l' = s -> (1 <= s)%N -> (s <= 2 ^ 15)%N -> 0 <= u -> u <= 1 -> 0 <= v -> v <= 1 ->
  along_axes dudx dvdx dudy dvdy wide -> fits s wide ->
  (forall x y, (0 <= x < Z.of_N s)%Z -> (0 <= y < Z.of_N s)%Z ->
    (inject_Z x - place s u) * (inject_Z x - place s u) < wide * qN s * (wide * qN s) + 1 ->
    (inject_Z y - place s v) * (inject_Z y - place s v) < 1 -> fetch l x y = fetch l' x y) ->
  ewa sq m u v dudx dvdx dudy dvdy i = ewa sq m' u v dudx dvdx dudy dvdy i.
Proof.
  intros sq m m' l l' i s u v dudx dvdx dudy dvdy wide SQ LA LA' SL SL' S S15 U0 U1 V0 V1 AX FT H.
  set (C := wide * qN s * (wide * qN s) + 1) in *.
  assert (CP : 1 <= C) by (unfold C; nra).
  assert (S2 : (2 <= s)%N) by (apply (fits_side s wide S FT)).
  assert (SQ2 : 2 <= qN s) by (change 2 with (qN 2); apply qN_le, S2).
  assert (FY : (101 # 100) * 1 <= (qN s - (1 # 2)) * (qN s - (1 # 2))) by nra.
  destruct (ewa_axes sq s u v dudx dvdx dudy dvdy wide SQ AX) as (a & b & c & hx & hy & EA & EB & EC & X0 & X1 & X2 & Y0 & Y1 & Y2 & E).
  fold C in EA, X1, X2. pose proof (E m l i LA SL) as E1. pose proof (E m' l' i LA' SL') as E2. clear E. cbv zeta in E1, E2.
  assert (Y2' : hy * hy <= (101 # 100) * 1) by lra.
  destruct (box_range s u hx C S S15 U0 U1 X0 X2 FT) as [R1 R2]. destruct (box_range s v hy 1 S S15 V0 V1 Y0 Y2' FY) as [R3 R4].
  rewrite (proj2 E1 R1 R2 R3 R4), (proj2 E2 R1 R2 R3 R4). clear E1 E2.
  pose proof (box_fits s u hx C S U0 U1 X0 X2 FT) as BX. pose proof (box_fits s v hy 1 S V0 V1 Y0 Y2' FY) as BY.
  unfold ewa_tail. rewrite (gather_eq l l'); [reflexivity | congruence |].
  intros x y I. rewrite SL. cbv zeta. intros R. apply in_box in I. destruct I as [Ix Iy]. specialize (BX x Ix). specialize (BY y Iy).
  rewrite (r2_axes C) in R by (try assumption; lra).
  set (nx := wrap (Z.of_N s) x) in *. set (ny := wrap (Z.of_N s) y) in *.
  assert (D1 : 0 <= (inject_Z nx - place s u) * (inject_Z nx - place s u) / C) by (apply Qle_shift_div_l; [lra | rewrite Qmult_0_l; apply sqr_nonneg]).
  assert (D2 : 0 <= (inject_Z ny - place s v) * (inject_Z ny - place s v)) by apply sqr_nonneg.
  apply H; [apply wrap_in; lia | apply wrap_in; lia | | lra].
  assert (D3 : (inject_Z nx - place s u) * (inject_Z nx - place s u) / C < 1) by lra.
  apply Qnot_le_lt. intros L. apply (Qlt_not_le _ _ D3). apply Qle_shift_div_l; lra.
Qed.

(* image_map.cpp:181-204, after the axes are known *)
Definition ewa_core (lg sq : Q -> Q) (m : mipmap) (u v dudx dvdx dudy dvdy shorter : Q) : res texel :=
  let last := (Z.of_nat (length m) - 1)%Z in
  let chosen := Qmax 0 (inject_Z last + lg shorter) in
  if negb (Qle_bool chosen (inject_Z last)) then let! l := level_at m last in fetch l 0 0
  else
    let! below := to_range 0 256 chosen in
    let decimal := chosen - inject_Z below in
    let! p0 := ewa sq m u v dudx dvdx dudy dvdy below in
    let! p1 := ewa sq m u v dudx dvdx dudy dvdy (below + 1) in
    blend_texel p0 p1 decimal.

Lemma filter_axes : forall sq p q, close_sqrt sq -> 0 < p -> 0 < q -> p <= 29 * q -> q <= 29 * p ->
  exists d1 d2 d3 d4 sh, along_axes d1 d2 d3 d4 p /\ 0 < sh /\ (sh = sq (p * p + 0 * 0) \/ sh = sq (0 * 0 + q * q)) /\ sh * sh <= (101 # 100) * (p * p) /\ sh * sh <= (101 # 100) * (q * q) /\
    forall lg m u v, ewa_filter lg sq m u v p 0 0 q = ewa_core lg sq m u v d1 d2 d3 d4 sh.
Proof.
  intros sq p q SQ P0 Q0 PQ QP.
  assert (EP : p * p + 0 * 0 == p * p) by ring. assert (EQ : 0 * 0 + q * q == q * q) by ring.
  destruct (SQ (p * p + 0 * 0)) as (A0 & A1 & A2); [rewrite EP; apply sqr_nonneg |].
  destruct (SQ (0 * 0 + q * q)) as (B0 & B1 & B2); [rewrite EQ; apply sqr_nonneg |].
  assert (EL : forall lg m u v, ewa_filter lg sq m u v p 0 0 q = 
    let l1 := sq (p * p + 0 * 0) in let l2 := sq (0 * 0 + q * q) in
    let '(longer, shorter, dudx, dvdx, dudy, dvdy) :=
      if negb (Qle_bool l2 l1) then (l2, l1, 0, q, p, 0) else (l1, l2, p, 0, 0, q) in
    if Qeq_bool shorter 0 then bilinear m u v 0
    else
    let '(shorter, dudy, dvdy) :=
      if negb (Qle_bool longer (shorter * 30)) then
        let scale := longer / (shorter * 30) in (shorter * scale, dudy * scale, dvdy * scale)
      else (shorter, dudy, dvdy) in ewa_core lg sq m u v dudx dvdx dudy dvdy shorter).
  { intros. unfold ewa_filter, ewa_core. cbv zeta. destruct (negb (Qle_bool (sq (0 * 0 + q * q)) _)).
    all: destruct (Qeq_bool _ 0); [reflexivity |]; destruct (negb (Qle_bool _ (_ * 30))); reflexivity. }
  set (l1 := sq (p * p + 0 * 0)) in *. set (l2 := sq (0 * 0 + q * q)) in *. clearbody l1 l2.
  rewrite EP in A1, A2. rewrite EQ in B1, B2.
  assert (L1 : 0 < l1).
  { destruct (Qlt_le_dec 0 l1) as [L | L]; [exact L | exfalso]. assert (l1 == 0) as Z by lra. rewrite Z in A1. nra. }
  assert (L2 : 0 < l2).
  { destruct (Qlt_le_dec 0 l2) as [L | L]; [exact L | exfalso]. assert (l2 == 0) as Z by lra. rewrite Z in B1. nra. }
  assert (NE : forall x, 0 < x -> Qeq_bool x 0 = false).
  { intros x X. destruct (Qeq_bool x 0) eqn:E; [| reflexivity]. apply Qeq_bool_iff in E. lra. }
  assert (PP : p * p <= 841 * (q * q)) by nra. assert (QQ : q * q <= 841 * (p * p)) by nra.
  assert (PSQ : 0 <= p * p) by apply sqr_nonneg. assert (QSQ : 0 <= q * q) by apply sqr_nonneg.
  assert (E12 : l1 <= l2 * 30) by (apply sqr_le; [lra |]; assert (X : l2 * 30 * (l2 * 30) == 900 * (l2 * l2)) by ring; rewrite X; lra).
  assert (E21 : l2 <= l1 * 30) by (apply sqr_le; [lra |]; assert (X : l1 * 30 * (l1 * 30) == 900 * (l1 * l1)) by ring; rewrite X; lra).
  destruct (Qle_bool l2 l1) eqn:E; pose proof E as EB.
  - apply Qle_bool_iff in E. exists p, 0, 0, q, l2. split; [left; repeat split; reflexivity |]. split; [exact L2 |]. split; [right; reflexivity |].
    assert (LL : l2 * l2 <= l1 * l1) by nra. split; [lra |]. split; [exact B2 |].
    intros. rewrite EL. cbv zeta. rewrite EB. cbn [negb]. rewrite (NE _ L2). rewrite (proj2 (Qle_bool_iff _ _) E12). reflexivity.
  - apply le_bool_false in E. exists 0, q, p, 0, l1. split; [right; repeat split; reflexivity |]. split; [exact L1 |]. split; [left; reflexivity |].
    assert (LL : l1 * l1 <= l2 * l2) by nra. split; [exact A2 |]. split; [lra |].
    intros. rewrite EL. cbv zeta. rewrite EB. cbn [negb]. rewrite (NE _ L1). rewrite (proj2 (Qle_bool_iff _ _) E21). reflexivity.
Qed.

Lemma fits_half : forall s p, (2 <= s)%N -> 0 <= p -> p <= 1 # 2 -> fits s p.
Proof.
  intros s p S P0 P1. unfold fits. assert (SQ : 2 <= qN s) by (change 2 with (qN 2); apply qN_le, S).
  set (x := qN s) in *. clearbody x.
  assert (p * x <= x * (1 # 2)) by nra. assert (0 <= p * x) by nra.
  assert (p * x * (p * x) <= x * (1 # 2) * (x * (1 # 2))) by nra. nra.
Qed.

Lemma sides : forall side i, (1 <= side)%N -> (i <= N.log2 side)%N -> (1 <= side / 2 ^ i)%N /\ (i < N.log2 side -> 2 <= side / 2 ^ i)%N.
Proof.
  intros side i L I. destruct (N.log2_spec side ltac:(lia)) as [A _].
  assert (E : forall k, (i + k = N.log2 side)%N -> (2 ^ k <= side / 2 ^ i)%N).
  { intros k K. apply N.div_le_lower_bound; [apply N.pow_nonzero; lia |]. rewrite <- N.pow_add_r, K. exact A. }
  split.
  - specialize (E (N.log2 side - i)%N ltac:(lia)). assert (1 <= 2 ^ (N.log2 side - i))%N by (change 1%N with (2 ^ 0)%N; apply N.pow_le_mono_r; lia). lia.
  - intros I2. specialize (E (N.log2 side - i)%N ltac:(lia)). assert (2 ^ 1 <= 2 ^ (N.log2 side - i))%N by (apply N.pow_le_mono_r; lia).
    change (2 ^ 1)%N with 2%N in *. lia.
Qed.
