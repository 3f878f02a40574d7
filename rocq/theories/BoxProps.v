(* C43, C109-C112: the ray/box test. *)
From Coq Require Import Lqa.
From Verif Require Import Common GeomModel AabbModel AabbSpec AabbProofs TriModel BoxModel BoxSpec.
Local Open Scope Q_scope.

(* what the planes of one axis give *)
Definition axis_facts (o d : Q) (n f : xq) : Prop :=
  n <> NaN /\ f <> NaN /\ xlt f n = false /\
  (forall t, (xlt (Fin t) n = false /\ xlt f (Fin t) = false) <-> (0 <= o + d * t /\ o + d * t <= 1)) /\
  (forall t, xlt n (Fin t) = true -> xlt (Fin t) f = true -> 0 < o + d * t /\ o + d * t < 1) /\
  (forall q, n = Fin q -> o + d * q == (if qltb d 0 then 1 else 0)) /\
  (forall q, f = Fin q -> o + d * q == (if qltb d 0 then 0 else 1)) /\
  (~ d == 0 -> exists p q, n = Fin p /\ f = Fin q) /\
  (d == 0 -> (forall q, n <> Fin q) /\ (forall q, f <> Fin q)).

Lemma finite_axis : forall o d, ~ d == 0 ->
  let lo := (if qltb d 0 then 1 - o else - o) * / d in
  let hi := (if qltb d 0 then - o else 1 - o) * / d in
  axis_facts o d (Fin lo) (Fin hi) /\ lo < hi.
Proof.
  intros o d D lo hi.
  assert (L : o + d * lo == (if qltb d 0 then 1 else 0)) by (unfold lo; destruct (qltb d 0); field; exact D).
  assert (H : o + d * hi == (if qltb d 0 then 0 else 1)) by (unfold hi; destruct (qltb d 0); field; exact D).
  clearbody lo hi.
  assert (LH : lo < hi).
  { destruct (qltb_spec d 0).
    - apply Qnot_le_lt; intro C. assert (lo * d <= hi * d) by (apply Qmul_le_neg; assumption). lra.
    - apply Qnot_le_lt; intro C. assert (0 < d) by (destruct (Q_dec 0 d) as [[X | X] | X]; [exact X | lra | exfalso; apply D; lra]).
      assert (hi * d <= lo * d) by (apply Qmul_le_pos; assumption). lra. }
  split; [| exact LH].
  assert (MON : forall a b, a <= b -> if qltb d 0 then o + d * b <= o + d * a else o + d * a <= o + d * b).
  { intros a b AB; destruct (qltb_spec d 0).
    - assert (b * d <= a * d) by (apply Qmul_le_neg; assumption); lra.
    - assert (0 < d) by (destruct (Q_dec 0 d) as [[X | X] | X]; [exact X | lra | exfalso; apply D; lra]).
      assert (a * d <= b * d) by (apply Qmul_le_pos; assumption); lra. }
  assert (SMON : forall a b, a < b -> if qltb d 0 then o + d * b < o + d * a else o + d * a < o + d * b).
  { intros a b AB; destruct (qltb_spec d 0).
    - assert (b * d < a * d).
      { apply Qnot_le_lt; intro C; assert (b * d * / d <= a * d * / d \/ True) by tauto.
        assert (N : 0 < - d) by lra. assert (X : a * (- d) < b * (- d)) by (apply Qmult_lt_r; assumption). lra. }
      lra.
    - assert (0 < d) by (destruct (Q_dec 0 d) as [[X | X] | X]; [exact X | lra | exfalso; apply D; lra]).
      assert (a * d < b * d) by (apply Qmult_lt_r; assumption); lra. }
  unfold axis_facts; repeat match goal with |- _ /\ _ => split end; try discriminate.
  - cbn; apply qltb_ge; lra.
  - intro t; cbn; rewrite !qltb_ge; split.
    + intros (A & B); pose proof (MON _ _ A); pose proof (MON _ _ B); destruct (qltb d 0); lra.
    + intros (A & B); split; apply Qnot_lt_le; intro C; pose proof (SMON _ _ C); destruct (qltb d 0); lra.
  - intros t; cbn; rewrite !qltb_lt; intros A B; pose proof (SMON _ _ A); pose proof (SMON _ _ B); destruct (qltb d 0); lra.
  - intros q E; injection E as <-; exact L.
  - intros q E; injection E as <-; exact H.
  - intros _; exists lo, hi; split; reflexivity.
  - intro E; contradiction.
Qed.

Lemma qltb_false_of : forall a b, b <= a -> qltb a b = false.
Proof. intros; apply qltb_ge; assumption. Qed.
Lemma qltb_true_of : forall a b, a < b -> qltb a b = true.
Proof. intros; apply qltb_lt; assumption. Qed.

Lemma axis_ok : forall nz o d, ~ d == 0 \/ (~ o == 0 /\ ~ o == 1) ->
  exists n f, box_axis nz o d = (n, f) /\ axis_facts o d n f.
Proof.
  intros nz o d H; unfold box_axis, recip.
  destruct (Qeqb_spec d 0) as [Z | Z].
  - destruct H as [H | (H0 & H1)]; [contradiction |].
    assert (INF : forall q, ~ q == 0 -> xmul (Fin q) (if nz then NInf else PInf) =
       if xorb nz (qltb q 0) then NInf else PInf).
    { intros q Q; destruct nz; cbn; unfold inf_fin; destruct (Qeqb_spec q 0); try contradiction; reflexivity. }
    rewrite !INF by (intro C; first [apply H0; lra | apply H1; lra]).
    assert (T : forall t, d * t == 0) by (intro t; rewrite Z; ring).
    destruct (Q_dec o 0) as [[O0 | O0] | O0]; [| | contradiction].
    + rewrite (qltb_false_of (- o) 0), (qltb_false_of (1 - o) 0) by lra.
      destruct nz; cbn; do 2 eexists; (split; [reflexivity |]); unfold axis_facts;
        repeat match goal with |- _ /\ _ => split end; try discriminate; try reflexivity;
        try (intro t; pose proof (T t); cbn; split; [intros (A & B); try discriminate | intros (A & B); lra]; split; lra);
        try (intros q E; discriminate); try (intro ND; contradiction); try (intro; split; intros; discriminate);
        try (intros t A B; discriminate).
    + destruct (Q_dec o 1) as [[O1 | O1] | O1]; [| | contradiction].
      * rewrite (qltb_true_of (- o) 0), (qltb_false_of (1 - o) 0) by lra.
        destruct nz; cbn; do 2 eexists; (split; [reflexivity |]); unfold axis_facts;
          repeat match goal with |- _ /\ _ => split end; try discriminate; try reflexivity;
          try (intro t; pose proof (T t); cbn; split; [intros (A & B); split; lra | intros (A & B); split; reflexivity]);
          try (intros q E; discriminate); try (intro ND; contradiction); try (intro; split; intros; discriminate);
          try (intros t A B; pose proof (T t); split; lra).
      * rewrite (qltb_true_of (- o) 0), (qltb_true_of (1 - o) 0) by lra.
        destruct nz; cbn; do 2 eexists; (split; [reflexivity |]); unfold axis_facts;
          repeat match goal with |- _ /\ _ => split end; try discriminate; try reflexivity;
          try (intro t; pose proof (T t); cbn; split; [intros (A & B); try discriminate | intros (A & B); lra]; split; lra);
          try (intros q E; discriminate); try (intro ND; contradiction); try (intro; split; intros; discriminate);
          try (intros t A B; discriminate).
  - destruct (finite_axis o d Z) as (F & LH); cbn [xmul xlt].
    destruct (qltb_spec d 0) as [N | P].
    + rewrite (qltb_true_of ((1 - o) * / d) (- o * / d)) by exact LH.
      do 2 eexists; split; [reflexivity | exact F].
    + rewrite (qltb_false_of ((1 - o) * / d) (- o * / d)) by (apply Qlt_le_weak; exact LH).
      do 2 eexists; split; [reflexivity | exact F].
Qed.

Lemma larger : forall m n, m <> NaN -> n <> NaN ->
  let m' := if xlt m n then n else m in
  m' <> NaN /\
  (forall t, xlt (Fin t) m' = false <-> xlt (Fin t) m = false /\ xlt (Fin t) n = false) /\
  (forall t, xlt m' (Fin t) = true <-> xlt m (Fin t) = true /\ xlt n (Fin t) = true).
Proof.
  intros m n M N m'; subst m'.
  destruct m as [p | | |], n as [q | | |]; try (exfalso; congruence); cbn [xlt];
    try (split; [discriminate | split; intro t; cbn; intuition discriminate]).
  destruct (qltb_spec p q); (split; [discriminate | split; intro t; cbn]); rewrite ?qltb_ge, ?qltb_lt; split; intuition lra.
Qed.
Lemma smaller : forall m n, m <> NaN -> n <> NaN ->
  let m' := if xlt n m then n else m in
  m' <> NaN /\
  (forall t, xlt m' (Fin t) = false <-> xlt m (Fin t) = false /\ xlt n (Fin t) = false) /\
  (forall t, xlt (Fin t) m' = true <-> xlt (Fin t) m = true /\ xlt (Fin t) n = true).
Proof.
  intros m n M N m'; subst m'.
  destruct m as [p | | |], n as [q | | |]; try (exfalso; congruence); cbn [xlt];
    try (split; [discriminate | split; intro t; cbn; intuition discriminate]).
  destruct (qltb_spec q p); (split; [discriminate | split; intro t; cbn]); rewrite ?qltb_ge, ?qltb_lt; split; intuition lra.
Qed.

(* the interval after the three axes, with the entry axis *)
Definition span (r : ray) (mint maxt : xq) (axis : nat) : Prop :=
  mint <> NaN /\ maxt <> NaN /\
  (forall t, (xlt (Fin t) mint = false /\ xlt maxt (Fin t) = false) <-> cube (ray_apply r t)) /\
  (forall t, xlt mint (Fin t) = true -> xlt (Fin t) maxt = true -> cube_inside (ray_apply r t)) /\
  (axis < 3)%nat /\
  (forall q, mint = Fin q -> coord axis (ray_apply r q) == (if qltb (coord axis (r_d r)) 0 then 1 else 0) /\ ~ coord axis (r_d r) == 0) /\
  (forall q, maxt = Fin q -> exists k, (k < 3)%nat /\ coord k (ray_apply r q) == (if qltb (coord k (r_d r)) 0 then 0 else 1)) /\
  (moving r -> mint <> PInf \/ xlt maxt mint = true) /\
  (moving r -> maxt <> PInf).

Lemma box_span : forall r, off_planes r ->
  let x := box_axis (r_nzx r) (vx (r_o r)) (vx (r_d r)) in
  let y := box_axis (r_nzy r) (vy (r_o r)) (vy (r_d r)) in
  let z := box_axis (r_nzz r) (vz (r_o r)) (vz (r_d r)) in
  let '(m1, a1) := if xlt (fst x) (fst y) then (fst y, 1%nat) else (fst x, O) in
  let M1 := if xlt (snd y) (snd x) then snd y else snd x in
  let '(m2, a2) := if xlt m1 (fst z) then (fst z, 2%nat) else (m1, a1) in
  let M2 := if xlt (snd z) M1 then snd z else M1 in
  span r m2 M2 a2 /\ (forall t, cube (ray_apply r t) -> xlt M1 m1 = false).
Proof.
  intros r (HX & HY & HZ); cbn zeta in *.
  destruct (axis_ok (r_nzx r) _ _ HX) as (nx & fx & -> & (NX & FX & LX & CX & IX & AX & BX & EX & ZX)).
  destruct (axis_ok (r_nzy r) _ _ HY) as (ny & fy & -> & (NY & FY & LY & CY & IY & AY & BY & EY & ZY)).
  destruct (axis_ok (r_nzz r) _ _ HZ) as (nz & fz & -> & (NZ & FZ & LZ & CZ & IZ & AZ & BZ & EZ & ZZ)).
  cbn [fst snd]; clear HX HY HZ.
  destruct (larger nx ny NX NY) as (N1 & G1 & G1').
  destruct (smaller fx fy FX FY) as (F1 & S1 & S1').
  set (m1 := if xlt nx ny then ny else nx) in *; set (M1 := if xlt fy fx then fy else fx) in *.
  destruct (larger m1 nz N1 NZ) as (N2 & G2 & G2').
  destruct (smaller M1 fz F1 FZ) as (F2 & S2 & S2').
  set (m2 := if xlt m1 nz then nz else m1) in *; set (M2 := if xlt fz M1 then fz else M1) in *.
  set (a1 := if xlt nx ny then 1%nat else O); set (a2 := if xlt m1 nz then 2%nat else a1).
  assert (W : (if xlt nx ny then (ny, 1%nat) else (nx, O)) = (m1, a1)) by (unfold m1, a1; destruct (xlt nx ny); reflexivity).
  rewrite W; clear W.
  assert (W : (if xlt m1 nz then (nz, 2%nat) else (m1, a1)) = (m2, a2)) by (unfold m2, a2; destruct (xlt m1 nz); reflexivity).
  rewrite W; clear W.
  split.
  - unfold span; split; [exact N2 |]; split; [exact F2 |].
    split.
    { intro t; rewrite G2, G1, S2, S1; unfold cube, ray_apply; cbn [vx vy vz].
      rewrite <- CX, <- CY, <- CZ; tauto. }
    split.
    { intros t A B; rewrite G2', G1' in A; rewrite S2', S1' in B.
      unfold cube_inside, ray_apply; cbn [vx vy vz].
      split; [apply IX; tauto | split; [apply IY; tauto | apply IZ; tauto]]. }
    split.
    { unfold a2, a1; destruct (xlt m1 nz); [lia | destruct (xlt nx ny); lia]. }
    split.
    { intros q E; unfold a2, m2 in *; destruct (xlt m1 nz).
      - cbn [coord]; split; [apply AZ; exact E | intro Z; destruct (ZZ Z) as (C & _); exact (C _ E)].
      - unfold a1, m1 in *; destruct (xlt nx ny); cbn [coord].
        + split; [apply AY; exact E | intro Z; destruct (ZY Z) as (C & _); exact (C _ E)].
        + split; [apply AX; exact E | intro Z; destruct (ZX Z) as (C & _); exact (C _ E)]. }
    split.
    { intros q E; unfold M2 in *; destruct (xlt fz M1).
      - exists 2%nat; split; [lia | apply BZ; exact E].
      - unfold M1 in *; destruct (xlt fy fx); [exists 1%nat; split; [lia | apply BY; exact E] | exists O; split; [lia | apply BX; exact E]]. }
    assert (MP : moving r -> M2 <> PInf).
    { intros MV C.
      assert (IRR : forall q, qltb q q = true -> False) by (intros q Q; apply qltb_lt in Q; lra).
      destruct MV as [MV | [MV | MV]].
      + destruct (EX MV) as (? & q & _ & E); destruct (proj1 (S2' q)) as (A & _); [rewrite C; reflexivity |].
        apply S1' in A; destruct A as (A & _); rewrite E in A; exact (IRR _ A).
      + destruct (EY MV) as (? & q & _ & E); destruct (proj1 (S2' q)) as (A & _); [rewrite C; reflexivity |].
        apply S1' in A; destruct A as (_ & A); rewrite E in A; exact (IRR _ A).
      + destruct (EZ MV) as (? & q & _ & E); destruct (proj1 (S2' q)) as (_ & A); [rewrite C; reflexivity |].
        rewrite E in A; exact (IRR _ A). }
    split; [| exact MP].
    intro MV; specialize (MP MV).
    clear - MP N2 F2; clearbody m2 M2; destruct m2 as [p | | |]; [left; discriminate | | left; discriminate | congruence].
    right; destruct M2 as [p | | |]; [reflexivity | congruence | reflexivity | congruence].
  - intros t (CX1 & CY1 & CZ1); unfold ray_apply in CX1, CY1; cbn [vx vy] in CX1, CY1.
    apply (proj2 (CX t)) in CX1; apply (proj2 (CY t)) in CY1.
    assert (A : xlt (Fin t) m1 = false) by (apply G1; tauto).
    assert (B : xlt M1 (Fin t) = false) by (apply S1; tauto).
    clear - A B N1 F1; destruct m1 as [p | | |], M1 as [q | | |]; cbn in *; try congruence.
    apply qltb_ge in A; apply qltb_ge in B; apply qltb_ge; lra.
Qed.

Lemma box_case : forall masked r distance h, off_planes r -> moving r ->
  exists mint maxt axis, span r mint maxt axis /\
  match box_intersect masked r distance h with
  | None => (forall t, ~ cube (ray_apply r t)) \/
            (xlt (Fin self_err) mint = false /\ xlt (Fin self_err) maxt = false) \/
            (xlt maxt mint = false /\ exists t, t = (if xlt (Fin self_err) mint then mint else maxt) /\ xlt (Fin self_err) t = true /\
               (xlt distance t = true \/ masked h = true))
  | Some b => xlt maxt mint = false /\ masked h = false /\
      bh_t b = (if xlt (Fin self_err) mint then mint else maxt) /\ xlt (Fin self_err) (bh_t b) = true /\
      xlt distance (bh_t b) = false /\
      (forall t, bh_t b = Fin t -> bh_point b = xvec_of (ray_apply r t)) /\
      bh_normal b = unit_axis axis (if xlt (Fin self_err) mint then - qsign (coord axis (r_d r))
                                    else - qsign (coord axis (r_d r)) * -1) /\
      bh_dpdu b = (if Qeq_bool (vz (bh_normal b)) 0 then V (- vy (bh_normal b)) (vx (bh_normal b)) 0
                   else V (vz (bh_normal b)) 0 0)
  end.
Proof.
  intros masked r distance h OP MV; pose proof (box_span r OP) as S; unfold box_intersect, box_narrow.
  destruct (box_axis (r_nzx r) _ _) as (nx, fx); destruct (box_axis (r_nzy r) _ _) as (ny, fy).
  destruct (box_axis (r_nzz r) _ _) as (nz, fz); cbn [fst snd] in *.
  destruct (if xlt nx ny then (ny, 1%nat) else (nx, O)) as (m1, a1).
  set (M1 := if xlt fy fx then fy else fx) in *.
  destruct (if xlt m1 nz then (nz, 2%nat) else (m1, a1)) as (m2, a2) eqn:E2.
  destruct S as (S & NB).
  exists m2, (if xlt fz M1 then fz else M1), a2; split; [exact S |].
  set (M2 := if xlt fz M1 then fz else M1) in *.
  destruct (xlt M1 m1) eqn:L1.
  { left; intros t C; specialize (NB t C); discriminate. }
  rewrite E2; fold M2.
  destruct S as (N2 & F2 & C & I & AX & EN & EXT & M & MP).
  destruct (xlt M2 m2) eqn:L2.
  { left; intros t CU; apply C in CU; destruct CU as (A & B); clear - A B L2 N2 F2.
    clearbody M2; destruct m2, M2; cbn in *; try congruence.
    apply qltb_ge in A; apply qltb_ge in B; apply qltb_lt in L2; lra. }
  destruct (xlt (Fin self_err) m2) eqn:D1.
  - destruct (xlt distance m2) eqn:D2; cbn [orb].
    { right; right; split; [reflexivity |]; exists m2; rewrite D1; auto. }
    destruct (masked h) eqn:D3.
    { right; right; split; [reflexivity |]; exists m2; rewrite D1; auto. }
    cbn [bh_t bh_point bh_normal bh_dpdu]; repeat (split; [reflexivity || assumption |]).
    split; [intros t ->; reflexivity | split; reflexivity].
  - destruct (xlt (Fin self_err) M2) eqn:D4.
    2: { right; left; split; reflexivity. }
    destruct (xlt distance M2) eqn:D2; cbn [orb].
    { right; right; split; [reflexivity |]; exists M2; rewrite D4; auto. }
    destruct (masked h) eqn:D3.
    { right; right; split; [reflexivity |]; exists M2; rewrite D4; auto. }
    cbn [bh_t bh_point bh_normal bh_dpdu]; repeat (split; [reflexivity || assumption |]).
    split; [intros t ->; reflexivity | split; reflexivity].
Qed.

(* where the chosen parameter is *)
Lemma span_first : forall r mint maxt axis, span r mint maxt axis -> moving r -> xlt maxt mint = false ->
  let t := if xlt (Fin self_err) mint then mint else maxt in
  xlt (Fin self_err) t = true ->
  exists q, t = Fin q /\ cube_surface (ray_apply r q) /\
    forall u, self_err < u -> u < q -> ~ cube_surface (ray_apply r u).
Proof.
  intros r mint maxt axis (NN & FN & C & I & AX & EN & EXT & M & MP) MV L t T.
  specialize (M MV); specialize (MP MV).
  destruct (xlt (Fin self_err) mint) eqn:D; subst t; cbn in T.
  - destruct mint as [q | | |]; try discriminate.
    2: { destruct M as [M | M]; congruence. }
    exists q; split; [reflexivity |].
    assert (IN : cube (ray_apply r q)).
    { apply C; split; [cbn; apply qltb_ge; lra |].
      clear - L; destruct maxt; cbn in *; congruence. }
    split.
    + split; [exact IN |]; intros (X & Y & Z); destruct (EN q eq_refl) as (E & _).
      destruct axis as [| [| [| a]]]; cbn [coord] in E; [| | | lia];
        destruct (qltb _ 0); lra.
    + intros u U1 U2 (CU & _); apply C in CU; destruct CU as (CU & _); cbn in CU; apply qltb_ge in CU; lra.
  - destruct maxt as [q | | |]; try discriminate; [| congruence].
    exists q; split; [reflexivity |].
    assert (IN : cube (ray_apply r q)).
    { apply C; split; [| cbn; apply qltb_ge; lra].
      clear - L; destruct mint; cbn in *; congruence. }
    split.
    + split; [exact IN |]; intros (X & Y & Z); destruct (EXT q eq_refl) as (k & K & E).
      destruct k as [| [| [| a]]]; cbn [coord] in E; [| | | lia]; match type of E with context [qltb ?x 0] => destruct (qltb x 0) end; lra.
    + intros u U1 U2 (_ & CU); apply CU; apply I.
      * clear - D U1 NN; destruct mint as [p | | |]; cbn in *; try congruence.
        apply qltb_ge in D; apply qltb_lt; lra.
      * cbn; apply qltb_lt; exact U2.
Qed.

(* C43.  The box test, for every ray that moves and does not run in the plane of a face (a
   direction may be parallel to the axes) and a mask that lets the hit through: it reports the
   first point of the surface beyond the threshold, unless that is beyond the given distance. *)
Theorem box_exact : forall masked r distance h, moving r -> off_planes r -> masked h = false -> distance <> NaN ->
  match box_intersect masked r distance h with
  | Some b => exists t, bh_t b = Fin t /\ bh_point b = xvec_of (ray_apply r t) /\
      self_err < t /\ xlt distance (Fin t) = false /\ cube_surface (ray_apply r t) /\
      forall u, self_err < u -> u < t -> ~ cube_surface (ray_apply r u)
  | None => forall t, self_err < t -> xlt distance (Fin t) = false -> ~ cube_surface (ray_apply r t)
  end.
Proof.
  intros masked r distance h MV OP MK DN.
  destruct (box_case masked r distance h OP MV) as (mint & maxt & axis & S & H).
  destruct (box_intersect masked r distance h) as [b |].
  - destruct H as (L & _ & E & T & D & P & _).
    rewrite E in *; destruct (span_first r mint maxt axis S MV L T) as (q & Q & SU & FI).
    exists q; split; [exact Q |]; split; [apply P; exact Q |].
    rewrite Q in T, D; cbn in T; apply qltb_lt in T; auto.
  - intros t T D (CU & NI); destruct H as [H | [(H1 & H2) | (L & t' & -> & T' & H)]].
    + exact (H t CU).
    + destruct S as (_ & FN & C & _); apply C in CU; destruct CU as (_ & CU).
      clear - H2 CU T FN; destruct maxt as [q | | |]; cbn in *; try congruence.
      apply qltb_ge in H2; apply qltb_ge in CU; lra.
    + destruct H as [H | H]; [| congruence].
      destruct (span_first r mint maxt axis S MV L T') as (q & Q & SU & FI); rewrite Q in H.
      assert (X : t < q).
      { clear - D H DN; destruct distance as [d | | |]; cbn in *; try congruence.
        apply qltb_lt in H; apply qltb_ge in D; lra. }
      apply (FI t T X); split; assumption.
Qed.
Print Assumptions box_exact.

Definition some_hit : hit :=
  mk_hit (V 0 0 0) (V 0 0 0) (xvec_of (V 0 0 0)) (xvec_of (V 0 0 0)) 0 (0, 0) (0, 0) (0, 0) false.
Example box_exact_ex : let r := mk_ray (V (1 # 2) (-1) (1 # 4)) (V 0 2 1) (true, false, false) in
  moving r /\ off_planes r /\
  match box_intersect no_mask r PInf some_hit with
  | Some b => bh_t b = Fin (1 # 2) /\ bh_normal b = V 0 (-1) 0
  | None => False
  end.
Proof.
  cbn zeta; split; [right; left; discriminate |]; split.
  - unfold off_planes; cbn; split; [right; split; discriminate | split; left; discriminate].
  - vm_compute; split; reflexivity.
Qed.

(* C109.  Entering a box: the normal is that of the face entered and points against the ray. *)
Theorem box_normal_entering : forall masked r distance h b, moving r -> off_planes r -> ~ cube (ray_apply r self_err) ->
  box_intersect masked r distance h = Some b ->
  forall t, bh_t b = Fin t -> on_face (ray_apply r t) (bh_normal b) /\ dot (bh_normal b) (r_d r) < 0.
Proof.
  intros masked r distance h b MV OP OUT E t T.
  destruct (box_case masked r distance h OP MV) as (mint & maxt & axis & S & H); rewrite E in H.
  destruct H as (L & _ & B & ERR & _ & _ & N & _).
  assert (D : xlt (Fin self_err) mint = true).
  { destruct (xlt (Fin self_err) mint) eqn:D; [reflexivity |]; exfalso; apply OUT; destruct S as (_ & FN & C & _); apply C.
    split; [exact D |]. rewrite B in ERR; clear - ERR FN; destruct maxt; cbn in *; try congruence.
    apply qltb_lt in ERR; apply qltb_ge; lra. }
  rewrite D in *; rewrite B in T.
  assert (IN : cube (ray_apply r t)).
  { destruct S as (_ & FN & C & _); apply C; rewrite T in *; split; [cbn; apply qltb_ge; lra |].
    clear - L; destruct maxt; cbn in *; congruence. }
  destruct S as (_ & _ & _ & _ & AX & EN & _); destruct (EN t T) as (V1 & V2).
  rewrite N; unfold on_face, qsign, dot.
  destruct axis as [| [| [| a]]]; cbn [coord unit_axis vx vy vz] in *; [| | | lia];
    match goal with |- context [qltb ?d 0] => destruct (qltb_spec d 0) as [Q | Q];
      [| assert (0 < d) by (destruct (Q_dec 0 d) as [[X | X] | X]; [exact X | lra | exfalso; apply V2; lra])] end;
    (split; [split; [exact IN |] | lra]); tauto.
Qed.
Print Assumptions box_normal_entering.

Lemma positive_axis : forall nz o d, 0 < d -> box_axis nz o d = (Fin (- o * / d), Fin ((1 - o) * / d)).
Proof.
  intros nz o d D; unfold box_axis, recip; destruct (Qeqb_spec d 0); [lra |]; cbn [xmul xlt].
  rewrite qltb_false_of; [reflexivity |]; assert (0 < / d) by (apply Qinv_lt_0_compat; exact D); apply Qmul_le_pos; [assumption | lra].
Qed.
Lemma cross_div : forall a b c d, 0 < c -> 0 < d -> a * d < b * c -> a * / c < b * / d.
Proof.
  intros a b c d C D H; apply (Qmult_lt_r _ _ (c * d)); [apply Qmult_lt_0_compat; assumption |].
  setoid_replace (a * / c * (c * d)) with (a * d) by (field; lra).
  setoid_replace (b * / d * (c * d)) with (b * c) by (field; lra); exact H.
Qed.

(* C110.  Leaving a box through another pair of faces than the one the line enters it by: the
   reported normal is that of the entry pair, perpendicular to the normal of the face. *)
Theorem box_normal_leaving_refuted : forall o d distance h nz,
  cube_inside o -> 0 < vx d -> 0 < vy d -> 0 < vz d ->
  vx o * vy d < vy o * vx d -> vx o * vz d < vz o * vx d ->
  (1 - vy o) * vx d < (1 - vx o) * vy d -> (1 - vy o) * vz d < (1 - vz o) * vy d ->
  self_err * vy d < 1 - vy o -> xlt distance (Fin ((1 - vy o) * / vy d)) = false ->
  let r := mk_ray o d nz in
  exists b t, box_intersect no_mask r distance h = Some b /\ bh_t b = Fin t /\
    vy (ray_apply r t) == 1 /\ vx (ray_apply r t) < 1 /\ vz (ray_apply r t) < 1 /\
    bh_normal b = V 1 0 0 /\ ~ on_face (ray_apply r t) (bh_normal b).
Proof.
  intros o d distance h nz ((X0 & X1) & (Y0 & Y1) & (Z0 & Z1)) DX DY DZ NY NZ FX FZ ERR DIST r.
  unfold box_intersect, r_nzx, r_nzy, r_nzz; cbn [r r_o r_d]; subst r; cbn [r_o r_d].
  rewrite !positive_axis by assumption; cbn [fst snd box_narrow xlt].
  assert (E1 : qltb (- vx o * / vx d) (- vy o * / vy d) = false).
  { apply qltb_ge; apply Qlt_le_weak; apply cross_div; [assumption | assumption | lra]. }
  assert (E2 : qltb ((1 - vy o) * / vy d) ((1 - vx o) * / vx d) = true) by (apply qltb_lt; apply cross_div; assumption).
  rewrite E1, E2; cbn [xlt].
  assert (E4 : qltb (- vx o * / vx d) (- vz o * / vz d) = false).
  { apply qltb_ge; apply Qlt_le_weak; apply cross_div; [assumption | assumption | lra]. }
  assert (E5 : qltb ((1 - vz o) * / vz d) ((1 - vy o) * / vy d) = false).
  { apply qltb_ge; apply Qlt_le_weak; apply cross_div; assumption. }
  assert (E3 : qltb ((1 - vy o) * / vy d) (- vx o * / vx d) = false).
  { apply qltb_ge; apply Qlt_le_weak; apply cross_div; [assumption | assumption |].
    assert (0 < (1 - vy o) * vx d) by (apply Qmult_lt_0_compat; lra).
    assert (0 < vx o * vy d) by (apply Qmult_lt_0_compat; lra). lra. }
  rewrite E3; cbn [box_narrow xlt]; rewrite E4, E5; cbn [xlt]; rewrite E3; cbn [xlt].
  assert (E6 : qltb self_err (- vx o * / vx d) = false).
  { apply qltb_ge. assert (I : 0 < / vx d) by (apply Qinv_lt_0_compat; exact DX).
    assert (0 < vx o * / vx d) by (apply Qmult_lt_0_compat; assumption). unfold self_err; lra. }
  assert (E7 : qltb self_err ((1 - vy o) * / vy d) = true).
  { apply qltb_lt; apply (Qmult_lt_r _ _ (vy d)); [assumption |].
    setoid_replace ((1 - vy o) * / vy d * vy d) with (1 - vy o) by (field; lra); exact ERR. }
  rewrite E6, E7, DIST; cbn [orb no_mask].
  eexists; exists ((1 - vy o) * / vy d); split; [reflexivity |]; cbn [bh_t bh_normal coord unit_axis].
  split; [reflexivity |]; unfold ray_apply; cbn [r_o r_d vx vy vz].
  assert (PX : vx o + vx d * ((1 - vy o) * / vy d) < 1).
  { assert (A : (1 - vy o) * / vy d * vx d < (1 - vx o) * / vx d * vx d) by (apply Qmult_lt_r; [assumption | apply cross_div; assumption]).
    setoid_replace ((1 - vx o) * / vx d * vx d) with (1 - vx o) in A by (field; lra). lra. }
  assert (PZ : vz o + vz d * ((1 - vy o) * / vy d) < 1).
  { assert (A : (1 - vy o) * / vy d * vz d < (1 - vz o) * / vz d * vz d) by (apply Qmult_lt_r; [assumption | apply cross_div; assumption]).
    setoid_replace ((1 - vz o) * / vz d * vz d) with (1 - vz o) in A by (field; lra). lra. }
  split; [field; lra |]; split; [exact PX |]; split; [exact PZ |].
  unfold qsign; rewrite (qltb_false_of (vx d) 0) by lra; split; [reflexivity |].
  intros (_ & [(_ & C) | [(C & _) | [(C & _) | [(C & _) | [(C & _) | (C & _)]]]]]); try discriminate.
  cbn [vx] in C; lra.
Qed.
Print Assumptions box_normal_leaving_refuted.
Example box_normal_leaving_ex : let o := V (1 # 4) (1 # 2) (1 # 2) in let d := V 1 1 (1 # 2) in
  cube_inside o /\ 0 < vx d /\ 0 < vy d /\ 0 < vz d /\
  vx o * vy d < vy o * vx d /\ vx o * vz d < vz o * vx d /\
  (1 - vy o) * vx d < (1 - vx o) * vy d /\ (1 - vy o) * vz d < (1 - vz o) * vy d /\ self_err * vy d < 1 - vy o.
Proof. unfold cube_inside; cbn; repeat split; reflexivity. Qed.

(* C111.  A ray that runs in the plane of a face is reported to hit boxes it does not meet. *)
Theorem box_plane_refuted : forall o d distance h nz,
  vx o == 0 -> vx d == 0 -> 0 < vy d -> 0 < vz d ->
  (1 - vy o) * vz d < - vz o * vy d -> self_err * vy d < 1 - vy o ->
  xlt distance (Fin ((1 - vy o) * / vy d)) = false ->
  let r := mk_ray o d (false, false, nz) in
  (forall t, ~ cube (ray_apply r t)) /\
  exists b, box_intersect no_mask r distance h = Some b /\ bh_t b = Fin ((1 - vy o) * / vy d).
Proof.
  intros o d distance h nz X0 DX DY DZ MISS ERR DIST r; split.
  - intros t (_ & (_ & Y1) & (Z0 & _)); unfold r, ray_apply in *; cbn [r_o r_d vx vy vz] in *.
    assert (T : vy d * t * vz d <= (1 - vy o) * vz d) by (apply Qmul_le_pos; lra).
    assert (U : - vz o * vy d <= vz d * t * vy d) by (apply Qmul_le_pos; lra). lra.
  - unfold box_intersect, r_nzx, r_nzy, r_nzz; subst r; cbn [r_o r_d fst snd r_nz].
    rewrite !(positive_axis _ (vy o)), !(positive_axis _ (vz o)) by assumption.
    assert (AX : box_axis false (vx o) (vx d) = (NaN, PInf)).
    { unfold box_axis, recip; destruct (Qeqb_spec (vx d) 0); [| contradiction]; cbn [xmul]; unfold inf_fin.
      destruct (Qeqb_spec (- vx o) 0) as [E | E]; [| exfalso; apply E; lra].
      destruct (Qeqb_spec (1 - vx o) 0) as [E1 | E1]; [exfalso; lra |].
      rewrite (qltb_false_of (1 - vx o) 0) by lra; reflexivity. }
    rewrite AX; cbn [fst snd box_narrow xlt].
    assert (L : (1 - vy o) * / vy d < - vz o * / vz d) by (apply cross_div; assumption).
    assert (L2 : - vz o * / vz d <= (1 - vz o) * / vz d).
    { assert (0 < / vz d) by (apply Qinv_lt_0_compat; exact DZ); apply Qmul_le_pos; [assumption | lra]. }
    rewrite (qltb_false_of ((1 - vz o) * / vz d) ((1 - vy o) * / vy d)) by lra; cbn [xlt].
    assert (E7 : qltb self_err ((1 - vy o) * / vy d) = true).
    { apply qltb_lt; apply (Qmult_lt_r _ _ (vy d)); [assumption |].
      setoid_replace ((1 - vy o) * / vy d * vy d) with (1 - vy o) by (field; lra); exact ERR. }
    rewrite E7, DIST; cbn [orb no_mask]; eexists; split; reflexivity.
Qed.
Print Assumptions box_plane_refuted.
Example box_plane_ex : let o := V 0 (-1) (-10) in let d := V 0 1 1 in
  (1 - vy o) * vz d < - vz o * vy d /\ self_err * vy d < 1 - vy o.
Proof. cbn; split; reflexivity. Qed.

(* C112.  The mask of a box is asked about the hit point handed in, not about the new one: the
   same ray is let through or stopped according to the stale texture coordinates, whatever the
   mask says at the point hit. *)
Theorem box_mask_refuted : forall masked r distance h1 h2 b,
  box_intersect no_mask r distance h1 = Some b -> masked h1 = false -> masked h2 = true ->
  box_intersect masked r distance h1 = Some b /\ box_intersect masked r distance h2 = None.
Proof.
  intros masked r distance h1 h2 b E M1 M2; unfold box_intersect in *; rewrite M1, M2; cbn [no_mask] in E.
  destruct (box_narrow 1 _ _) as [st |]; [| discriminate].
  destruct (box_narrow 2 _ st) as [[[mint maxt] axis] |]; [| discriminate].
  destruct (if xlt (Fin self_err) mint then _ else _) as [[i t] |]; [| discriminate].
  split; [exact E |]; rewrite orb_true_r; reflexivity.
Qed.
Print Assumptions box_mask_refuted.
Example box_mask_ex : exists b,
  box_intersect no_mask (mk_ray (V (1 # 2) (1 # 2) (-1)) (V 0 0 1) (false, false, false)) PInf some_hit = Some b.
Proof. eexists; vm_compute; reflexivity. Qed.
