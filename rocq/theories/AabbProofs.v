(* Facts about bounding boxes. *)
From Coq Require Import Lqa.
From Verif Require Import Common GeomModel AabbModel AabbSpec.
Local Open Scope Q_scope.

Lemma qltb_lt : forall x y, qltb x y = true <-> x < y.
Proof.
  intros x y; unfold qltb; rewrite negb_true_iff; split; intro H.
  - apply Qnot_le_lt; intro L; apply Qle_bool_iff in L; congruence.
  - apply not_true_iff_false; intro L; apply Qle_bool_iff in L.
    exact (Qlt_not_le _ _ H L).
Qed.

Lemma qltb_ge : forall x y, qltb x y = false <-> y <= x.
Proof.
  intros x y; unfold qltb; rewrite negb_false_iff; apply Qle_bool_iff.
Qed.

Lemma qltb_spec : forall x y, reflect (x < y) (qltb x y).
Proof.
  intros x y; destruct (qltb x y) eqn:E; constructor.
  - apply qltb_lt; exact E.
  - apply qltb_ge in E; apply Qle_not_lt; exact E.
Qed.

Lemma Qeqb_spec : forall x y, reflect (x == y) (Qeq_bool x y).
Proof.
  intros x y; destruct (Qeq_bool x y) eqn:E; constructor.
  - apply Qeq_bool_iff; exact E.
  - apply Qeq_bool_neq; exact E.
Qed.

(* ----- order on floats ----- *)

Lemma xlt_trans_not : forall a b t,
  xlt (Fin t) a = false -> xlt b (Fin t) = false -> xlt b a = false.
Proof.
  intros [a| | |] [b| | |] t; cbn; try congruence; try (intros; reflexivity).
  rewrite !qltb_ge; intros; lra.
Qed.

Lemma below_min_l : forall a b q, below a q -> no_nan b -> below (xmin a b) q.
Proof.
  intros [a| | |] [b| | |] q; unfold xmin, no_nan; cbn; try tauto; try congruence;
    intros; try exact I.
  destruct (qltb_spec a b); cbn; lra.
Qed.

Lemma below_min_r : forall a b q, below b q -> no_nan a -> below (xmin a b) q.
Proof.
  intros [a| | |] [b| | |] q; unfold xmin, no_nan; cbn; try tauto; try congruence;
    intros; try exact I.
  destruct (qltb_spec a b); cbn; lra.
Qed.

Lemma below_min_inv : forall a b q, below (xmin a b) q -> below a q \/ below b q.
Proof.
  intros a b q; unfold xmin; destruct (xlt a b); tauto.
Qed.

Lemma above_max_l : forall a b q, above a q -> no_nan b -> above (xmax a b) q.
Proof.
  intros [a| | |] [b| | |] q; unfold xmax, no_nan; cbn; try tauto; try congruence;
    intros; try exact I.
  destruct (qltb_spec b a); cbn; lra.
Qed.

Lemma above_max_r : forall a b q, above b q -> no_nan a -> above (xmax a b) q.
Proof.
  intros [a| | |] [b| | |] q; unfold xmax, no_nan; cbn; try tauto; try congruence;
    intros; try exact I.
  destruct (qltb_spec b a); cbn; lra.
Qed.

Lemma above_max_inv : forall a b q, above (xmax a b) q -> above a q \/ above b q.
Proof.
  intros a b q; unfold xmax; destruct (xlt b a); tauto.
Qed.

Lemma no_nan_min : forall a b, no_nan a -> no_nan b -> no_nan (xmin a b).
Proof. intros a b A B; unfold xmin; destruct (xlt a b); assumption. Qed.
Lemma no_nan_max : forall a b, no_nan a -> no_nan b -> no_nan (xmax a b).
Proof. intros a b A B; unfold xmax; destruct (xlt b a); assumption. Qed.
Lemma no_nan_fin : forall q, no_nan (Fin q).
Proof. intros q; unfold no_nan; congruence. Qed.

Lemma below_le : forall x p q, below x p -> p <= q -> below x q.
Proof. intros [x| | |] p q; cbn; intros; try tauto; lra. Qed.
Lemma above_le : forall x p q, above x p -> q <= p -> above x q.
Proof. intros [x| | |] p q; cbn; intros; try tauto; lra. Qed.
Lemma above_lt : forall x p q, above x p -> q < p -> above x q.
Proof. intros [x| | |] p q; cbn; intros; try tauto; lra. Qed.
Lemma below_lt : forall x p q, below x p -> p < q -> below x q.
Proof. intros [x| | |] p q; cbn; intros; try tauto; lra. Qed.

(* ----- engulf ----- *)

Lemma valid_empty : valid aabb_empty.
Proof. unfold valid, valid_vec, no_nan; cbn; repeat split; congruence. Qed.

Lemma valid_point : forall p, valid (aabb_point p).
Proof. unfold valid, valid_vec, no_nan; cbn; repeat split; congruence. Qed.

Lemma valid_of : forall p q, valid (aabb_of p q).
Proof. unfold valid, valid_vec, no_nan; cbn; repeat split; congruence. Qed.

Lemma valid_engulf : forall b c, valid b -> valid c -> valid (engulf b c).
Proof.
  intros b c ((B1 & B2 & B3) & B4 & B5 & B6) ((C1 & C2 & C3) & C4 & C5 & C6).
  split; (split; [| split]); cbn;
    first [apply no_nan_min | apply no_nan_max]; assumption.
Qed.

Lemma engulf_point_box : forall b p, engulf_point b p = engulf b (aabb_point p).
Proof. reflexivity. Qed.

Lemma contains_l : forall b c p, valid c -> contains b p -> contains (engulf b c) p.
Proof.
  intros b c p ((C1 & C2 & C3) & C4 & C5 & C6) ((X1 & X2) & (Y1 & Y2) & Z1 & Z2).
  split; [| split]; (split; cbn; [apply below_min_l | apply above_max_l]); assumption.
Qed.

Lemma contains_r : forall b c p, valid b -> contains c p -> contains (engulf b c) p.
Proof.
  intros b c p ((C1 & C2 & C3) & C4 & C5 & C6) ((X1 & X2) & (Y1 & Y2) & Z1 & Z2).
  split; [| split]; (split; cbn; [apply below_min_r | apply above_max_r]); assumption.
Qed.

Lemma contains_point : forall p, contains (aabb_point p) p.
Proof. intros p; unfold contains; cbn; repeat split; apply Qle_refl. Qed.

(* one coordinate of a union is bounded on each side by one of the operands *)
Lemma contains_coord : forall b p,
  contains b p <-> forall k, below (projl k b) (coord k p) /\ above (projh k b) (coord k p).
Proof.
  intros b p; split.
  - intros (X & Y & Z) [|[|k]]; assumption.
  - intro A; split; [exact (A 0%nat) |]; split; [exact (A 1%nat) | exact (A 2%nat)].
Qed.

Lemma projl_engulf : forall k b c, projl k (engulf b c) = xmin (projl k b) (projl k c).
Proof. intros [|[|k]] b c; reflexivity. Qed.
Lemma projh_engulf : forall k b c, projh k (engulf b c) = xmax (projh k b) (projh k c).
Proof. intros [|[|k]] b c; reflexivity. Qed.

Lemma valid_projl : forall k b, valid b -> no_nan (projl k b).
Proof. intros [|[|k]] b ((A & B & C) & _); assumption. Qed.
Lemma valid_projh : forall k b, valid b -> no_nan (projh k b).
Proof. intros [|[|k]] b (_ & A & B & C); assumption. Qed.

Lemma engulf_all_valid : forall l b, valid b -> Forall valid l -> valid (fold_left engulf l b).
Proof.
  induction l as [|c l IH]; intros b B L; [exact B |]; inversion L; subst.
  apply IH; [apply valid_engulf |]; assumption.
Qed.

Lemma engulf_all_init : forall l b p,
  valid b -> Forall valid l -> contains b p -> contains (fold_left engulf l b) p.
Proof.
  induction l as [|c l IH]; intros b p B L C; [exact C |]; inversion L; subst.
  apply IH; [apply valid_engulf; assumption | assumption | apply contains_l; assumption].
Qed.

Lemma engulf_all_contains : forall l b c p,
  valid b -> Forall valid l -> In c l -> contains c p -> contains (fold_left engulf l b) p.
Proof.
  induction l as [|d l IH]; intros b c p B L I C; [destruct I |]; inversion L; subst.
  destruct I as [-> | I].
  - cbn [fold_left]; apply (engulf_all_init l (engulf b c) p); [apply valid_engulf; assumption | assumption
                           | apply contains_r; assumption].
  - apply IH with c; [apply valid_engulf | | |]; assumption.
Qed.

Lemma engulf_all_below : forall l k b q,
  below (projl k (fold_left engulf l b)) q ->
  below (projl k b) q \/ exists c, In c l /\ below (projl k c) q.
Proof.
  induction l as [|c l IH]; intros k b q H; [left; exact H |].
  destruct (IH _ _ _ H) as [H1 | (d & I & H1)].
  - rewrite projl_engulf in H1; destruct (below_min_inv _ _ _ H1) as [A | A]; [left; exact A |].
    right; exists c; split; [left; reflexivity | exact A].
  - right; exists d; split; [right; exact I | exact H1].
Qed.

Lemma engulf_all_above : forall l k b q,
  above (projh k (fold_left engulf l b)) q ->
  above (projh k b) q \/ exists c, In c l /\ above (projh k c) q.
Proof.
  induction l as [|c l IH]; intros k b q H; [left; exact H |].
  destruct (IH _ _ _ H) as [H1 | (d & I & H1)].
  - rewrite projh_engulf in H1; destruct (above_max_inv _ _ _ H1) as [A | A]; [left; exact A |].
    right; exists c; split; [left; reflexivity | exact A].
  - right; exists d; split; [right; exact I | exact H1].
Qed.

(* ----- the slab test ----- *)

Lemma recip_neg : forall nz d, d < 0 -> recip nz d = Fin (/ d).
Proof. intros nz d D; unfold recip; destruct (Qeqb_spec d 0); [lra | reflexivity]. Qed.
Lemma recip_pos : forall nz d, 0 < d -> recip nz d = Fin (/ d).
Proof. intros nz d D; unfold recip; destruct (Qeqb_spec d 0); [lra | reflexivity]. Qed.
Lemma recip_zero : forall nz d, d == 0 -> recip nz d = if nz then NInf else PInf.
Proof. intros nz d D; unfold recip; destruct (Qeqb_spec d 0); [reflexivity | lra]. Qed.

Lemma inv_neg : forall d, d < 0 -> / d < 0.
Proof.
  intros d D; assert (P : 0 < / - d) by (apply Qinv_lt_0_compat; lra).
  assert (E : / - d == - / d) by (field; lra). lra.
Qed.

Lemma Qmul_le_pos : forall a b c, 0 < c -> a <= b -> a * c <= b * c.
Proof. intros; apply Qmult_le_compat_r; [assumption | apply Qlt_le_weak; assumption]. Qed.

Lemma Qmul_le_neg : forall a b c, c < 0 -> a <= b -> b * c <= a * c.
Proof.
  intros a b c C L; assert (a * - c <= b * - c) by (apply Qmul_le_pos; lra).
  assert (a * - c == - (a * c)) by ring; assert (b * - c == - (b * c)) by ring; lra.
Qed.

(* entry and exit of one axis do not exclude a parameter at which the line is
   between the two planes *)
Lemma slab_sound : forall nz lo hi o d t,
  no_nan lo -> no_nan hi ->
  below lo (o + t * d) -> above hi (o + t * d) ->
  let inv := recip nz d in
  let s := slab (xlt inv (Fin 0)) lo hi o inv in
  not_after (fst s) t /\ not_before (snd s) t.
Proof.
  intros nz lo hi o d t NL NH B A inv s; subst s inv.
  unfold not_after, not_before.
  destruct (Q_dec 0 d) as [[D | D] | D].
  - rewrite (recip_pos nz d D).
    assert (P : 0 < / d) by (apply Qinv_lt_0_compat; exact D).
    assert (T : (o + t * d - o) * / d == t) by (field; lra).
    assert (N : xlt (Fin (/ d)) (Fin 0) = false) by (cbn; apply qltb_ge; lra).
    rewrite N; unfold slab; cbn [fst snd]; split.
    + destruct lo as [lo | | |]; cbn in B |- *; try tauto; try (exfalso; assumption).
      * apply qltb_ge; rewrite <- T; apply Qmul_le_pos; [exact P | lra].
      * unfold inf_fin; destruct (Qeqb_spec (/ d) 0); [lra |].
        destruct (qltb_spec (/ d) 0); [lra | reflexivity].
    + destruct hi as [hi | | |]; cbn in A |- *; try tauto.
      * apply qltb_ge; rewrite <- T; apply Qmul_le_pos; [exact P | lra].
      * unfold inf_fin; destruct (Qeqb_spec (/ d) 0); [lra |].
        destruct (qltb_spec (/ d) 0); [lra | reflexivity].
  - rewrite (recip_neg nz d D).
    assert (P : / d < 0) by (apply inv_neg; exact D).
    assert (T : (o + t * d - o) * / d == t) by (field; lra).
    assert (N : xlt (Fin (/ d)) (Fin 0) = true) by (cbn; apply qltb_lt; lra).
    rewrite N; unfold slab; cbn [fst snd]; split.
    + destruct hi as [hi | | |]; cbn in A |- *; try tauto.
      * apply qltb_ge; rewrite <- T; apply Qmul_le_neg; [exact P | lra].
      * unfold inf_fin; destruct (Qeqb_spec (/ d) 0); [lra |].
        destruct (qltb_spec (/ d) 0); [reflexivity | lra].
    + destruct lo as [lo | | |]; cbn in B |- *; try tauto; try (exfalso; assumption).
      * apply qltb_ge; rewrite <- T; apply Qmul_le_neg; [exact P | lra].
      * unfold inf_fin; destruct (Qeqb_spec (/ d) 0); [lra |].
        destruct (qltb_spec (/ d) 0); [reflexivity | lra].
  - assert (Z : d == 0) by lra. rewrite (recip_zero nz d Z).
    assert (T : t * d == 0) by (rewrite Z; ring).
    destruct nz; cbn [xlt]; unfold slab; cbn [fst snd].
    + split.
      * destruct hi as [hi | | |]; cbn in A |- *; try tauto.
        unfold inf_fin; destruct (Qeqb_spec (hi + - o) 0); [reflexivity |].
        destruct (qltb_spec (hi + - o) 0); [| reflexivity]; exfalso; lra.
      * destruct lo as [lo | | |]; cbn in B |- *; try tauto; try (exfalso; assumption).
        unfold inf_fin; destruct (Qeqb_spec (lo + - o) 0); [reflexivity |].
        destruct (qltb_spec (lo + - o) 0); [reflexivity |]; exfalso; lra.
    + split.
      * destruct lo as [lo | | |]; cbn in B |- *; try tauto; try (exfalso; assumption).
        unfold inf_fin; destruct (Qeqb_spec (lo + - o) 0); [reflexivity |].
        destruct (qltb_spec (lo + - o) 0); [reflexivity |]; exfalso; lra.
      * destruct hi as [hi | | |]; cbn in A |- *; try tauto.
        unfold inf_fin; destruct (Qeqb_spec (hi + - o) 0); [reflexivity |].
        destruct (qltb_spec (hi + - o) 0); [| reflexivity]; exfalso; lra.
Qed.

Lemma narrow_sound : forall i s t,
  not_after (fst i) t -> not_before (snd i) t ->
  not_after (fst s) t -> not_before (snd s) t ->
  exists j, narrow i s = Some j /\ not_after (fst j) t /\ not_before (snd j) t.
Proof.
  intros i s t A B C D; unfold narrow.
  rewrite (xlt_trans_not (fst i) (snd s) t A D), (xlt_trans_not (fst s) (snd i) t C B); cbn.
  eexists; split; [reflexivity |]; cbn.
  split; [destruct (xlt (fst i) (fst s)) | destruct (xlt (snd s) (snd i))]; assumption.
Qed.

Lemma qltb_ext : forall a b c d, a == b -> c == d -> qltb a c = qltb b d.
Proof.
  intros a b c d A C; destruct (qltb_spec a c), (qltb_spec b d); try reflexivity; exfalso; lra.
Qed.

Lemma below_ext : forall x p q, p == q -> below x p -> below x q.
Proof. intros x p q E H; apply (below_le _ _ _ H); lra. Qed.
Lemma above_ext : forall x p q, p == q -> above x p -> above x q.
Proof. intros x p q E H; apply (above_le _ _ _ H); lra. Qed.

(* with non-zero finite direction the interval is exactly the set of parameters *)
Lemma slab_exact : forall nz lo hi o d t,
  ~ d == 0 ->
  let inv := recip nz d in
  let s := slab (xlt inv (Fin 0)) (Fin lo) (Fin hi) o inv in
  exists p q, s = (Fin p, Fin q) /\
    (p <= t /\ t <= q <-> lo <= o + t * d /\ o + t * d <= hi).
Proof.
  intros nz lo hi o d t ND inv s; subst s inv.
  destruct (Q_dec 0 d) as [[D | D] | D]; [| | exfalso; apply ND; lra].
  - rewrite (recip_pos nz d D).
    assert (P : 0 < / d) by (apply Qinv_lt_0_compat; exact D).
    assert (N : xlt (Fin (/ d)) (Fin 0) = false) by (cbn; apply qltb_ge; lra).
    rewrite N; unfold slab; cbn [fst snd xsub xadd xmul xopp].
    do 2 eexists; split; [reflexivity |].
    assert (E1 : lo + - o == (lo + - o) * / d * d) by (field; lra).
    assert (E2 : hi + - o == (hi + - o) * / d * d) by (field; lra).
    set (p := (lo + - o) * / d) in *; set (q := (hi + - o) * / d) in *.
    split; intros (A & B).
    + assert (p * d <= t * d) by (apply Qmul_le_pos; assumption).
      assert (t * d <= q * d) by (apply Qmul_le_pos; assumption). split; lra.
    + split.
      * apply Qnot_lt_le; intro L. assert (t * d < p * d) by (apply Qmult_lt_r; assumption). lra.
      * apply Qnot_lt_le; intro L. assert (q * d < t * d) by (apply Qmult_lt_r; assumption). lra.
  - rewrite (recip_neg nz d D).
    assert (P : / d < 0) by (apply inv_neg; exact D).
    assert (N : xlt (Fin (/ d)) (Fin 0) = true) by (cbn; apply qltb_lt; lra).
    rewrite N; unfold slab; cbn [fst snd xsub xadd xmul xopp].
    do 2 eexists; split; [reflexivity |].
    assert (E1 : lo + - o == (lo + - o) * / d * d) by (field; lra).
    assert (E2 : hi + - o == (hi + - o) * / d * d) by (field; lra).
    set (p := (lo + - o) * / d) in *; set (q := (hi + - o) * / d) in *.
    split; intros (A & B).
    + assert (t * d <= q * d) by (apply Qmul_le_neg; assumption).
      assert (p * d <= t * d) by (apply Qmul_le_neg; assumption). split; lra.
    + split.
      * apply Qnot_lt_le; intro L.
        assert (H : t * - d < q * - d) by (apply Qmult_lt_r; [lra | exact L]).
        assert (t * - d == - (t * d)) by ring. assert (q * - d == - (q * d)) by ring. lra.
      * apply Qnot_lt_le; intro L.
        assert (H : p * - d < t * - d) by (apply Qmult_lt_r; [lra | exact L]).
        assert (t * - d == - (t * d)) by ring. assert (p * - d == - (p * d)) by ring. lra.
Qed.
