(* Boxes of transformed shapes in single precision. *)
From Coq Require Import ZArith Reals List Lra Lia.
From Flocq Require Import Core.Core IEEE754.BinarySingleNaN.
From Verif Require Import Common FltModel FltFacts FExtFacts FRayModel FSphereProps FBoxMarginProps FMatModel.
Import ListNotations.
Local Open Scope R_scope.

(* ----- specification ----- *)

(* a number far from overflow *)
Definition modest (x : f32) : Prop := fin x /\ Rabs (val x) <= bpow radix2 60.
Definition modest_vec (p : fvec) : Prop := modest (fx p) /\ modest (fy p) /\ modest (fz p).
Definition modest_row (q : frow) : Prop := modest (q0 q) /\ modest (q1 q) /\ modest (q2 q) /\ modest (q3 q).
(* scale, rotation and translation in any combination: the last row is 0 0 0 1 *)
Definition affine (m : fmat) : Prop :=
  modest_row (m_x m) /\ modest_row (m_y m) /\ modest_row (m_z m) /\ modest_row (m_w m) /\
  val (q0 (m_w m)) = 0 /\ val (q1 (m_w m)) = 0 /\ val (q2 (m_w m)) = 0 /\ val (q3 (m_w m)) = 1.
(* a point of numbers within the corners of a box *)
Definition within (p : fvec) (b : fbox) : Prop :=
  forall k, fin (fcoord k p) /\ val (fcoord k (fb_lo b)) <= val (fcoord k p) <= val (fcoord k (fb_hi b)).

(* ----- a rounded row is monotone ----- *)

Definition rrow (a b c t x y z : R) : R := rnd (rnd (rnd (rnd (a * x) + rnd (b * y)) + rnd (c * z)) + t).

Lemma bound_mul : forall a b, Rabs a <= bpow radix2 60 -> Rabs b <= bpow radix2 60 -> Rabs (a * b) <= bpow radix2 120.
Proof.
  intros a b A B. rewrite Rabs_mult. replace (bpow radix2 120) with (bpow radix2 60 * bpow radix2 60) by (rewrite <- bpow_plus; reflexivity).
  apply Rmult_le_compat; try apply Rabs_pos; assumption.
Qed.

Lemma rnd_abs : forall x e, (-149 <= e)%Z -> Rabs x <= bpow radix2 e -> Rabs (rnd x) <= bpow radix2 e.
Proof.
  intros x e E H. apply Rabs_le. assert (A : - bpow radix2 e <= x <= bpow radix2 e) by (split_Rabs; lra).
  apply rnd_between; [apply fits_opp|..|exact A]; apply fits_bpow; exact E.
Qed.

Lemma up_bpow : forall e f, (e <= f)%Z -> bpow radix2 e <= bpow radix2 f.
Proof. intros; apply bpow_le; assumption. Qed.

Lemma double_bpow : forall e, bpow radix2 (e + 1) = bpow radix2 e + bpow radix2 e.
Proof. intros. rewrite bpow_plus. change (bpow radix2 1) with 2. ring. Qed.

Lemma sum_bound : forall x y e, Rabs x <= bpow radix2 e -> Rabs y <= bpow radix2 e -> Rabs (x + y) <= bpow radix2 (e + 1).
Proof. intros x y e X Y. rewrite double_bpow. eapply Rle_trans; [apply Rabs_triang|lra]. Qed.

Lemma rowpoint_val : forall q p, modest_row q -> modest_vec p ->
  fin (f_rowpoint q p) /\ val (f_rowpoint q p) =
    rrow (val (q0 q)) (val (q1 q)) (val (q2 q)) (val (q3 q)) (val (fx p)) (val (fy p)) (val (fz p)).
Proof.
  intros [a b c t] [x y z] ((FA & A) & (FB & B) & (FC & C) & (FT & T)) ((FX & X) & (FY & Y) & (FZ & Z)).
  unfold f_rowpoint, rrow; cbn [q0 q1 q2 q3 fx fy fz] in *.
  pose proof (bound_mul _ _ A X) as AX. pose proof (bound_mul _ _ B Y) as BY. pose proof (bound_mul _ _ C Z) as CZ.
  assert (L : forall u e, (e <= 127)%Z -> Rabs u <= bpow radix2 e -> Rabs u <= bpow radix2 127)
    by (intros u e E H; eapply Rle_trans; [exact H|apply up_bpow; exact E]).
  destruct (fmul_val a x FA FX (L _ 120%Z ltac:(lia) AX)) as (F1 & E1).
  destruct (fmul_val b y FB FY (L _ 120%Z ltac:(lia) BY)) as (F2 & E2).
  destruct (fmul_val c z FC FZ (L _ 120%Z ltac:(lia) CZ)) as (F3 & E3).
  assert (R1 := rnd_abs _ 120 ltac:(lia) AX). assert (R2 := rnd_abs _ 120 ltac:(lia) BY). assert (R3 := rnd_abs _ 120 ltac:(lia) CZ).
  pose proof (sum_bound _ _ 120 R1 R2) as S1.
  destruct (fadd_val (fmul a x) (fmul b y) F1 F2) as (F4 & E4).
  { rewrite E1, E2. exact (L _ 121%Z ltac:(lia) S1). }
  rewrite E1, E2 in E4.
  assert (R4 := rnd_abs _ 121 ltac:(lia) S1).
  assert (R3' : Rabs (rnd (val c * val z)) <= bpow radix2 121) by (eapply Rle_trans; [exact R3|apply up_bpow; lia]).
  pose proof (sum_bound _ _ 121 R4 R3') as S2.
  destruct (fadd_val (fadd (fmul a x) (fmul b y)) (fmul c z) F4 F3) as (F5 & E5).
  { rewrite E4, E3. exact (L _ 122%Z ltac:(lia) S2). }
  rewrite E4, E3 in E5.
  assert (R5 := rnd_abs _ 122 ltac:(lia) S2).
  assert (T' : Rabs (val t) <= bpow radix2 122) by (eapply Rle_trans; [exact T|apply up_bpow; lia]).
  pose proof (sum_bound _ _ 122 R5 T') as S3.
  destruct (fadd_val _ t F5 FT) as (F6 & E6).
  { rewrite E5. exact (L _ 123%Z ltac:(lia) S3). }
  rewrite E5 in E6. split; [exact F6|exact E6].
Qed.

Lemma rrow_le : forall a b c t x y z x' y' z', a * x <= a * x' -> b * y <= b * y' -> c * z <= c * z' ->
  rrow a b c t x y z <= rrow a b c t x' y' z'.
Proof.
  intros. unfold rrow. apply rnd_le, Rplus_le_compat_r, rnd_le, Rplus_le_compat; [|apply rnd_le; assumption].
  apply rnd_le, Rplus_le_compat; apply rnd_le; assumption.
Qed.

(* the end of [x0, x1] where a*x is least *)
Lemma least_end : forall a x0 x1 x, x0 <= x <= x1 -> a * (if Rle_dec 0 a then x0 else x1) <= a * x.
Proof. intros. destruct (Rle_dec 0 a); nra. Qed.
Lemma most_end : forall a x0 x1 x, x0 <= x <= x1 -> a * x <= a * (if Rle_dec 0 a then x1 else x0).
Proof. intros. destruct (Rle_dec 0 a); nra. Qed.

Lemma some_corner : forall (b : fbox) (c1 c2 c3 : bool),
  In (mk_fvec (fx (if c1 then fb_lo b else fb_hi b)) (fy (if c2 then fb_lo b else fb_hi b)) (fz (if c3 then fb_lo b else fb_hi b)))
    (f_corners b).
Proof.
  intros. unfold f_corners. destruct c1, c2, c3;
    repeat first [left; reflexivity | right].
Qed.

Lemma box_modest : forall b p, modest_vec (fb_lo b) -> modest_vec (fb_hi b) -> In p (f_corners b) -> modest_vec p.
Proof.
  intros b p (A & B & C) (D & E & F) IN. unfold f_corners in IN.
  repeat (destruct IN as [<-|IN]; [unfold modest_vec; cbn [fx fy fz]; auto|]). destruct IN.
Qed.

Lemma corner_low : forall q b p, modest_row q -> modest_vec (fb_lo b) -> modest_vec (fb_hi b) -> modest_vec p -> within p b ->
  exists c, In c (f_corners b) /\ val (f_rowpoint q c) <= val (f_rowpoint q p).
Proof.
  intros q b p Q LO HI P W.
  pose proof (W 0%nat) as W0. pose proof (W 1%nat) as W1. pose proof (W 2%nat) as W2. cbn [fcoord] in *.
  pose proof (some_corner b (if Rle_dec 0 (val (q0 q)) then true else false) (if Rle_dec 0 (val (q1 q)) then true else false)
    (if Rle_dec 0 (val (q2 q)) then true else false)) as IN.
  eexists; split; [exact IN|].
  pose proof (box_modest _ _ LO HI IN) as MC.
  rewrite (proj2 (rowpoint_val _ _ Q MC)), (proj2 (rowpoint_val _ _ Q P)). cbn [fx fy fz].
  apply rrow_le.
  - pose proof (least_end (val (q0 q)) _ _ _ (proj2 W0)). destruct (Rle_dec 0 (val (q0 q))); assumption.
  - pose proof (least_end (val (q1 q)) _ _ _ (proj2 W1)). destruct (Rle_dec 0 (val (q1 q))); assumption.
  - pose proof (least_end (val (q2 q)) _ _ _ (proj2 W2)). destruct (Rle_dec 0 (val (q2 q))); assumption.
Qed.

Lemma corner_high : forall q b p, modest_row q -> modest_vec (fb_lo b) -> modest_vec (fb_hi b) -> modest_vec p -> within p b ->
  exists c, In c (f_corners b) /\ val (f_rowpoint q p) <= val (f_rowpoint q c).
Proof.
  intros q b p Q LO HI P W.
  pose proof (W 0%nat) as W0. pose proof (W 1%nat) as W1. pose proof (W 2%nat) as W2. cbn [fcoord] in *.
  pose proof (some_corner b (if Rle_dec 0 (val (q0 q)) then false else true) (if Rle_dec 0 (val (q1 q)) then false else true)
    (if Rle_dec 0 (val (q2 q)) then false else true)) as IN.
  eexists; split; [exact IN|].
  pose proof (box_modest _ _ LO HI IN) as MC.
  rewrite (proj2 (rowpoint_val _ _ Q MC)), (proj2 (rowpoint_val _ _ Q P)). cbn [fx fy fz].
  apply rrow_le.
  - pose proof (most_end (val (q0 q)) _ _ _ (proj2 W0)). destruct (Rle_dec 0 (val (q0 q))); assumption.
  - pose proof (most_end (val (q1 q)) _ _ _ (proj2 W1)). destruct (Rle_dec 0 (val (q1 q))); assumption.
  - pose proof (most_end (val (q2 q)) _ _ _ (proj2 W2)). destruct (Rle_dec 0 (val (q2 q))); assumption.
Qed.

(* ----- min and max ----- *)

Lemma fmin_fin : forall x y, fin x -> fin y -> fin (fmin x y) /\ val (fmin x y) <= val x /\ val (fmin x y) <= val y.
Proof.
  intros x y X Y. unfold fmin. destruct (flt x y) eqn:E.
  - apply (flt_val _ _ X Y) in E. repeat split; [exact X|lra..].
  - assert (~ val x < val y) by (rewrite <- (flt_val _ _ X Y); congruence). repeat split; [exact Y|lra..].
Qed.
Lemma fmax_fin : forall x y, fin x -> fin y -> fin (fmax x y) /\ val x <= val (fmax x y) /\ val y <= val (fmax x y).
Proof.
  intros x y X Y. unfold fmax, fgt. destruct (Bltb y x) eqn:E.
  - apply (flt_val _ _ Y X) in E. repeat split; [exact X|lra..].
  - assert (~ val y < val x) by (rewrite <- (flt_val _ _ Y X); unfold flt; congruence). repeat split; [exact Y|lra..].
Qed.

Definition fin_vec (p : fvec) : Prop := fin (fx p) /\ fin (fy p) /\ fin (fz p).
Definition below (p q : fvec) : Prop := val (fx p) <= val (fx q) /\ val (fy p) <= val (fy q) /\ val (fz p) <= val (fz q).

Lemma below_trans : forall p q r, below p q -> below q r -> below p r.
Proof. unfold below; intros; lra. Qed.
Lemma below_refl : forall p, below p p.
Proof. unfold below; intros; lra. Qed.

Lemma pmin_fin : forall p q, fin_vec p -> fin_vec q -> fin_vec (f_pmin p q) /\ below (f_pmin p q) p /\ below (f_pmin p q) q.
Proof.
  intros p q (A & B & C) (D & E & F). unfold fin_vec, below, f_pmin; cbn [fx fy fz].
  pose proof (fmin_fin _ _ A D). pose proof (fmin_fin _ _ B E). pose proof (fmin_fin _ _ C F). tauto.
Qed.
Lemma pmax_fin : forall p q, fin_vec p -> fin_vec q -> fin_vec (f_pmax p q) /\ below p (f_pmax p q) /\ below q (f_pmax p q).
Proof.
  intros p q (A & B & C) (D & E & F). unfold fin_vec, below, f_pmax; cbn [fx fy fz].
  pose proof (fmax_fin _ _ A D). pose proof (fmax_fin _ _ B E). pose proof (fmax_fin _ _ C F). tauto.
Qed.

Lemma fold_min : forall l p, fin_vec p -> Forall fin_vec l ->
  fin_vec (fold_left f_pmin l p) /\ forall q, In q (p :: l) -> below (fold_left f_pmin l p) q.
Proof.
  induction l as [|h l IH]; intros p P L; cbn [fold_left].
  - split; [exact P|]. intros q [<-|[]]. apply below_refl.
  - inversion L; subst. destruct (pmin_fin p h P) as (F & B1 & B2); [assumption|].
    destruct (IH _ F ltac:(assumption)) as (G & I). split; [exact G|].
    pose proof (I _ (or_introl eq_refl)) as J.
    intros q [<-|[<-|IN]]; [eapply below_trans; eassumption..|apply I; right; exact IN].
Qed.
Lemma fold_max : forall l p, fin_vec p -> Forall fin_vec l ->
  fin_vec (fold_left f_pmax l p) /\ forall q, In q (p :: l) -> below q (fold_left f_pmax l p).
Proof.
  induction l as [|h l IH]; intros p P L; cbn [fold_left].
  - split; [exact P|]. intros q [<-|[]]. apply below_refl.
  - inversion L; subst. destruct (pmax_fin p h P) as (F & B1 & B2); [assumption|].
    destruct (IH _ F ltac:(assumption)) as (G & I). split; [exact G|].
    pose proof (I _ (or_introl eq_refl)) as J.
    intros q [<-|[<-|IN]]; [eapply below_trans; eassumption..|apply I; right; exact IN].
Qed.

(* ----- affine matrices do not divide ----- *)

Lemma point_affine : forall m p, affine m -> modest_vec p ->
  f_point m p = mk_fvec (f_rowpoint (m_x m) p) (f_rowpoint (m_y m) p) (f_rowpoint (m_z m) p).
Proof.
  intros m p (_ & _ & _ & W & W0 & W1 & W2 & W3) P. unfold f_point.
  destruct (rowpoint_val _ _ W P) as (F & V).
  replace (Beqb (f_rowpoint (m_w m) p) fone) with true; [reflexivity|symmetry].
  destruct fone_val as (F1 & V1).
  rewrite (Beqb_correct _ _ _ _ F F1). change (B2R (f_rowpoint (m_w m) p)) with (val (f_rowpoint (m_w m) p)).
  change (B2R fone) with (val fone). rewrite V, V1, W0, W1, W2, W3. unfold rrow.
  replace (rnd _) with 1; [apply Req_bool_true; reflexivity|].
  rewrite !Rmult_0_l, !rnd_0, !Rplus_0_l, rnd_0, Rplus_0_l, rnd_0, Rplus_0_l. symmetry. apply rnd_fits. apply (fits_Z 1). lia.
Qed.

Lemma point_fin : forall m p, affine m -> modest_vec p -> fin_vec (f_point m p).
Proof.
  intros m p A P. rewrite point_affine by assumption. destruct A as (X & Y & Z & _).
  repeat split; cbn [fx fy fz]; apply rowpoint_val; assumption.
Qed.

Lemma images_bound : forall m b, affine m -> modest_vec (fb_lo b) -> modest_vec (fb_hi b) ->
  fin_vec (fst (f_images m b)) /\ fin_vec (snd (f_images m b)) /\
  forall c, In c (f_corners b) -> below (fst (f_images m b)) (f_point m c) /\ below (f_point m c) (snd (f_images m b)).
Proof.
  intros m b A LO HI.
  assert (ALL : Forall fin_vec (map (f_point m) (f_corners b))).
  { apply Forall_forall. intros x IN. apply in_map_iff in IN. destruct IN as (c & <- & IN).
    apply point_fin; [exact A|exact (box_modest _ _ LO HI IN)]. }
  assert (MEM : forall c, In c (f_corners b) -> In (f_point m c) (map (f_point m) (f_corners b))) by (intros; apply in_map; assumption).
  unfold f_images. destruct (map (f_point m) (f_corners b)) as [|p l] eqn:E; [discriminate E|].
  inversion ALL; subst. destruct (fold_min l p) as (F & I); [assumption..|]. destruct (fold_max l p) as (G & J); [assumption..|].
  cbn [fst snd]. split; [exact F|]. split; [exact G|]. intros c IN. apply MEM in IN. split; [apply I|apply J]; exact IN.
Qed.

Lemma images_contain : forall m b p, affine m -> modest_vec (fb_lo b) -> modest_vec (fb_hi b) -> modest_vec p -> within p b ->
  below (fst (f_images m b)) (f_point m p) /\ below (f_point m p) (snd (f_images m b)).
Proof.
  intros m b p A LO HI P W. destruct (images_bound m b A LO HI) as (_ & _ & I).
  pose proof A as (X & Y & Z & _).
  destruct (corner_low _ b p X LO HI P W) as (cx & IX & LX). destruct (corner_low _ b p Y LO HI P W) as (cy & IY & LY).
  destruct (corner_low _ b p Z LO HI P W) as (cz & IZ & LZ).
  destruct (corner_high _ b p X LO HI P W) as (dx & JX & HX). destruct (corner_high _ b p Y LO HI P W) as (dy & JY & HY).
  destruct (corner_high _ b p Z LO HI P W) as (dz & JZ & HZ).
  pose proof (I _ IX) as ((K1 & _ & _) & _). pose proof (I _ IY) as ((_ & K2 & _) & _). pose proof (I _ IZ) as ((_ & _ & K3) & _).
  pose proof (I _ JX) as (_ & (M1 & _ & _)). pose proof (I _ JY) as (_ & (_ & M2 & _)). pose proof (I _ JZ) as (_ & (_ & _ & M3)).
  rewrite (point_affine m cx) in K1 by (assumption || exact (box_modest _ _ LO HI IX)).
  rewrite (point_affine m cy) in K2 by (assumption || exact (box_modest _ _ LO HI IY)).
  rewrite (point_affine m cz) in K3 by (assumption || exact (box_modest _ _ LO HI IZ)).
  rewrite (point_affine m dx) in M1 by (assumption || exact (box_modest _ _ LO HI JX)).
  rewrite (point_affine m dy) in M2 by (assumption || exact (box_modest _ _ LO HI JY)).
  rewrite (point_affine m dz) in M3 by (assumption || exact (box_modest _ _ LO HI JZ)).
  rewrite (point_affine m p) by assumption. unfold below. cbn [fx fy fz] in *. lra.
Qed.

Lemma within_of : forall p lo hi, fin_vec p -> below lo p -> below p hi -> within p (mk_fbox lo hi).
Proof.
  intros p lo hi (A & B & C) (D & E & F) (G & H & I) k. cbn [fb_lo fb_hi].
  destruct k as [|[|k]]; cbn [fcoord]; repeat split; assumption.
Qed.

(* the image of a point of the box is a point of the box of the images, all in rounded arithmetic *)
Theorem float_box_transform : forall m b p, affine m -> modest_vec (fb_lo b) -> modest_vec (fb_hi b) -> modest_vec p ->
  within p b -> within (f_point m p) (f_worldbox m b).
Proof.
  intros m b p A LO HI P W. destruct (images_contain m b p A LO HI P W) as (L & H).
  destruct (images_bound m b A LO HI) as (F & G & _).
  unfold f_worldbox. destruct (f_images m b) as [pmi pma]. cbn [fst snd] in *.
  destruct (pmin_fin _ _ F G) as (_ & S & _). destruct (pmax_fin _ _ F G) as (_ & _ & T).
  apply within_of; [apply point_fin; assumption|eapply below_trans; eassumption..].
Qed.
Print Assumptions float_box_transform.

(* ----- meshes ----- *)

Definition vertex_of (v : fvec) (t : fvec * fvec * fvec) : Prop := let '(a, b, c) := t in v = a \/ v = b \/ v = c.
Definition modest_mesh (l : list (fvec * fvec * fvec)) : Prop := forall t v, In t l -> vertex_of v t -> modest_vec v.

Lemma fmin_pick : forall x y, fmin x y = x \/ fmin x y = y.
Proof. intros. unfold fmin. destruct (flt x y); auto. Qed.
Lemma fmax_pick : forall x y, fmax x y = x \/ fmax x y = y.
Proof. intros. unfold fmax. destruct (fgt x y); auto. Qed.

Lemma pmin_modest : forall p q, modest_vec p -> modest_vec q -> modest_vec (f_pmin p q).
Proof.
  intros p q (A & B & C) (D & E & F). unfold modest_vec, f_pmin; cbn [fx fy fz].
  destruct (fmin_pick (fx p) (fx q)) as [->| ->], (fmin_pick (fy p) (fy q)) as [->| ->], (fmin_pick (fz p) (fz q)) as [->| ->]; tauto.
Qed.
Lemma pmax_modest : forall p q, modest_vec p -> modest_vec q -> modest_vec (f_pmax p q).
Proof.
  intros p q (A & B & C) (D & E & F). unfold modest_vec, f_pmax; cbn [fx fy fz].
  destruct (fmax_pick (fx p) (fx q)) as [->| ->], (fmax_pick (fy p) (fy q)) as [->| ->], (fmax_pick (fz p) (fz q)) as [->| ->]; tauto.
Qed.
Lemma modest_fin : forall p, modest_vec p -> fin_vec p.
Proof. intros p ((A & _) & (B & _) & (C & _)). repeat split; assumption. Qed.

Lemma tribox_spec : forall t, (forall v, vertex_of v t -> modest_vec v) ->
  modest_vec (fb_lo (f_tribox t)) /\ modest_vec (fb_hi (f_tribox t)) /\
  forall v, vertex_of v t -> below (fb_lo (f_tribox t)) v /\ below v (fb_hi (f_tribox t)).
Proof.
  intros [[a b] c] M. cbn [f_tribox fb_lo fb_hi].
  assert (A : modest_vec a) by (apply M; cbn; auto). assert (B : modest_vec b) by (apply M; cbn; auto).
  assert (C : modest_vec c) by (apply M; cbn; auto).
  pose proof (pmin_modest _ _ A B) as AB. pose proof (pmax_modest _ _ A B) as AB'.
  destruct (pmin_fin a b) as (_ & P1 & P2); [apply modest_fin; assumption..|].
  destruct (pmin_fin (f_pmin a b) c) as (_ & P3 & P4); [apply modest_fin; assumption..|].
  destruct (pmax_fin a b) as (_ & Q1 & Q2); [apply modest_fin; assumption..|].
  destruct (pmax_fin (f_pmax a b) c) as (_ & Q3 & Q4); [apply modest_fin; assumption..|].
  split; [apply pmin_modest; assumption|]. split; [apply pmax_modest; assumption|].
  intros v [->|[->| ->]]; split;
    first [assumption | eapply below_trans; [exact P3|assumption] | eapply below_trans; [|exact Q3]; assumption].
Qed.

Lemma engulf_nobox : forall t, (forall v, vertex_of v t -> modest_vec v) -> f_engulf f_nobox (f_tribox t) = f_tribox t.
Proof.
  intros t M. destruct (tribox_spec t M) as (L & H & _). apply modest_fin in L, H.
  destruct (f_tribox t) as [[lx ly lz] [hx hy hz]]. destruct L as (L1 & L2 & L3), H as (H1 & H2 & H3). cbn [fb_lo fb_hi fx fy fz] in *.
  assert (I : forall x, fin x -> fmin (B754_infinity false) x = x) by (intros [s|s| |s mm e B] Fx; try discriminate Fx; reflexivity).
  assert (J : forall x, fin x -> fmax (B754_infinity true) x = x) by (intros [s|s| |s mm e B] Fx; try discriminate Fx; reflexivity).
  unfold f_engulf, f_nobox, f_pmin, f_pmax; cbn [fb_lo fb_hi fx fy fz]. rewrite !I, !J by assumption. reflexivity.
Qed.

Lemma mesh_fold : forall l b, modest_mesh l -> modest_vec (fb_lo b) -> modest_vec (fb_hi b) ->
  let r := fold_left (fun b t => f_engulf b (f_tribox t)) l b in
  modest_vec (fb_lo r) /\ modest_vec (fb_hi r) /\ below (fb_lo r) (fb_lo b) /\ below (fb_hi b) (fb_hi r) /\
  forall t v, In t l -> vertex_of v t -> below (fb_lo r) v /\ below v (fb_hi r).
Proof.
  induction l as [|h l IH]; intros b M LO HI; cbn [fold_left].
  - cbv zeta. split; [exact LO|]. split; [exact HI|]. split; [apply below_refl|]. split; [apply below_refl|]. intros t v [].
  - destruct (tribox_spec h) as (TL & TH & TV); [intros; eapply M; [left; reflexivity|assumption]|].
    destruct (pmin_fin (fb_lo b) (fb_lo (f_tribox h))) as (_ & P1 & P2); [apply modest_fin; assumption..|].
    destruct (pmax_fin (fb_hi b) (fb_hi (f_tribox h))) as (_ & Q1 & Q2); [apply modest_fin; assumption..|].
    destruct (IH (f_engulf b (f_tribox h))) as (A & B & C & D & E).
    + intros t v IN V. eapply M; [right; exact IN|exact V].
    + apply pmin_modest; assumption.
    + apply pmax_modest; assumption.
    + cbv zeta in *. unfold f_engulf at 2 in C. unfold f_engulf at 1 in D. cbn [fb_lo fb_hi] in C, D.
      split; [exact A|]. split; [exact B|]. split; [eapply below_trans; eassumption|]. split; [eapply below_trans; eassumption|].
      intros t v [<-|IN] V; [|eapply E; eassumption]. destruct (TV v V) as (V1 & V2).
      split; [eapply below_trans; [exact C|]; eapply below_trans; eassumption|].
      eapply below_trans; [exact V2|]. eapply below_trans; [|exact D]. assumption.
Qed.

Lemma mesh_spec : forall l, modest_mesh l -> l <> [] ->
  modest_vec (fb_lo (f_meshbox l)) /\ modest_vec (fb_hi (f_meshbox l)) /\
  forall t v, In t l -> vertex_of v t -> within v (f_meshbox l).
Proof.
  intros [|h l] M N; [congruence|]. unfold f_meshbox. cbn [fold_left].
  assert (MH : forall v, vertex_of v h -> modest_vec v) by (intros; eapply M; [left; reflexivity|assumption]).
  rewrite (engulf_nobox h MH). destruct (tribox_spec h MH) as (TL & TH & TV).
  destruct (mesh_fold l (f_tribox h)) as (A & B & C & D & E); [intros t v IN V; eapply M; [right; exact IN|exact V]|exact TL|exact TH|].
  cbv zeta in *. split; [exact A|]. split; [exact B|]. intros t v IN V.
  pose proof (modest_fin _ (M t v IN V)) as FV.
  set (r := fold_left _ l _) in *. clearbody r. destruct r as [rl rh]. cbn [fb_lo fb_hi] in *.
  destruct IN as [<-|IN].
  - destruct (TV v V). apply within_of; [exact FV|eapply below_trans; eassumption..].
  - destruct (E t v IN V). apply within_of; assumption.
Qed.

(* every transformed vertex of a mesh, and every transformed point of its box, is in the box of the asset *)
Theorem float_mesh_box : forall m l t v, affine m -> modest_mesh l -> In t l -> vertex_of v t ->
  within (f_point m v) (f_worldbox m (f_meshbox l)).
Proof.
  intros m l t v A M IN V. destruct (mesh_spec l M) as (LO & HI & W); [intros ->; destruct IN|].
  apply float_box_transform; [exact A|exact LO|exact HI|exact (M t v IN V)|exact (W t v IN V)].
Qed.
Print Assumptions float_mesh_box.

(* every transformed point of the cube around the unit sphere is in the box of the asset *)
Theorem float_sphere_box : forall m p, affine m -> (forall k, fin (fcoord k p) /\ Rabs (val (fcoord k p)) <= 1) ->
  within (f_point m p) (f_spherebox m).
Proof.
  intros m p A P. unfold f_spherebox.
  destruct (of_Z_exact 1 ltac:(lia)) as (F1 & V1). destruct (of_Z_exact (-1) ltac:(lia)) as (F2 & V2).
  assert (B60 : 1 <= bpow radix2 60) by (change 1 with (bpow radix2 0); apply bpow_le; lia).
  assert (M1 : modest (of_Z 1)) by (split; [exact F1|rewrite V1, Rabs_R1; exact B60]).
  assert (M2 : modest (of_Z (-1))).
  { split; [exact F2|]. rewrite V2. rewrite Rabs_left by lra. lra. }
  assert (MP : modest_vec p).
  { pose proof (P 0%nat) as (X & X'). pose proof (P 1%nat) as (Y & Y'). pose proof (P 2%nat) as (Z & Z'). cbn [fcoord] in *.
    repeat split; try assumption; lra. }
  set (b := mk_fbox _ _).
  assert (LO : modest_vec (fb_lo b)) by (repeat split; apply M2).
  assert (HI : modest_vec (fb_hi b)) by (repeat split; apply M1).
  assert (W : within p b).
  { unfold b. apply within_of; [apply modest_fin; exact MP|..]; unfold below; cbn [fx fy fz]; rewrite ?V1, ?V2;
      pose proof (P 0%nat) as (_ & X); pose proof (P 1%nat) as (_ & Y); pose proof (P 2%nat) as (_ & Z); cbn [fcoord] in *;
      repeat split; split_Rabs; lra. }
  destruct (images_contain m b p A LO HI MP W) as (L & H).
  destruct (f_images m b) as [pmi pma]. cbn [fst snd] in *. apply within_of; [apply point_fin; assumption|assumption..].
Qed.
Print Assumptions float_sphere_box.
