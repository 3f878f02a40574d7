(* Boxes grown from points in single precision: tight, independent of the order, forgetful of NaN. *)
From Coq Require Import ZArith Reals List Lra Lia Bool Permutation.
From Flocq Require Import Core.Core IEEE754.BinarySingleNaN.
From Verif Require Import Common FltModel FltFacts FltProps FRayModel FFilmProps FFresProps FltVecProps FMatModel FGrowModel.
Import ListNotations.
Local Open Scope R_scope.

Lemma min_val : forall x y, fin x -> fin y -> (fmin x y = x \/ fmin x y = y) /\ fin (fmin x y) /\ val (fmin x y) <= val x /\ val (fmin x y) <= val y.
Proof.
  intros x y FX FY. unfold fmin. destruct (flt x y) eqn:E.
  - apply (flt_val _ _ FX FY) in E. split; [left; reflexivity|]. split; [exact FX|lra].
  - assert (~ val x < val y) by (intro L; apply (flt_val _ _ FX FY) in L; congruence). split; [right; reflexivity|]. split; [exact FY|lra].
Qed.

Lemma max_val : forall x y, fin x -> fin y -> (fmax x y = x \/ fmax x y = y) /\ fin (fmax x y) /\ val x <= val (fmax x y) /\ val y <= val (fmax x y).
Proof.
  intros x y FX FY. unfold fmax, fgt. fold (flt y x). destruct (flt y x) eqn:E.
  - apply (flt_val _ _ FY FX) in E. split; [left; reflexivity|]. split; [exact FX|lra].
  - assert (~ val y < val x) by (intro L; apply (flt_val _ _ FY FX) in L; congruence). split; [right; reflexivity|]. split; [exact FY|lra].
Qed.

(* one coordinate *)
Lemma min_fold : forall l x, fin x -> Forall fin l -> let m := fold_left fmin l x in fin m /\ In m (x :: l) /\ (forall y, In y (x :: l) -> val m <= val y).
Proof.
  induction l as [|a l IH]; intros x FX FL; cbn.
  - split; [exact FX|]. split; [left; reflexivity|]. intros y [<-|[]]. lra.
  - inversion FL as [|? ? FA FL']; subst. destruct (min_val x a FX FA) as (C & FM & LX & LA). destruct (IH (fmin x a) FM FL') as (F & I & L). split; [exact F|]. split.
    + destruct I as [I|I]; [|right; right; exact I]. rewrite <- I. destruct C as [-> | ->]; [left|right; left]; reflexivity.
    + pose proof (L _ (or_introl eq_refl)) as L0. intros y [<-|[<-|K]]; [lra|lra|apply L; right; exact K].
Qed.

Lemma max_fold : forall l x, fin x -> Forall fin l -> let m := fold_left fmax l x in fin m /\ In m (x :: l) /\ (forall y, In y (x :: l) -> val y <= val m).
Proof.
  induction l as [|a l IH]; intros x FX FL; cbn.
  - split; [exact FX|]. split; [left; reflexivity|]. intros y [<-|[]]. lra.
  - inversion FL as [|? ? FA FL']; subst. destruct (max_val x a FX FA) as (C & FM & LX & LA). destruct (IH (fmax x a) FM FL') as (F & I & L). split; [exact F|]. split.
    + destruct I as [I|I]; [|right; right; exact I]. rewrite <- I. destruct C as [-> | ->]; [left|right; left]; reflexivity.
    + pose proof (L _ (or_introl eq_refl)) as L0. intros y [<-|[<-|K]]; [lra|lra|apply L; right; exact K].
Qed.

Lemma grow_coords : forall l b, fold_left f_engulf_point l b =
  mk_fbox (mk_fvec (fold_left fmin (map fx l) (fx (fb_lo b))) (fold_left fmin (map fy l) (fy (fb_lo b))) (fold_left fmin (map fz l) (fz (fb_lo b))))
          (mk_fvec (fold_left fmax (map fx l) (fx (fb_hi b))) (fold_left fmax (map fy l) (fy (fb_hi b))) (fold_left fmax (map fz l) (fz (fb_hi b)))).
Proof. induction l as [|p l IH]; intro b; [destruct b as [[] []]; reflexivity|]. cbn [fold_left map]. rewrite IH. reflexivity. Qed.

(* the first point replaces the infinities of the empty box, whatever it is *)
Lemma first_min : forall x, fmin (B754_infinity false) x = x.
Proof. intro x. unfold fmin, flt. destruct x as [s|s| |s m e h]; try reflexivity; destruct s; reflexivity. Qed.
Lemma first_max : forall x, fmax (B754_infinity true) x = x.
Proof. intro x. unfold fmax, fgt. destruct x as [s|s| |s m e h]; try reflexivity; destruct s; reflexivity. Qed.

Lemma box_of_coords : forall p l, f_box_of (p :: l) =
  mk_fbox (mk_fvec (fold_left fmin (map fx l) (fx p)) (fold_left fmin (map fy l) (fy p)) (fold_left fmin (map fz l) (fz p)))
          (mk_fvec (fold_left fmax (map fx l) (fx p)) (fold_left fmax (map fy l) (fy p)) (fold_left fmax (map fz l) (fz p))).
Proof. intros p l. unfold f_box_of. cbn [fold_left]. rewrite grow_coords. unfold f_engulf_point, f_nobox, f_pmin, f_pmax. cbn [fb_lo fb_hi fx fy fz]. rewrite !first_min, !first_max. reflexivity. Qed.

(* lo is the least and hi the greatest of a list of floats *)
Definition least (m : f32) (l : list f32) : Prop := fin m /\ In m l /\ forall y, In y l -> val m <= val y.
Definition greatest (m : f32) (l : list f32) : Prop := fin m /\ In m l /\ forall y, In y l -> val y <= val m.
(* the smallest box around the points *)
Definition hull (b : fbox) (l : list fvec) : Prop :=
  least (fx (fb_lo b)) (map fx l) /\ least (fy (fb_lo b)) (map fy l) /\ least (fz (fb_lo b)) (map fz l) /\
  greatest (fx (fb_hi b)) (map fx l) /\ greatest (fy (fb_hi b)) (map fy l) /\ greatest (fz (fb_hi b)) (map fz l).

Lemma coords_fin : forall l, Forall vfin l -> Forall fin (map fx l) /\ Forall fin (map fy l) /\ Forall fin (map fz l).
Proof. intros l H. induction H as [|p l (X & Y & Z) _ (IX & IY & IZ)]; cbn; repeat split; constructor; assumption. Qed.

Lemma box_hull : forall p l, Forall vfin (p :: l) -> hull (f_box_of (p :: l)) (p :: l).
Proof.
  intros p l H. inversion H as [|? ? (FX & FY & FZ) HL]; subst. destruct (coords_fin l HL) as (CX & CY & CZ). rewrite box_of_coords. unfold hull, least, greatest. cbn [fb_lo fb_hi fx fy fz map].
  split; [apply min_fold; assumption|]. split; [apply min_fold; assumption|]. split; [apply min_fold; assumption|]. split; [apply max_fold; assumption|]. split; apply max_fold; assumption.
Qed.

Lemma least_same : forall m n l k, least m l -> least n k -> (forall y, In y l <-> In y k) -> val m = val n.
Proof. intros m n l k (_ & I & L) (_ & J & K) E. apply Rle_antisym; [apply L, E, J|apply K, E, I]. Qed.
Lemma greatest_same : forall m n l k, greatest m l -> greatest n k -> (forall y, In y l <-> In y k) -> val m = val n.
Proof. intros m n l k (_ & I & L) (_ & J & K) E. apply Rle_antisym; [apply K, E, I|apply L, E, J]. Qed.

Lemma fle_same : forall a b c d, fin a -> fin b -> fin c -> fin d -> val a = val c -> val b = val d -> fle a b = fle c d.
Proof. intros a b c d FA FB FC FD E F. apply eq_true_iff_eq. rewrite (fle_val a b FA FB), (fle_val c d FC FD), E, F. reflexivity. Qed.

Lemma hull_inside : forall b c l k q, hull b l -> hull c k -> (forall p, In p l <-> In p k) -> vfin q -> f_inside b q = f_inside c q.
Proof.
  intros b c l k q HB HC E (QX & QY & QZ). assert (M : forall (f : fvec -> f32) y, In y (map f l) <-> In y (map f k)). { intros f y. rewrite !in_map_iff. split; intros (p & P & I); exists p; (split; [exact P|apply E; exact I]). }
  destruct HB as (A1 & A2 & A3 & A4 & A5 & A6). destruct HC as (B1 & B2 & B3 & B4 & B5 & B6). unfold f_inside. f_equal; [f_equal|].
  - f_equal; apply fle_same; try assumption; try apply A1; try apply B1; try apply A4; try apply B4; try reflexivity; [exact (least_same _ _ _ _ A1 B1 (M fx))|exact (greatest_same _ _ _ _ A4 B4 (M fx))].
  - f_equal; apply fle_same; try assumption; try apply A2; try apply B2; try apply A5; try apply B5; try reflexivity; [exact (least_same _ _ _ _ A2 B2 (M fy))|exact (greatest_same _ _ _ _ A5 B5 (M fy))].
  - f_equal; apply fle_same; try assumption; try apply A3; try apply B3; try apply A6; try apply B6; try reflexivity; [exact (least_same _ _ _ _ A3 B3 (M fz))|exact (greatest_same _ _ _ _ A6 B6 (M fz))].
Qed.

Lemma engulf_hull : forall b c l k, hull b l -> hull c k -> hull (f_engulf b c) (l ++ k).
Proof.
  assert (LE : forall m n l k, least m l -> least n k -> least (fmin m n) (l ++ k)).
  { intros m n l k (FM & IM & LM) (FN & IN_ & LN). destruct (min_val m n FM FN) as (C & F & X & Y). split; [exact F|]. split; [apply in_or_app; destruct C as [-> | ->]; auto|]. intros y Q. apply in_app_or in Q. destruct Q as [Q|Q]; [specialize (LM y Q)|specialize (LN y Q)]; lra. }
  assert (GE : forall m n l k, greatest m l -> greatest n k -> greatest (fmax m n) (l ++ k)).
  { intros m n l k (FM & IM & LM) (FN & IN_ & LN). destruct (max_val m n FM FN) as (C & F & X & Y). split; [exact F|]. split; [apply in_or_app; destruct C as [-> | ->]; auto|]. intros y Q. apply in_app_or in Q. destruct Q as [Q|Q]; [specialize (LM y Q)|specialize (LN y Q)]; lra. }
  intros b c l k (A1 & A2 & A3 & A4 & A5 & A6) (B1 & B2 & B3 & B4 & B5 & B6). unfold hull, f_engulf, f_pmin, f_pmax. cbn [fb_lo fb_hi fx fy fz]. rewrite !map_app.
  split; [apply LE; assumption|]. split; [apply LE; assumption|]. split; [apply LE; assumption|]. split; [apply GE; assumption|]. split; apply GE; assumption.
Qed.

(* A box that engulfed finite points, at least one, contains all of them, and every bound is a
   coordinate of one of them. The order of the points does not matter, and the points can be split
   into boxes that engulf each other: the same points are inside. *)
Theorem float_box_of_points : forall p l, Forall vfin (p :: l) ->
  let b := f_box_of (p :: l) in
  hull b (p :: l) /\ (forall q, In q (p :: l) -> f_inside b q = true) /\
  (forall k q, Permutation (p :: l) k -> vfin q -> f_inside (f_box_of k) q = f_inside b q) /\
  (forall l1 l2 q, l1 <> [] -> l2 <> [] -> p :: l = l1 ++ l2 -> vfin q -> f_inside (f_engulf (f_box_of l1) (f_box_of l2)) q = f_inside b q).
Proof.
  intros p l H. cbv zeta. pose proof (box_hull p l H) as B. split; [exact B|]. split; [|split].
  - intros q I. rewrite Forall_forall in H. destruct (H q I) as (QX & QY & QZ). set (b := f_box_of (p :: l)) in *. clearbody b. destruct B as (A1 & A2 & A3 & A4 & A5 & A6). unfold f_inside. rewrite !andb_true_iff.
    repeat split; (apply fle_val; [first [exact QX|exact QY|exact QZ|apply A1|apply A2|apply A3]|first [exact QX|exact QY|exact QZ|apply A4|apply A5|apply A6]|]); first [apply A1|apply A2|apply A3|apply A4|apply A5|apply A6]; apply in_map; exact I.
  - intros k q P Q. destruct k as [|a k]; [apply Permutation_sym, Permutation_nil in P; discriminate|]. assert (HK : Forall vfin (a :: k)) by (rewrite Forall_forall in *; intros x X; apply H; eapply Permutation_in; [apply Permutation_sym; exact P|exact X]).
    apply (hull_inside _ _ (a :: k) (p :: l)); [apply box_hull; exact HK|exact B| |exact Q]. intro x. split; intro X; [eapply Permutation_in; [apply Permutation_sym; exact P|exact X]|eapply Permutation_in; [exact P|exact X]].
  - intros l1 l2 q N1 N2 E Q. rewrite E in H. apply Forall_app in H. destruct H as (H1 & H2). destruct l1 as [|a1 l1]; [contradiction|]. destruct l2 as [|a2 l2]; [contradiction|].
    apply (hull_inside _ _ ((a1 :: l1) ++ (a2 :: l2)) (p :: l)); [apply engulf_hull; apply box_hull; assumption|exact B|rewrite E; reflexivity|exact Q].
Qed.
Print Assumptions float_box_of_points.

(* (1,0,2), (0,1,3) and (2,2,-1) *)
Example box_of_points_case : let z n := of_Z n in
  let b := f_box_of [mk_fvec (z 1) (z 0) (z 2); mk_fvec (z 0) (z 1) (z 3); mk_fvec (z 2) (z 2) (z (-1))]%Z in
  B2SF (fz (fb_lo b)) = B2SF (z (-1)%Z) /\ B2SF (fx (fb_hi b)) = B2SF (z 2%Z) /\ f_inside b (mk_fvec (z 1) (z 1) (z 1))%Z = true /\ f_inside b (mk_fvec (z 1) (z 1) (z 4))%Z = false.
Proof. repeat split; vm_compute; reflexivity. Qed.

(* A point with a coordinate that is not a number makes the box forget the bounds that the points
   before it gave in that coordinate. *)
Theorem float_box_nan_refuted : forall l1 p l2, l2 <> [] ->
  (fx p = B754_nan -> fx (fb_lo (f_box_of (l1 ++ p :: l2))) = fx (fb_lo (f_box_of l2)) /\ fx (fb_hi (f_box_of (l1 ++ p :: l2))) = fx (fb_hi (f_box_of l2))) /\
  (fx p = B754_nan -> forall q, vfin q -> Forall vfin l2 -> (forall a, In a l2 -> val (fx q) < val (fx a)) -> f_inside (f_box_of (l1 ++ p :: l2)) q = false).
Proof.
  intros l1 p l2 N. assert (MN : forall x, fmin (B754_nan) x = x) by (intro x; unfold fmin, flt; destruct x; reflexivity). assert (MX : forall x, fmax (B754_nan) x = x) by (intro x; unfold fmax, fgt; destruct x as [s|s| |s m e h]; try reflexivity; destruct s; reflexivity).
  assert (KN : forall x, fmin x B754_nan = B754_nan) by (intro x; unfold fmin, flt; destruct x as [s|s| |s m e h]; try reflexivity; destruct s; reflexivity). assert (KX : forall x, fmax x B754_nan = B754_nan) by (intro x; unfold fmax, fgt; destruct x; reflexivity).
  assert (S : fx p = B754_nan -> fx (fb_lo (f_box_of (l1 ++ p :: l2))) = fx (fb_lo (f_box_of l2)) /\ fx (fb_hi (f_box_of (l1 ++ p :: l2))) = fx (fb_hi (f_box_of l2))).
  { intro E. destruct l2 as [|a l2]; [contradiction|]. rewrite box_of_coords. unfold f_box_of. rewrite fold_left_app, grow_coords. cbn [fb_lo fb_hi fx map fold_left]. rewrite E, KN, KX, MN, MX. split; reflexivity. }
  split; [exact S|]. intros E q (QX & _ & _) F L. destruct (S E) as (S1 & _). destruct l2 as [|a l2]; [contradiction|]. destruct (box_hull a l2 F) as ((FM & I & _) & _). unfold f_inside. rewrite S1.
  apply in_map_iff in I. destruct I as (w & W & I). assert (T : fle (fx (fb_lo (f_box_of (a :: l2)))) (fx q) = false).
  { destruct (fle (fx (fb_lo (f_box_of (a :: l2)))) (fx q)) eqn:T; [|reflexivity]. apply (fle_val _ _ FM QX) in T. specialize (L w I). rewrite W in L. lra. } rewrite T. reflexivity.
Qed.
Print Assumptions float_box_nan_refuted.

(* the origin, a point that is no number, and (1,0,0): the origin is not in the box *)
Example box_nan_case : let o := mk_fvec fzero fzero fzero in f_inside (f_box_of [o; mk_fvec B754_nan fzero fzero; mk_fvec fone fzero fzero]) o = false.
Proof. vm_compute. reflexivity. Qed.
