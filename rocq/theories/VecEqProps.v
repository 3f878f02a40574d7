(* C278-C279: comparing vectors, points and normals. *)
From Coq Require Import QArith Qabs Lqa.
From Verif Require Import Common GeomModel AabbModel AabbOpModel AabbOpProps VecEqModel.
Local Open Scope Q_scope.

Lemma tol_eq : forall p q, xge (Fin flt_eps) (xabs (xsub (Fin p) (Fin q))) = true <-> Qabs (p - q) <= flt_eps.
Proof.
  intros p q; cbn [xsub xopp xadd xabs xge xlt]; unfold Qminus.
  destruct (qltb (p + - q) 0) eqn:E.
  - apply qltb_iff in E; rewrite Qabs_neg by lra.
    destruct (qltb flt_eps (- (p + - q))) eqn:F; cbn; split; intro H; try discriminate; try reflexivity.
    + apply qltb_iff in F; lra.
    + apply Qnot_lt_le; intro G; apply qltb_iff in G; congruence.
  - assert (E' : ~ p + - q < 0) by (intro G; apply qltb_iff in G; congruence).
    rewrite Qabs_pos by lra.
    destruct (qltb flt_eps (p + - q)) eqn:F; cbn; split; intro H; try discriminate; try reflexivity.
    + apply qltb_iff in F; lra.
    + apply Qnot_lt_le; intro G; apply qltb_iff in G; congruence.
Qed.
Lemma tol_ne : forall p q, xlt (Fin flt_eps) (xabs (xsub (Fin p) (Fin q))) = negb (xge (Fin flt_eps) (xabs (xsub (Fin p) (Fin q)))).
Proof. intros p q; cbn [xsub xopp xadd xabs xge]; rewrite Bool.negb_involutive; reflexivity. Qed.

Lemma vec_eq_iff : forall a b, vec_eq (xvec_of a) (xvec_of b) = true <->
  Qabs (vx a - vx b) <= flt_eps /\ Qabs (vy a - vy b) <= flt_eps /\ Qabs (vz a - vz b) <= flt_eps.
Proof.
  intros a b; unfold vec_eq, xvec_of; cbn [xx xy xz].
  rewrite !Bool.andb_true_iff, !tol_eq; tauto.
Qed.

(* C278.  Finite vectors and points are equal exactly if they differ by at most 2^-23 in every
   component; equality is reflexive and symmetric and != is its negation.  Normals are equal
   exactly if their components are. *)
Theorem vec_eq_tolerance : forall a b,
  (vec_eq (xvec_of a) (xvec_of b) = true <->
     Qabs (vx a - vx b) <= 1 # 8388608 /\ Qabs (vy a - vy b) <= 1 # 8388608 /\ Qabs (vz a - vz b) <= 1 # 8388608) /\
  vec_eq (xvec_of a) (xvec_of a) = true /\
  vec_eq (xvec_of b) (xvec_of a) = vec_eq (xvec_of a) (xvec_of b) /\
  vec_ne (xvec_of a) (xvec_of b) = negb (vec_eq (xvec_of a) (xvec_of b)) /\
  (normal_eq (xvec_of a) (xvec_of b) = true <-> vx a == vx b /\ vy a == vy b /\ vz a == vz b) /\
  normal_ne (xvec_of a) (xvec_of b) = negb (normal_eq (xvec_of a) (xvec_of b)).
Proof.
  intros a b; split; [apply vec_eq_iff |]; split; [| split; [| split; [| split]]].
  - apply vec_eq_iff; assert (Z : forall q, Qabs (q - q) <= flt_eps) by (intro q; setoid_replace (q - q) with 0 by ring; discriminate).
    auto.
  - apply Bool.eq_iff_eq_true; rewrite !vec_eq_iff.
    rewrite (Qabs_Qminus (vx a)), (Qabs_Qminus (vy a)), (Qabs_Qminus (vz a)); tauto.
  - unfold vec_ne, vec_eq, xvec_of; cbn [xx xy xz]; rewrite !tol_ne, !Bool.negb_andb; reflexivity.
  - unfold normal_eq, xvec_of; cbn [xx xy xz xeqf]; rewrite !Bool.andb_true_iff, !Qeq_bool_iff; tauto.
  - unfold normal_ne, normal_eq; rewrite !Bool.negb_andb; reflexivity.
Qed.
Print Assumptions vec_eq_tolerance.
Example vec_eq_tolerance_ex : vec_eq (xvec_of (V 1 0 0)) (xvec_of (V (8388609 # 8388608) 0 0)) = true /\
  vec_eq (xvec_of (V 1 0 0)) (xvec_of (V (8388610 # 8388608) 0 0)) = false.
Proof. split; reflexivity. Qed.

(* C279.  Equality is not transitive from any vector on; all vectors with small components are
   equal whatever their directions; and a vector with an infinity or a NaN is neither equal to
   itself nor different from itself. *)
Theorem vec_eq_refuted :
  (forall a, exists b c, vec_eq (xvec_of a) (xvec_of b) = true /\ vec_eq (xvec_of b) (xvec_of c) = true /\
     vec_eq (xvec_of a) (xvec_of c) = false) /\
  (forall a b, (Qabs (vx a) <= 1 # 16777216) -> (Qabs (vy a) <= 1 # 16777216) -> (Qabs (vz a) <= 1 # 16777216) ->
     (Qabs (vx b) <= 1 # 16777216) -> (Qabs (vy b) <= 1 # 16777216) -> (Qabs (vz b) <= 1 # 16777216) ->
     vec_eq (xvec_of a) (xvec_of b) = true) /\
  (forall x y z, (x = PInf \/ x = NInf \/ x = NaN) ->
     vec_eq (XV x (Fin y) (Fin z)) (XV x (Fin y) (Fin z)) = false /\
     vec_ne (XV x (Fin y) (Fin z)) (XV x (Fin y) (Fin z)) = false).
Proof.
  split; [| split].
  - intro a; exists (V (vx a + flt_eps) (vy a) (vz a)), (V (vx a + flt_eps + flt_eps) (vy a) (vz a)).
    assert (Z : forall q, Qabs (q - q) <= flt_eps) by (intro q; setoid_replace (q - q) with 0 by ring; discriminate).
    split; [| split].
    + apply vec_eq_iff; cbn [vx vy vz]; split; [| split; apply Z].
      setoid_replace (vx a - (vx a + flt_eps)) with (- flt_eps) by ring; discriminate.
    + apply vec_eq_iff; cbn [vx vy vz]; split; [| split; apply Z].
      setoid_replace (vx a + flt_eps - (vx a + flt_eps + flt_eps)) with (- flt_eps) by ring; discriminate.
    + apply Bool.not_true_is_false; intro E; apply vec_eq_iff in E; destruct E as [E _]; cbn [vx vy vz] in E; revert E.
      setoid_replace (vx a - (vx a + flt_eps + flt_eps)) with (- (2 * flt_eps)) by ring.
      intro E; vm_compute in E; apply E; reflexivity.
  - intros a b A1 A2 A3 B1 B2 B3; apply vec_eq_iff.
    assert (T : forall p q, Qabs p <= 1 # 16777216 -> Qabs q <= 1 # 16777216 -> Qabs (p - q) <= flt_eps).
    { intros p q P Q'; unfold Qminus; eapply Qle_trans; [apply Qabs_triangle |]; rewrite Qabs_opp; unfold flt_eps; lra. }
    auto.
  - intros x y z [-> | [-> | ->]]; unfold vec_eq, vec_ne; cbn [xx xy xz].
    all: rewrite !tol_ne, !Bool.negb_false_iff || idtac.
    all: assert (Z : forall q, xge (Fin flt_eps) (xabs (xsub (Fin q) (Fin q))) = true)
      by (intro q; apply tol_eq; setoid_replace (q - q) with 0 by ring; discriminate).
    all: rewrite ?tol_ne, ?Z; split; reflexivity.
Qed.
Print Assumptions vec_eq_refuted.
