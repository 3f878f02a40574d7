(* C269-C272: measures and comparisons of bounding boxes. *)
From Coq Require Import QArith Lqa.
From Verif Require Import Common GeomModel AabbModel AabbSpec AabbOpModel.
Local Open Scope Q_scope.

(* lo is not above hi on any axis *)
Definition ordered (lo hi : vec) : Prop := vx lo <= vx hi /\ vy lo <= vy hi /\ vz lo <= vz hi.
Definition vmirror (c p : vec) : vec := V (2 * vx c - vx p) (2 * vy c - vy p) (2 * vz c - vz p).

Lemma contains_of : forall lo hi p, contains (aabb_of lo hi) p <->
  (vx lo <= vx p <= vx hi) /\ (vy lo <= vy p <= vy hi) /\ (vz lo <= vz p <= vz hi).
Proof. intros lo hi p; unfold contains, aabb_of; cbn; tauto. Qed.

Lemma nested : forall lo hi lo' hi', ordered lo hi ->
  (forall p, contains (aabb_of lo hi) p -> contains (aabb_of lo' hi') p) ->
  (vx lo' <= vx lo /\ vx hi <= vx hi') /\ (vy lo' <= vy lo /\ vy hi <= vy hi') /\ (vz lo' <= vz lo /\ vz hi <= vz hi').
Proof.
  intros lo hi lo' hi' (X & Y & Z) H.
  assert (A := H lo); assert (B := H hi); rewrite !contains_of in A, B.
  destruct A as ((? & ?) & (? & ?) & (? & ?)); [repeat split; lra |].
  destruct B as ((? & ?) & (? & ?) & (? & ?)); [repeat split; lra |].
  repeat split; assumption.
Qed.

(* C269.  A box that lies in another one has no larger surface and no larger volume, and both
   are finite and not negative. *)
Theorem box_measures_grow : forall lo hi lo' hi', ordered lo hi ->
  (forall p, contains (aabb_of lo hi) p -> contains (aabb_of lo' hi') p) ->
  exists s v s' v', surface (aabb_of lo hi) = Fin s /\ volume (aabb_of lo hi) = Fin v /\
    surface (aabb_of lo' hi') = Fin s' /\ volume (aabb_of lo' hi') = Fin v' /\
    0 <= s <= s' /\ 0 <= v <= v'.
Proof.
  intros lo hi lo' hi' O H; destruct (nested _ _ _ _ O H) as ((X1 & X2) & (Y1 & Y2) & (Z1 & Z2)).
  destruct O as (X & Y & Z); unfold surface, volume, xvsub, aabb_of, xsub, xvec_of; cbn.
  do 4 eexists; do 4 (split; [reflexivity |]).
  set (x := vx hi + - vx lo); set (y := vy hi + - vy lo); set (z := vz hi + - vz lo).
  set (x' := vx hi' + - vx lo'); set (y' := vy hi' + - vy lo'); set (z' := vz hi' + - vz lo').
  assert (0 <= x) by (unfold x; lra); assert (0 <= y) by (unfold y; lra); assert (0 <= z) by (unfold z; lra).
  assert (x <= x') by (unfold x, x'; lra); assert (y <= y') by (unfold y, y'; lra); assert (z <= z') by (unfold z, z'; lra).
  clearbody x y z x' y' z'; clear X Y Z X1 X2 Y1 Y2 Z1 Z2 H.
  assert (M : forall a b c d, 0 <= a -> 0 <= b -> a <= c -> b <= d -> 0 <= a * b <= c * d) by (intros; split; nra).
  pose proof (M x y x' y') as M1; pose proof (M x z x' z') as M2; pose proof (M y z y' z') as M3.
  pose proof (M (x * y) z (x' * y') z') as M4.
  split; [split; lra | apply M4; lra].
Qed.
Print Assumptions box_measures_grow.
Example box_measures_grow_ex : ordered (V 0 0 0) (V 1 2 3) /\
  (forall p, contains (aabb_of (V 0 0 0) (V 1 2 3)) p -> contains (aabb_of (V 0 (-1) 0) (V 1 2 4)) p) /\
  surface (aabb_of (V 0 0 0) (V 1 2 3)) = Fin 22 /\ volume (aabb_of (V 0 0 0) (V 1 2 3)) = Fin 6.
Proof.
  split; [unfold ordered; cbn; lra |]; split; [| split; reflexivity].
  intros p; rewrite !contains_of; cbn; intros; lra.
Qed.

(* C270.  The centre of a box is the point that every point of the box can be mirrored in
   without leaving the box, and it belongs to the box. *)
Theorem box_center_mirror : forall lo hi, ordered lo hi ->
  exists c, center (aabb_of lo hi) = xvec_of c /\ contains (aabb_of lo hi) c /\
    (forall p, contains (aabb_of lo hi) p <-> contains (aabb_of lo hi) (vmirror c p)).
Proof.
  intros lo hi (X & Y & Z).
  exists (V ((vx lo + vx hi) * (1 # 2)) ((vy lo + vy hi) * (1 # 2)) ((vz lo + vz hi) * (1 # 2))).
  split; [reflexivity |]; split; [rewrite contains_of; cbn; lra |].
  intro p; rewrite !contains_of; cbn; split; intros; lra.
Qed.
Print Assumptions box_center_mirror.
Example box_center_mirror_ex : ordered (V 0 0 0) (V 1 2 3). Proof. unfold ordered; cbn; lra. Qed.

(* no two points of the box are further apart along an axis than along the longest one *)
Theorem box_longest_axis : forall lo hi, ordered lo hi ->
  let a := longest_axis (aabb_of lo hi) in (a < 3)%nat /\
  forall k p q, (k < 3)%nat -> contains (aabb_of lo hi) p -> contains (aabb_of lo hi) q ->
    exists p' q', contains (aabb_of lo hi) p' /\ contains (aabb_of lo hi) q' /\
      coord k p - coord k q <= coord a p' - coord a q'.
Proof.
  intros lo hi O a; assert (O' := O); destruct O as (X & Y & Z).
  assert (L : (a < 3)%nat /\ forall k, (k < 3)%nat -> coord k hi - coord k lo <= coord a hi - coord a lo).
  { unfold a, longest_axis, xvsub, aabb_of, xsub, xvec_of; cbn; unfold qltb.
    destruct (Qle_bool (vy hi + - vy lo) (vx hi + - vx lo)) eqn:E1; destruct (Qle_bool (vz hi + - vz lo) (vx hi + - vx lo)) eqn:E2;
      destruct (Qle_bool (vz hi + - vz lo) (vy hi + - vy lo)) eqn:E3; cbn;
      (split; [auto |]; intros [| [| [| k]]] K; cbn;
       [| | | exfalso; do 3 apply Nat.succ_lt_mono in K; inversion K]);
      repeat match goal with
      | H : Qle_bool _ _ = true |- _ => apply Qle_bool_iff in H
      | H : Qle_bool ?a ?b = false |- _ =>
          assert (b < a) by (apply Qnot_le_lt; intro F; apply Qle_bool_iff in F; congruence); clear H
      end; lra. }
  destruct L as (A & L); split; [exact A |].
  intros k p q K P Q'; exists hi, lo.
  split; [rewrite contains_of; lra |]; split; [rewrite contains_of; lra |].
  eapply Qle_trans; [| exact (L k K)].
  rewrite contains_of in P, Q'; destruct k as [| [| k]]; cbn; lra.
Qed.
Print Assumptions box_longest_axis.
Example box_longest_axis_ex : longest_axis (aabb_of (V 0 0 0) (V 1 5 3)) = 1%nat. Proof. reflexivity. Qed.

Lemma surface_fin : forall lo hi, exists s, surface (aabb_of lo hi) = Fin s.
Proof. intros lo hi; unfold surface, xvsub, aabb_of, xsub, xvec_of; cbn; eexists; reflexivity. Qed.

Lemma qltb_iff : forall a b, qltb a b = true <-> a < b.
Proof.
  intros a b; unfold qltb; destruct (Qle_bool b a) eqn:E; cbn; split; intro H; try discriminate.
  - apply Qle_bool_iff in E; lra.
  - apply Qnot_le_lt; intro F; apply Qle_bool_iff in F; congruence.
  - reflexivity.
Qed.

(* C271.  The comparisons of finite boxes are consistent: exactly one of <, == and > holds,
   <=, >= and != are what they should be, and all of them are transitive. *)
Theorem box_order_consistent : forall lo hi lo' hi' lo'' hi'',
  let a := aabb_of lo hi in let b := aabb_of lo' hi' in let c := aabb_of lo'' hi'' in
  ((box_lt a b = true /\ box_eq a b = false /\ box_gt a b = false) \/
   (box_lt a b = false /\ box_eq a b = true /\ box_gt a b = false) \/
   (box_lt a b = false /\ box_eq a b = false /\ box_gt a b = true)) /\
  box_le a b = box_lt a b || box_eq a b /\ box_ge a b = box_gt a b || box_eq a b /\
  box_ne a b = negb (box_eq a b) /\
  (box_lt a b = true -> box_lt b c = true -> box_lt a c = true) /\
  (box_eq a b = true -> box_eq b c = true -> box_eq a c = true) /\
  (box_le a b = true -> box_le b c = true -> box_le a c = true).
Proof.
  intros; unfold box_ge, box_le, box_gt, box_lt, box_ne, box_eq, a, b, c.
  destruct (surface_fin lo hi) as (x & ->), (surface_fin lo' hi') as (y & ->), (surface_fin lo'' hi'') as (z & ->).
  cbn.
  assert (T : forall p q, qltb p q = true /\ p < q \/ qltb p q = false /\ q <= p).
  { intros p q; destruct (qltb p q) eqn:E; [left | right]; (split; [reflexivity |]).
    - apply qltb_iff, E.
    - apply Qnot_lt_le; intro F; apply qltb_iff in F; congruence. }
  assert (U : forall p q, Qeq_bool p q = true /\ p == q \/ Qeq_bool p q = false /\ ~ p == q).
  { intros p q; destruct (Qeq_bool p q) eqn:E; [left | right]; (split; [reflexivity |]).
    - apply Qeq_bool_iff, E.
    - intro F; apply Qeq_bool_iff in F; congruence. }
  destruct (T x y) as [(E1 & H1) | (E1 & H1)], (T y x) as [(E2 & H2) | (E2 & H2)], (U x y) as [(E3 & H3) | (E3 & H3)];
    try (exfalso; lra); try (exfalso; apply H3; lra);
    destruct (T y z) as [(E4 & H4) | (E4 & H4)], (T x z) as [(E5 & H5) | (E5 & H5)], (U y z) as [(E6 & H6) | (E6 & H6)],
      (U x z) as [(E7 & H7) | (E7 & H7)], (T z y) as [(E8 & H8) | (E8 & H8)], (T z x) as [(E9 & H9) | (E9 & H9)];
    try (exfalso; lra); try (exfalso; apply H6; lra); try (exfalso; apply H7; lra);
    rewrite ?E1, ?E2, ?E3, ?E4, ?E5, ?E6, ?E7, ?E8, ?E9; cbn; repeat split; auto; try discriminate; tauto.
Qed.
Print Assumptions box_order_consistent.
Example box_order_consistent_ex : box_lt (aabb_of (V 0 0 0) (V 1 1 1)) (aabb_of (V 0 0 0) (V 1 1 2)) = true.
Proof. reflexivity. Qed.

(* C272.  Boxes that share no point compare equal when they are copies of each other, and the
   empty box is the largest of all. *)
Theorem box_equal_refuted : forall lo hi d, ordered lo hi -> vx hi - vx lo < d ->
  box_eq (aabb_of lo hi) (aabb_of (vadd lo (V d 0 0)) (vadd hi (V d 0 0))) = true /\
  (forall p, contains (aabb_of lo hi) p -> ~ contains (aabb_of (vadd lo (V d 0 0)) (vadd hi (V d 0 0))) p) /\
  box_lt (aabb_of lo hi) aabb_empty = true /\ (forall p, ~ contains aabb_empty p).
Proof.
  intros lo hi d (X & Y & Z) D; repeat split.
  - unfold box_eq, surface, xvsub, aabb_of, xsub, xvec_of; cbn; apply Qeq_bool_iff; ring.
  - intros p P Q'; rewrite contains_of in P, Q'; cbn in Q'; lra.
  - unfold contains, aabb_empty; cbn; tauto.
Qed.
Print Assumptions box_equal_refuted.
Example box_equal_refuted_ex : ordered (V 0 0 0) (V 1 2 3) /\ 1 - 0 < 5. Proof. unfold ordered; cbn; lra. Qed.
