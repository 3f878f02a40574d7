(* Expanded boxes. *)
From Coq Require Import QArith Qabs Lqa Bool Lia.
From Verif Require Import Common GeomModel AabbModel.
Local Open Scope Q_scope.

Definition close (v : Q) (p q : vec) : Prop := Qabs (vx p - vx q) <= v /\ Qabs (vy p - vy q) <= v /\ Qabs (vz p - vz q) <= v.

Lemma clamped : forall lo hi v p, 0 <= v -> lo <= hi -> lo - v <= p -> p <= hi + v -> exists q, lo <= q /\ q <= hi /\ Qabs (p - q) <= v.
Proof.
  intros lo hi v p V L A B. destruct (Qlt_le_dec p lo) as [C|C]; [exists lo|destruct (Qlt_le_dec hi p) as [D|D]; [exists hi|exists p]]; (split; [lra|split; [lra|apply Qabs_Qle_condition; split; lra]]).
Qed.

Lemma within : forall lo hi v p q, lo <= q -> q <= hi -> Qabs (p - q) <= v -> lo - v <= p /\ p <= hi + v.
Proof. intros lo hi v p q A B C. apply Qabs_Qle_condition in C. lra. Qed.

Lemma xge_fin : forall a b, xge (Fin a) (Fin b) = true <-> b <= a.
Proof.
  intros a b. unfold xge, xlt, qltb. destruct (Qle_bool b a) eqn:E; cbn.
  - apply Qle_bool_iff in E. tauto.
  - split; [discriminate|]. intro L. apply Qle_bool_iff in L. rewrite L in E. discriminate E.
Qed.

Lemma inside_fin : forall lx ly lz hx hy hz p, inside (mk_aabb (XV (Fin lx) (Fin ly) (Fin lz)) (XV (Fin hx) (Fin hy) (Fin hz))) p = true <->
  (lx <= vx p /\ vx p <= hx) /\ (ly <= vy p /\ vy p <= hy) /\ (lz <= vz p /\ vz p <= hz).
Proof. intros. unfold inside. cbn [b_lo b_hi xx xy xz]. rewrite !andb_true_iff, !xge_fin. tauto. Qed.

(* An expanded box holds exactly the points at most v from a point of the box in every coordinate; the
   empty box stays empty. *)
Theorem box_expanded : forall v, 0 <= v ->
  (forall lo hi p, vx lo <= vx hi -> vy lo <= vy hi -> vz lo <= vz hi ->
    (inside (aabb_expand (aabb_of lo hi) v) p = true <-> exists q, inside (aabb_of lo hi) q = true /\ close v p q)) /\
  (forall p, inside (aabb_expand aabb_empty v) p = false).
Proof.
  intros v HV. split; [|intro p; reflexivity]. intros lo hi p LX LY LZ. unfold aabb_expand, aabb_of, xvsub, xvec_of. cbn [b_lo b_hi xx xy xz]. unfold xsub, xadd, xopp. rewrite inside_fin. split.
  - intros ((A & B) & (C & D) & (E & F)).
    destruct (clamped (vx lo) (vx hi) v (vx p) HV LX) as (x & X1 & X2 & X3); [lra|lra|]. destruct (clamped (vy lo) (vy hi) v (vy p) HV LY) as (y & Y1 & Y2 & Y3); [lra|lra|]. destruct (clamped (vz lo) (vz hi) v (vz p) HV LZ) as (z & Z1 & Z2 & Z3); [lra|lra|].
    exists (V x y z). unfold close. rewrite inside_fin. cbn [vx vy vz]. repeat split; assumption.
  - intros (q & I & X & Y & Z). apply inside_fin in I. destruct I as ((A & B) & (C & D) & (E & F)).
    destruct (within _ _ _ _ _ A B X). destruct (within _ _ _ _ _ C D Y). destruct (within _ _ _ _ _ E F Z). repeat split; lra.
Qed.
Example expanded_case : inside (aabb_expand (aabb_of (V 0 0 0) (V 1 2 3)) (1 # 2)) (V (3 # 2) (-1 # 2) 3) = true /\ inside (aabb_of (V 0 0 0) (V 1 2 3)) (V (3 # 2) (-1 # 2) 3) = false.
Proof. split; vm_compute; reflexivity. Qed.
Print Assumptions box_expanded.
