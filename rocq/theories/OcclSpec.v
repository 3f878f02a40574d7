(* Specification of the occlusion test: something of the scene is hit before the
   light, up to the tolerance. *)
From Verif Require Import Common GeomModel AabbModel AabbSpec KdModel KdSpec.
Local Open Scope nat_scope.

(* [first a r] is the parameter of the first hit of the asset; with a direction of
   length one it is a distance *)
Definition occluded {A} (first : A -> ray -> option Q) (assets : list A) (r : ray) (distance : Q)
    : Prop :=
  exists a d, In a assets /\ first a r = Some d /\ (d + (1 # 1000) < distance)%Q.

Definition is_length (l : Q) (v : vec) : Prop :=
  (0 <= l)%Q /\ (l * l == vx v * vx v + vy v * vy v + vz v * vz v)%Q.
