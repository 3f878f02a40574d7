(* What it means for a ray to meet a triangle. *)
From Verif Require Import Common GeomModel AabbModel AabbSpec TriModel.
Local Open Scope Q_scope.

(* combination of the corners with weights w, u and v *)
Definition mix (w u v : Q) (a b c : vec) : vec :=
  V (w * vx a + u * vx b + v * vx c) (w * vy a + u * vy b + v * vy c)
    (w * vz a + u * vz b + v * vz c).

Definition weights (w u v : Q) : Prop := 0 <= w /\ 0 <= u /\ 0 <= v /\ w + u + v == 1.

(* the ray is at the point of barycentric weights (w, u, v) at parameter t *)
Definition meets (T : triangle) (r : ray) (t w u v : Q) : Prop :=
  weights w u v /\
  on_ray r t (mix w u v (v_p (t_a T)) (v_p (t_b T)) (v_p (t_c T))).

(* the direction is not in the plane of the triangle, and the triangle has one *)
Definition transversal (T : triangle) (r : ray) : Prop :=
  ~ dot (cross (vsub (v_p (t_b T)) (v_p (t_a T))) (vsub (v_p (t_c T)) (v_p (t_a T))))
        (r_d r) == 0.

Definition veq (a b : vec) : Prop := vx a == vx b /\ vy a == vy b /\ vz a == vz b.

(* distances the renderer accepts: not too close to the origin, not behind an
   object already hit *)
Definition acceptable (distance : xq) (t : Q) : Prop :=
  self_err <= t /\ xlt distance (Fin t) = false.
