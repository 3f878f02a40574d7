(* The comparisons of bounding boxes, src/geometry/AABB.cpp:214-244. *)
From Verif Require Import Common GeomModel AabbModel.
Local Open Scope Q_scope.

(* == of two floats: a NaN equals nothing *)
Definition xeqf (a b : xq) : bool :=
  match a, b with
  | Fin p, Fin q => Qeq_bool p q
  | PInf, PInf | NInf, NInf => true
  | _, _ => false
  end.

(* AABB.cpp:214-217 *)
Definition box_lt (a b : aabb) : bool := xlt (surface a) (surface b).
(* AABB.cpp:219-222 *)
Definition box_gt (a b : aabb) : bool := box_lt b a.
(* AABB.cpp:224-227 *)
Definition box_le (a b : aabb) : bool := negb (box_lt b a).
(* AABB.cpp:229-232 *)
Definition box_ge (a b : aabb) : bool := negb (box_gt b a).
(* AABB.cpp:234-237 *)
Definition box_eq (a b : aabb) : bool := xeqf (surface a) (surface b).
(* AABB.cpp:239-242 *)
Definition box_ne (a b : aabb) : bool := negb (box_eq a b).
