(* The surface of a mesh in its own space. *)
From Coq Require Import Reals Lra List.
From Verif Require Import RVecModel RVecProps MatModel PrimSpec FaceModel FaceSpec FaceProps.
Import ListNotations.
Local Open Scope R_scope.

(* the sum of the areas of the triangles, by Heron's formula *)
Theorem faces_area_local : forall l, exists areas, Forall2 (fun t k => is_area (f_a t) (f_b t) (f_c t) k) l areas /\ faces_surface l = total areas.
Proof.
  intro l. exists (map face_surface l). split.
  - induction l as [|[a b c] l IH]; constructor; [apply face_area_local|exact IH].
  - unfold faces_surface. rewrite fold_map, fold_total. ring.
Qed.
Example faces_area_case : faces_surface [RTri (RV 0 0 0) (RV 1 0 0) (RV 0 1 0); RTri (RV 0 0 0) (RV 4 0 0) (RV 0 3 0)] = 13 / 2.
Proof.
  unfold faces_surface, face_surface. cbn [fold_left f_a f_b f_c]. unfold rlength, rdot, rcross, rsub. cbn [rx ry rz].
  match goal with |- 0 + / 2 * sqrt ?x + / 2 * sqrt ?y = _ => replace x with (1 * 1) by ring; replace y with (12 * 12) by ring end. rewrite !sqrt_square by lra. lra.
Qed.
Print Assumptions faces_area_local.
