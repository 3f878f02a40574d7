(* The unit cube as a set of points. *)
From Verif Require Import Common GeomModel.
Local Open Scope Q_scope.

Definition cube (p : vec) : Prop :=
  (0 <= vx p /\ vx p <= 1) /\ (0 <= vy p /\ vy p <= 1) /\ (0 <= vz p /\ vz p <= 1).
Definition cube_inside (p : vec) : Prop :=
  (0 < vx p /\ vx p < 1) /\ (0 < vy p /\ vy p < 1) /\ (0 < vz p /\ vz p < 1).
Definition cube_surface (p : vec) : Prop := cube p /\ ~ cube_inside p.

(* the ray does not run in the plane of a face *)
Definition off_planes (r : ray) : Prop :=
  let free o d := ~ d == 0 \/ (~ o == 0 /\ ~ o == 1) in
  free (vx (r_o r)) (vx (r_d r)) /\ free (vy (r_o r)) (vy (r_d r)) /\ free (vz (r_o r)) (vz (r_d r)).
Definition moving (r : ray) : Prop :=
  ~ vx (r_d r) == 0 \/ ~ vy (r_d r) == 0 \/ ~ vz (r_d r) == 0.

(* p is on the face with outward normal n *)
Definition on_face (p n : vec) : Prop :=
  cube p /\
  ((n = V 1 0 0 /\ vx p == 1) \/ (n = V (-1) 0 0 /\ vx p == 0) \/
   (n = V 0 1 0 /\ vy p == 1) \/ (n = V 0 (-1) 0 /\ vy p == 0) \/
   (n = V 0 0 1 /\ vz p == 1) \/ (n = V 0 0 (-1) /\ vz p == 0)).
