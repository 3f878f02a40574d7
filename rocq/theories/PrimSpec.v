(* The shapes as sets of points. *)
From Coq Require Import Reals.
From Verif Require Import RVecModel MatModel.
Local Open Scope R_scope.

Definition on_sphere (p : rv) : Prop := rx p * rx p + ry p * ry p + rz p * rz p = 1.
Definition in_cube (lo hi : R) (p : rv) : Prop :=
  lo <= rx p <= hi /\ lo <= ry p <= hi /\ lo <= rz p <= hi.
Definition between (lo hi p : rv) : Prop :=
  rx lo <= rx p <= rx hi /\ ry lo <= ry p <= ry hi /\ rz lo <= rz p <= rz hi.

(* t is the first parameter from t0 on at which the ray meets the set *)
Definition first_hit (shape : rv -> Prop) (r : rray) (t0 t : R) : Prop :=
  t0 <= t /\ shape (rr_apply r t) /\ forall u, t0 <= u -> u < t -> ~ shape (rr_apply r u).

(* the discriminant of the ray and the unit sphere *)
Definition discriminant (r : rray) : R :=
  let d := r_dir r in let o := r_org r in
  4 * (rdot d o * rdot d o - rdot d d * (rdot o o - 1)).

(* the faces of the unit cube with their outward normals *)
Inductive face : rv -> rv -> Prop :=
| Right : forall y z, 0 <= y <= 1 -> 0 <= z <= 1 -> face (RV 1 y z) (RV 1 0 0)
| Left : forall y z, 0 <= y <= 1 -> 0 <= z <= 1 -> face (RV 0 y z) (RV (-1) 0 0)
| Back : forall x z, 0 <= x <= 1 -> 0 <= z <= 1 -> face (RV x 1 z) (RV 0 1 0)
| Front : forall x z, 0 <= x <= 1 -> 0 <= z <= 1 -> face (RV x 0 z) (RV 0 (-1) 0)
| Top : forall x y, 0 <= x <= 1 -> 0 <= y <= 1 -> face (RV x y 1) (RV 0 0 1)
| Bottom : forall x y, 0 <= x <= 1 -> 0 <= y <= 1 -> face (RV x y 0) (RV 0 0 (-1)).

(* length of the cross product of the two partial derivatives *)
Definition area_element (f : R -> R -> rv) (u v k : R) : Prop :=
  exists du dv,
    derivable_pt_lim (fun u => rx (f u v)) u (rx du) /\ derivable_pt_lim (fun u => ry (f u v)) u (ry du) /\
    derivable_pt_lim (fun u => rz (f u v)) u (rz du) /\
    derivable_pt_lim (fun v => rx (f u v)) v (rx dv) /\ derivable_pt_lim (fun v => ry (f u v)) v (ry dv) /\
    derivable_pt_lim (fun v => rz (f u v)) v (rz dv) /\
    rlength (rcross du dv) = k.
