(* Exact arithmetic for the geometry of src/geometry and src/primitives.

   Floats are replaced by rational numbers together with the two infinities and
   NaN, so the comparisons and the products with infinities that the code relies
   on behave as in IEEE 754; rounding, overflow to infinity and underflow are not
   modelled.  The sign of a zero matters only for reciprocals, so it is recorded
   only where the code takes one (the direction of a ray). *)
From Coq Require Export QArith.
From Verif Require Import Common.
Local Open Scope Q_scope.

Definition qltb (x y : Q) : bool := negb (Qle_bool y x).

(* A float without rounding *)
Inductive xq := Fin (q : Q) | PInf | NInf | NaN.

Definition xadd (a b : xq) : xq :=
  match a, b with
  | Fin p, Fin q => Fin (p + q)
  | NaN, _ | _, NaN => NaN
  | PInf, NInf | NInf, PInf => NaN
  | PInf, _ | _, PInf => PInf
  | NInf, _ | _, NInf => NInf
  end.

Definition xopp (a : xq) : xq :=
  match a with Fin p => Fin (- p) | PInf => NInf | NInf => PInf | NaN => NaN end.

Definition xsub (a b : xq) : xq := xadd a (xopp b).

(* product of an infinity (negative when [neg]) with a finite number *)
Definition inf_fin (neg : bool) (q : Q) : xq :=
  if Qeq_bool q 0 then NaN
  else if xorb neg (qltb q 0) then NInf else PInf.

Definition xmul (a b : xq) : xq :=
  match a, b with
  | Fin p, Fin q => Fin (p * q)
  | NaN, _ | _, NaN => NaN
  | PInf, Fin q => inf_fin false q
  | NInf, Fin q => inf_fin true q
  | Fin p, PInf => inf_fin false p
  | Fin p, NInf => inf_fin true p
  | PInf, PInf | NInf, NInf => PInf
  | PInf, NInf | NInf, PInf => NInf
  end.

(* a < b; false when a NaN is involved.  a > b is [xlt b a]. *)
Definition xlt (a b : xq) : bool :=
  match a, b with
  | Fin p, Fin q => qltb p q
  | NaN, _ | _, NaN => false
  | NInf, NInf | PInf, PInf => false
  | NInf, _ => true
  | _, PInf => true
  | _, _ => false
  end.

(* a >= b; false when a NaN is involved *)
Definition xge (a b : xq) : bool :=
  match a, b with
  | NaN, _ | _, NaN => false
  | _, _ => negb (xlt a b)
  end.

(* utility.hpp:115-132 *)
Definition xmin (a b : xq) : xq := if xlt a b then a else b.
Definition xmax (a b : xq) : xq := if xlt b a then a else b.
Definition qmin (a b : Q) : Q := if qltb a b then a else b.
Definition qmax (a b : Q) : Q := if qltb b a then a else b.

(* Vec3, Point3 and Normal with finite components *)
Record vec := V { vx : Q; vy : Q; vz : Q }.

Definition vadd (a b : vec) : vec := V (vx a + vx b) (vy a + vy b) (vz a + vz b).
Definition vsub (a b : vec) : vec := V (vx a - vx b) (vy a - vy b) (vz a - vz b).
Definition vscale (a : vec) (s : Q) : vec := V (vx a * s) (vy a * s) (vz a * s).
(* vec3.cpp:92-95 *)
Definition dot (a b : vec) : Q := vx a * vx b + vy a * vy b + vz a * vz b.
(* vec3.cpp:128-133 *)
Definition cross (a b : vec) : vec :=
  V (vy a * vz b - vz a * vy b)
    (vz a * vx b - vx a * vz b)
    (vx a * vy b - vy a * vx b).
(* point3.hpp:198-218 *)
Definition pmin (a b : vec) : vec :=
  V (qmin (vx a) (vx b)) (qmin (vy a) (vy b)) (qmin (vz a) (vz b)).
Definition pmax (a b : vec) : vec :=
  V (qmax (vx a) (vx b)) (qmax (vy a) (vy b)) (qmax (vz a) (vz b)).

(* ray.hpp.  [r_nz] tells, for each component of the direction that is zero,
   whether it is the negative zero. *)
Record ray := mk_ray { r_o : vec; r_d : vec; r_nz : bool * bool * bool }.

(* ray.cpp:24-29 *)
Definition ray_apply (r : ray) (t : Q) : vec :=
  V (vx (r_o r) + vx (r_d r) * t) (vy (r_o r) + vy (r_d r) * t)
    (vz (r_o r) + vz (r_d r) * t).

(* 1.f/x for a finite x, which is -0 when it is zero and [nz] *)
Definition recip (nz : bool) (q : Q) : xq :=
  if Qeq_bool q 0 then (if nz then NInf else PInf) else Fin (/ q).

Definition r_nzx (r : ray) : bool := fst (fst (r_nz r)).
Definition r_nzy (r : ray) : bool := snd (fst (r_nz r)).
Definition r_nzz (r : ray) : bool := snd (r_nz r).

(* ray.hpp:111-141 *)
Record ray_props := mk_rp
  { inv_x : xq; inv_y : xq; inv_z : xq; neg_x : bool; neg_y : bool; neg_z : bool }.

Definition ray_properties (r : ray) : ray_props :=
  let ix := recip (r_nzx r) (vx (r_d r)) in
  let iy := recip (r_nzy r) (vy (r_d r)) in
  let iz := recip (r_nzz r) (vz (r_d r)) in
  mk_rp ix iy iz (xlt ix (Fin 0)) (xlt iy (Fin 0)) (xlt iz (Fin 0)).
