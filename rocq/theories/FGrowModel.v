(* Bounding boxes grown from points in single precision; min and max of points, the empty box and
   [f_engulf] are in FMatModel. *)
From Coq Require Import ZArith List Bool.
From Flocq Require Import IEEE754.BinarySingleNaN.
From Verif Require Import Common FltModel FRayModel FMatModel.
Import ListNotations.

(* AABB.cpp:36-46 and 202-206 *)
Definition f_engulf_point (b : fbox) (p : fvec) : fbox := mk_fbox (f_pmin (fb_lo b) p) (f_pmax (fb_hi b) p).
(* an empty box that engulfs the points one after the other *)
Definition f_box_of (l : list fvec) : fbox := fold_left f_engulf_point l f_nobox.

(* AABB.cpp:60-65 *)
Definition f_inside (b : fbox) (p : fvec) : bool :=
  fle (fx (fb_lo b)) (fx p) && fle (fx p) (fx (fb_hi b)) &&
  (fle (fy (fb_lo b)) (fy p) && fle (fy p) (fy (fb_hi b))) &&
  (fle (fz (fb_lo b)) (fz p) && fle (fz p) (fz (fb_hi b))).

(* AABB.cpp:67-71; the products and sums from left to right *)
Definition f_box_surface (b : fbox) : f32 :=
  let d := fv_sub (fb_hi b) (fb_lo b) in
  fmul (of_Z 2) (fadd (fadd (fmul (fx d) (fy d)) (fmul (fx d) (fz d))) (fmul (fy d) (fz d))).

(* AABB.cpp:79-88 *)
Definition f_longest_axis (b : fbox) : nat :=
  let d := fv_sub (fb_hi b) (fb_lo b) in
  if fle (fy d) (fx d) && fle (fz d) (fx d) then 0%nat else if fle (fz d) (fy d) then 1%nat else 2%nat.

(* AABB.cpp:90-95 *)
Definition f_box_center (b : fbox) : fvec :=
  let mid x y := fmul (fadd x y) (fnum 1 (-1)) in
  mk_fvec (mid (fx (fb_lo b)) (fx (fb_hi b))) (mid (fy (fb_lo b)) (fy (fb_hi b))) (mid (fz (fb_lo b)) (fz (fb_hi b))).
