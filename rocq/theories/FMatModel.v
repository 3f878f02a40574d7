(* Transformed points and the boxes of transformed shapes in single precision. *)
From Coq Require Import ZArith List.
From Flocq Require Import IEEE754.BinarySingleNaN.
From Verif Require Import Common FltModel FRayModel.
Import ListNotations.
Local Open Scope Z_scope.

(* matrix4.hpp: a row of the matrix; the matrix has four *)
Record frow := mk_frow { q0 : f32; q1 : f32; q2 : f32; q3 : f32 }.
Record fmat := mk_fmat { m_x : frow; m_y : frow; m_z : frow; m_w : frow }.

(* matrix4.cpp:767: a row and a point *)
Definition f_rowpoint (q : frow) (p : fvec) : f32 :=
  fadd (fadd (fadd (fmul (q0 q) (fx p)) (fmul (q1 q) (fy p))) (fmul (q2 q) (fz p))) (q3 q).
(* matrix4.cpp:786: a row and a vector *)
Definition f_rowvec (q : frow) (v : fvec) : f32 :=
  fadd (fadd (fmul (q0 q) (fx v)) (fmul (q1 q) (fy v))) (fmul (q2 q) (fz v)).

(* matrix4.cpp:765-782 *)
Definition f_point (m : fmat) (p : fvec) : fvec :=
  let x := f_rowpoint (m_x m) p in
  let y := f_rowpoint (m_y m) p in
  let z := f_rowpoint (m_z m) p in
  let w := f_rowpoint (m_w m) p in
  if Beqb w fone then mk_fvec x y z
  else let w := fdiv fone w in mk_fvec (fmul x w) (fmul y w) (fmul z w).

(* matrix4.cpp:784-789 *)
Definition f_vec (m : fmat) (v : fvec) : fvec := mk_fvec (f_rowvec (m_x m) v) (f_rowvec (m_y m) v) (f_rowvec (m_z m) v).

(* matrix4.cpp:791-796 *)
Definition f_ray (m : fmat) (r : fray) : fray := mk_fray (f_point m (fr_o r)) (f_vec m (fr_d r)).

(* point3.hpp:198-202, 214-218 *)
Definition f_pmin (p q : fvec) : fvec := mk_fvec (fmin (fx p) (fx q)) (fmin (fy p) (fy q)) (fmin (fz p) (fz q)).
Definition f_pmax (p q : fvec) : fvec := mk_fvec (fmax (fx p) (fx q)) (fmax (fy p) (fy q)) (fmax (fz p) (fz q)).

(* AABB.cpp:48-58 *)
Definition f_engulf (b c : fbox) : fbox := mk_fbox (f_pmin (fb_lo b) (fb_lo c)) (f_pmax (fb_hi b) (fb_hi c)).

(* AABB.cpp:6-10: the box of nothing *)
Definition f_nobox : fbox :=
  let p := B754_infinity false in let n := B754_infinity true in mk_fbox (mk_fvec p p p) (mk_fvec n n n).

(* triangle.cpp:12-20 for the vertices of a triangle, and mesh.cpp:74-78 *)
Definition f_tribox (t : fvec * fvec * fvec) : fbox :=
  let '(a, b, c) := t in mk_fbox (f_pmin (f_pmin a b) c) (f_pmax (f_pmax a b) c).
Definition f_meshbox (l : list (fvec * fvec * fvec)) : fbox := fold_left (fun b t => f_engulf b (f_tribox t)) l f_nobox.

(* mesh.cpp:104-126: the corners in the order of the code *)
Definition f_corners (b : fbox) : list fvec :=
  let lo := fb_lo b in let hi := fb_hi b in
  [ mk_fvec (fx lo) (fy lo) (fz lo); mk_fvec (fx hi) (fy lo) (fz lo); mk_fvec (fx hi) (fy hi) (fz lo); mk_fvec (fx lo) (fy hi) (fz lo);
    mk_fvec (fx lo) (fy lo) (fz hi); mk_fvec (fx hi) (fy lo) (fz hi); mk_fvec (fx hi) (fy hi) (fz hi); mk_fvec (fx lo) (fy hi) (fz hi) ].

(* mesh.cpp:95-133 and, for the box from -1 to 1, sphere.cpp:34-60: min and max of the images.
   mesh.cpp:132 takes min and max of the two points once more, sphere.cpp:60 does not. *)
Definition f_images (m : fmat) (b : fbox) : fvec * fvec :=
  match map (f_point m) (f_corners b) with
  | p :: l => (fold_left f_pmin l p, fold_left f_pmax l p)
  | [] => (fb_lo b, fb_hi b)
  end.
Definition f_worldbox (m : fmat) (b : fbox) : fbox :=
  let (pmi, pma) := f_images m b in mk_fbox (f_pmin pmi pma) (f_pmax pmi pma).
Definition f_spherebox (m : fmat) : fbox :=
  let one := of_Z 1 in let neg := of_Z (-1) in
  let (pmi, pma) := f_images m (mk_fbox (mk_fvec neg neg neg) (mk_fvec one one one)) in mk_fbox pmi pma.
