(* src/geometry/matrix4.{hpp,cpp} and the transforms of src/parsers/config_driver.cpp over the
   real numbers: exact arithmetic.  x / 0 is what the library defines; theorems exclude it. *)
From Coq Require Import Reals Lra.
From Verif Require Import RVecModel.
Local Open Scope R_scope.

(* matrix4.hpp: sixteen floats, row by row *)
Record rmat := RM {
  m00 : R; m01 : R; m02 : R; m03 : R;
  m10 : R; m11 : R; m12 : R; m13 : R;
  m20 : R; m21 : R; m22 : R; m23 : R;
  m30 : R; m31 : R; m32 : R; m33 : R }.

(* matrix4.cpp:94-112 *)
Definition m_identity : rmat :=
  RM 1 0 0 0
     0 1 0 0
     0 0 1 0
     0 0 0 1.
(* matrix4.cpp:114-132 *)
Definition m_translation (d : rv) : rmat :=
  RM 1 0 0 (rx d)
     0 1 0 (ry d)
     0 0 1 (rz d)
     0 0 0 1.
(* matrix4.cpp:154-172; set_scale(float) at 134-152 is the case of equal components *)
Definition m_scale (s : rv) : rmat :=
  RM (rx s) 0 0 0
     0 (ry s) 0 0
     0 0 (rz s) 0
     0 0 0 1.
(* matrix4.cpp:174-238 *)
Definition m_rotate_x (a : R) : rmat :=
  RM 1 0 0 0
     0 (cos a) (- sin a) 0
     0 (sin a) (cos a) 0
     0 0 0 1.
Definition m_rotate_y (a : R) : rmat :=
  RM (cos a) 0 (sin a) 0
     0 1 0 0
     (- sin a) 0 (cos a) 0
     0 0 0 1.
Definition m_rotate_z (a : R) : rmat :=
  RM (cos a) (- sin a) 0 0
     (sin a) (cos a) 0 0
     0 0 1 0
     0 0 0 1.

(* matrix4.cpp:273-291 *)
Definition m_transpose (m : rmat) : rmat :=
  RM (m00 m) (m10 m) (m20 m) (m30 m)
     (m01 m) (m11 m) (m21 m) (m31 m)
     (m02 m) (m12 m) (m22 m) (m32 m)
     (m03 m) (m13 m) (m23 m) (m33 m).

(* matrix4.cpp:293-403: the array inv, the adjugate *)
Definition m_adj (m : rmat) : rmat :=
  RM (m11 m * m22 m * m33 m - m11 m * m23 m * m32 m - m21 m * m12 m * m33 m + m21 m * m13 m * m32 m + m31 m * m12 m * m23 m - m31 m * m13 m * m22 m)
     (- m01 m * m22 m * m33 m + m01 m * m23 m * m32 m + m21 m * m02 m * m33 m - m21 m * m03 m * m32 m - m31 m * m02 m * m23 m + m31 m * m03 m * m22 m)
     (m01 m * m12 m * m33 m - m01 m * m13 m * m32 m - m11 m * m02 m * m33 m + m11 m * m03 m * m32 m + m31 m * m02 m * m13 m - m31 m * m03 m * m12 m)
     (- m01 m * m12 m * m23 m + m01 m * m13 m * m22 m + m11 m * m02 m * m23 m - m11 m * m03 m * m22 m - m21 m * m02 m * m13 m + m21 m * m03 m * m12 m)
     (- m10 m * m22 m * m33 m + m10 m * m23 m * m32 m + m20 m * m12 m * m33 m - m20 m * m13 m * m32 m - m30 m * m12 m * m23 m + m30 m * m13 m * m22 m)
     (m00 m * m22 m * m33 m - m00 m * m23 m * m32 m - m20 m * m02 m * m33 m + m20 m * m03 m * m32 m + m30 m * m02 m * m23 m - m30 m * m03 m * m22 m)
     (- m00 m * m12 m * m33 m + m00 m * m13 m * m32 m + m10 m * m02 m * m33 m - m10 m * m03 m * m32 m - m30 m * m02 m * m13 m + m30 m * m03 m * m12 m)
     (m00 m * m12 m * m23 m - m00 m * m13 m * m22 m - m10 m * m02 m * m23 m + m10 m * m03 m * m22 m + m20 m * m02 m * m13 m - m20 m * m03 m * m12 m)
     (m10 m * m21 m * m33 m - m10 m * m23 m * m31 m - m20 m * m11 m * m33 m + m20 m * m13 m * m31 m + m30 m * m11 m * m23 m - m30 m * m13 m * m21 m)
     (- m00 m * m21 m * m33 m + m00 m * m23 m * m31 m + m20 m * m01 m * m33 m - m20 m * m03 m * m31 m - m30 m * m01 m * m23 m + m30 m * m03 m * m21 m)
     (m00 m * m11 m * m33 m - m00 m * m13 m * m31 m - m10 m * m01 m * m33 m + m10 m * m03 m * m31 m + m30 m * m01 m * m13 m - m30 m * m03 m * m11 m)
     (- m00 m * m11 m * m23 m + m00 m * m13 m * m21 m + m10 m * m01 m * m23 m - m10 m * m03 m * m21 m - m20 m * m01 m * m13 m + m20 m * m03 m * m11 m)
     (- m10 m * m21 m * m32 m + m10 m * m22 m * m31 m + m20 m * m11 m * m32 m - m20 m * m12 m * m31 m - m30 m * m11 m * m22 m + m30 m * m12 m * m21 m)
     (m00 m * m21 m * m32 m - m00 m * m22 m * m31 m - m20 m * m01 m * m32 m + m20 m * m02 m * m31 m + m30 m * m01 m * m22 m - m30 m * m02 m * m21 m)
     (- m00 m * m11 m * m32 m + m00 m * m12 m * m31 m + m10 m * m01 m * m32 m - m10 m * m02 m * m31 m - m30 m * m01 m * m12 m + m30 m * m02 m * m11 m)
     (m00 m * m11 m * m22 m - m00 m * m12 m * m21 m - m10 m * m01 m * m22 m + m10 m * m02 m * m21 m + m20 m * m01 m * m12 m - m20 m * m02 m * m11 m).

(* matrix4.cpp:405-406 *)
Definition m_det (m : rmat) : R :=
  m00 m * m00 (m_adj m) + m01 m * m10 (m_adj m) + m02 m * m20 (m_adj m) + m03 m * m30 (m_adj m).

(* utility.hpp:28, 222-225 *)
Definition flt_equal (a b : R) : bool := if Rle_dec (Rabs (a - b)) (/ 100000) then true else false.

(* every entry multiplied by k *)
Definition m_times (k : R) (m : rmat) : rmat :=
  RM (m00 m * k) (m01 m * k) (m02 m * k) (m03 m * k)
     (m10 m * k) (m11 m * k) (m12 m * k) (m13 m * k)
     (m20 m * k) (m21 m * k) (m22 m * k) (m23 m * k)
     (m30 m * k) (m31 m * k) (m32 m * k) (m33 m * k).

(* matrix4.cpp:408-432; None is `return false` with the output untouched *)
Definition m_inverse (m : rmat) : option rmat :=
  if flt_equal (m_det m) 0 then None else Some (m_times (1 / m_det m) (m_adj m)).

(* matrix4.cpp:437-448 *)
Definition m_get_translation (m : rmat) : rv := RV (m03 m) (m13 m) (m23 m).
Definition m_get_scale (m : rmat) : rv :=
  RV (rlength (RV (m00 m) (m10 m) (m20 m))) (rlength (RV (m01 m) (m11 m) (m21 m)))
     (rlength (RV (m02 m) (m12 m) (m22 m))).

(* matrix4.cpp:538-622, and operator*= at 624-723 *)
Definition m_mul (a b : rmat) : rmat :=
  RM (m00 a * m00 b + m01 a * m10 b + m02 a * m20 b + m03 a * m30 b)
     (m00 a * m01 b + m01 a * m11 b + m02 a * m21 b + m03 a * m31 b)
     (m00 a * m02 b + m01 a * m12 b + m02 a * m22 b + m03 a * m32 b)
     (m00 a * m03 b + m01 a * m13 b + m02 a * m23 b + m03 a * m33 b)
     (m10 a * m00 b + m11 a * m10 b + m12 a * m20 b + m13 a * m30 b)
     (m10 a * m01 b + m11 a * m11 b + m12 a * m21 b + m13 a * m31 b)
     (m10 a * m02 b + m11 a * m12 b + m12 a * m22 b + m13 a * m32 b)
     (m10 a * m03 b + m11 a * m13 b + m12 a * m23 b + m13 a * m33 b)
     (m20 a * m00 b + m21 a * m10 b + m22 a * m20 b + m23 a * m30 b)
     (m20 a * m01 b + m21 a * m11 b + m22 a * m21 b + m23 a * m31 b)
     (m20 a * m02 b + m21 a * m12 b + m22 a * m22 b + m23 a * m32 b)
     (m20 a * m03 b + m21 a * m13 b + m22 a * m23 b + m23 a * m33 b)
     (m30 a * m00 b + m31 a * m10 b + m32 a * m20 b + m33 a * m30 b)
     (m30 a * m01 b + m31 a * m11 b + m32 a * m21 b + m33 a * m31 b)
     (m30 a * m02 b + m31 a * m12 b + m32 a * m22 b + m33 a * m32 b)
     (m30 a * m03 b + m31 a * m13 b + m32 a * m23 b + m33 a * m33 b).

(* matrix4.cpp:765-782 *)
Definition m_point (m : rmat) (p : rv) : rv :=
  let x := m00 m * rx p + m01 m * ry p + m02 m * rz p + m03 m in
  let y := m10 m * rx p + m11 m * ry p + m12 m * rz p + m13 m in
  let z := m20 m * rx p + m21 m * ry p + m22 m * rz p + m23 m in
  let w := m30 m * rx p + m31 m * ry p + m32 m * rz p + m33 m in
  if Req_EM_T w 1 then RV x y z else let k := 1 / w in RV (x * k) (y * k) (z * k).

(* matrix4.cpp:784-789 *)
Definition m_vec (m : rmat) (v : rv) : rv :=
  RV (m00 m * rx v + m01 m * ry v + m02 m * rz v)
     (m10 m * rx v + m11 m * ry v + m12 m * rz v)
     (m20 m * rx v + m21 m * ry v + m22 m * rz v).

(* ray.hpp: origin and direction *)
Record rray := RRay { r_org : rv; r_dir : rv }.
(* ray.cpp:24-29 *)
Definition rr_apply (r : rray) (t : R) : rv :=
  RV (rx (r_org r) + rx (r_dir r) * t) (ry (r_org r) + ry (r_dir r) * t) (rz (r_org r) + rz (r_dir r) * t).
(* matrix4.cpp:791-796 *)
Definition m_ray (m : rmat) (r : rray) : rray := RRay (m_point m (r_org r)) (m_vec m (r_dir r)).

(* matrix4.cpp:800-805 *)
Definition transform_normal (n : rv) (inv : rmat) : rv :=
  RV (m00 inv * rx n + m10 inv * ry n + m20 inv * rz n)
     (m01 inv * rx n + m11 inv * ry n + m21 inv * rz n)
     (m02 inv * rx n + m12 inv * ry n + m22 inv * rz n).

(* config_driver.cpp:612-626 *)
Definition config_transform (position rotation scale : rv) : rmat :=
  m_mul (m_mul (m_translation position)
               (m_mul (m_mul (m_rotate_z (rz rotation)) (m_rotate_y (ry rotation))) (m_rotate_x (rx rotation))))
        (m_scale scale).

(* matrix4.cpp:829-928: mul(a, b, out).  The output is written entry by entry and the inputs
   are read again for each: when out is a itself, the entries of the row that are already
   written are read back.  One row of mul(a, b, a): *)
Definition mul_row (a0 a1 a2 a3 : R) (b : rmat) : R * R * R * R :=
  let x0 := a0 * m00 b + a1 * m10 b + a2 * m20 b + a3 * m30 b in
  let x1 := x0 * m01 b + a1 * m11 b + a2 * m21 b + a3 * m31 b in
  let x2 := x0 * m02 b + x1 * m12 b + a2 * m22 b + a3 * m32 b in
  let x3 := x0 * m03 b + x1 * m13 b + x2 * m23 b + a3 * m33 b in
  (x0, x1, x2, x3).
Definition mul_onto_first (a b : rmat) : rmat :=
  let '(a00, a01, a02, a03) := mul_row (m00 a) (m01 a) (m02 a) (m03 a) b in
  let '(a10, a11, a12, a13) := mul_row (m10 a) (m11 a) (m12 a) (m13 a) b in
  let '(a20, a21, a22, a23) := mul_row (m20 a) (m21 a) (m22 a) (m23 a) b in
  let '(a30, a31, a32, a33) := mul_row (m30 a) (m31 a) (m32 a) (m33 a) b in
  RM a00 a01 a02 a03 a10 a11 a12 a13 a20 a21 a22 a23 a30 a31 a32 a33.

(* ----- asset.cpp ----- *)

(* what Shape::intersect writes: distance, point, normal, dpdu and dpdv *)
Record rhit := mk_rhit { rh_dist : R; rh_point : rv; rh_normal : rv; rh_dpdu : rv; rh_dpdv : rv }.

(* asset.cpp:8-16.  worldToObj is left uninitialised when the inversion fails: None. *)
Record rasset := mk_rasset { a_to_world : rmat; a_to_obj : option rmat }.
Definition make_asset (transform : rmat) : rasset := mk_rasset transform (m_inverse transform).

(* asset.cpp:29-49; [shape] is the intersection with the shape in its own space *)
Definition asset_hit (to_world to_obj : rmat) (shape : rray -> option rhit) (r : rray) : option rhit :=
  match shape (m_ray to_obj r) with
  | None => None
  | Some h =>
      Some (mk_rhit (rh_dist h) (m_point to_world (rh_point h))
                    (rnormalize (transform_normal (rh_normal h) to_obj))
                    (rnormalize (m_vec to_world (rh_dpdu h)))
                    (rnormalize (m_vec to_world (rh_dpdv h))))
  end.
