(* src/cameras over the real numbers: exact arithmetic.  x / 0 is what the library defines;
   theorems exclude it. *)
From Coq Require Import Reals Lra.
From Verif Require Import RVecModel MatModel.
Local Open Scope R_scope.

(* matrix4.cpp:240-271.  normalize leaves normalised vectors alone, so the test of
   is_normalized only decides about the warning. *)
Definition look_at (pos eye up : rv) : rmat :=
  let newup := rnormalize up in
  let dir := rnormalize (rsub eye pos) in
  let left := rnormalize (rcross newup dir) in
  let newup := rcross dir left in
  RM (rx left) (rx newup) (rx dir) (rx pos)
     (ry left) (ry newup) (ry dir) (ry pos)
     (rz left) (rz newup) (rz dir) (rz pos)
     0 0 0 1.

(* camera_orthographic.cpp:12-27 and camera_perspective.cpp:23-38: minx maxx miny maxy *)
Record cam_bounds := mk_bounds { b_x0 : R; b_x1 : R; b_y0 : R; b_y1 : R }.
Definition bounds_of (width height : R) : cam_bounds :=
  let ar := width / height in
  if Rlt_dec 1 ar then mk_bounds (- ar) ar (-1) 1 else mk_bounds (-1) 1 (-1 / ar) (1 / ar).

(* camera_orthographic.cpp:50-58, camera_perspective.cpp:40-57 *)
Definition raster2screen (width height : R) : rmat :=
  let b := bounds_of width height in
  RM ((b_x1 b - b_x0 b) / width) 0 0 (b_x0 b)
     0 ((b_y0 b - b_y1 b) / height) 0 (b_y1 b)
     0 0 1 0
     0 0 0 1.

(* ----- perspective ----- *)

(* camera_perspective.cpp:11-19 *)
Definition far_plane : R := 1000.
Definition near_plane : R := / 100.
Definition camera2screen (fov : R) : rmat :=
  let a := 1 / tan (fov / 2) in
  let f := far_plane in let n := near_plane in
  RM a 0 0 0
     0 a 0 0
     0 0 (f / (f - n)) (- f * n / (f - n))
     0 0 1 0.

(* camera_perspective.cpp:19-61.  None: screen2camera is left uninitialised because the
   inversion failed; its result is not looked at.  *)
Definition perspective (width height fov : R) : option rmat :=
  match m_inverse (camera2screen fov) with
  | None => None
  | Some s2c => Some (m_mul (m_mul m_identity s2c) (raster2screen width height))
  end.

(* camera_perspective.cpp:62-63 *)
Definition persp_dx (r2c : rmat) : rv := rsub (m_point r2c (RV 1 0 0)) (m_point r2c (RV 0 0 0)).
Definition persp_dy (r2c : rmat) : rv := rsub (m_point r2c (RV 0 1 0)) (m_point r2c (RV 0 0 0)).

(* camera_perspective.cpp:78-85 *)
Definition persp_ray (c2w r2c : rmat) (x y : R) : rray :=
  let dir := m_point r2c (RV x y 0) in
  RRay (m_point c2w (RV 0 0 0)) (m_vec c2w (rnormalize dir)).

(* camera_perspective.cpp:65-76 *)
Definition persp_rays (c2w r2c : rmat) (x y : R) : rray * rray * rray :=
  let o := m_point c2w (RV 0 0 0) in
  let dir := m_point r2c (RV x y 0) in
  (RRay o (m_vec c2w (rnormalize dir)),
   RRay o (m_vec c2w (rnormalize (radd dir (persp_dx r2c)))),
   RRay o (m_vec c2w (rnormalize (radd dir (persp_dy r2c))))).

(* ----- orthographic ----- *)

(* camera_orthographic.cpp:28-35: far plane 1, near plane 0 *)
Definition ortho_screen2camera : rmat :=
  RM 1 0 0 0
     0 1 0 0
     0 0 (1 - 0) 0
     0 0 0 1.
(* camera_orthographic.cpp:10, 58-66 *)
Definition ortho_r2w (c2w : rmat) (width height : R) : rmat :=
  m_mul (m_mul c2w ortho_screen2camera) (raster2screen width height).
Definition ortho_r2c (width height : R) : rmat :=
  m_mul (m_mul m_identity ortho_screen2camera) (raster2screen width height).
Definition ortho_dx (width height : R) : rv := m_vec (ortho_r2c width height) (RV 1 0 0).
Definition ortho_dy (width height : R) : rv := m_vec (ortho_r2c width height) (RV 0 (-1) 0).

(* camera_orthographic.cpp:81-86 *)
Definition ortho_ray (c2w : rmat) (width height x y : R) : rray :=
  RRay (m_point (ortho_r2w c2w width height) (RV x y 0)) (m_vec c2w (RV 0 0 1)).
(* camera_orthographic.cpp:69-79 *)
Definition ortho_rays (c2w : rmat) (width height x y : R) : rray * rray * rray :=
  let r2w := ortho_r2w c2w width height in
  let dx := ortho_dx width height in
  let dy := ortho_dy width height in
  let d := m_vec c2w (RV 0 0 1) in
  (RRay (m_point r2w (RV x y 0)) d,
   RRay (m_point r2w (RV (x + rx dx) (y + ry dx) (rz dx))) d,
   RRay (m_point r2w (RV (x + rx dy) (y + ry dy) (rz dy))) d).

(* ----- panorama ----- *)

(* camera360.cpp:14-25 *)
Definition pano_ray (c2w : rmat) (width height x y : R) : rray :=
  let theta := PI * y * (1 / height) in
  let phi := 2 * PI * x * (1 / width) in
  RRay (m_point c2w (RV 0 0 0))
       (rnormalize (m_vec c2w (RV (sin theta * cos phi) (cos theta) (sin theta * sin phi)))).

(* camera.cpp:17-30: the rays of a camera without its own create_ray *)
Definition default_rays (single : R -> R -> rray) (x y : R) : rray * rray * rray :=
  (single x y, single (x + 1) y, single x (y + 1)).
