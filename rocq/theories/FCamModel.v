(* From the raster to the screen of the cameras in single precision. *)
From Coq Require Import ZArith.
From Flocq Require Import IEEE754.BinarySingleNaN.
From Verif Require Import Common FltModel FRayModel FMatModel.
Local Open Scope Z_scope.

(* camera_orthographic.cpp:11, camera_perspective.cpp:23 *)
Definition f_aspect (w h : Z) : f32 := fdiv (of_Z w) (of_Z h).

(* camera_orthographic.cpp:12-26, camera_perspective.cpp:24-38: minx, maxx, miny, maxy *)
Definition f_screen_bounds (w h : Z) : f32 * f32 * f32 * f32 :=
  let aspect_ratio := f_aspect w h in
  if fgt aspect_ratio fone then (fneg aspect_ratio, aspect_ratio, of_Z (-1), fone)
  else (of_Z (-1), fone, fdiv (of_Z (-1)) aspect_ratio, fdiv fone aspect_ratio).

(* camera_orthographic.cpp:50-57, camera_perspective.cpp:40-57; the division converts the
   resolution to float *)
Definition f_raster2screen (w h : Z) : fmat :=
  let '(b0, b1, b2, b3) := f_screen_bounds w h in
  let o := fzero in
  mk_fmat (mk_frow (fdiv (fsub b1 b0) (of_Z w)) o o b0) (mk_frow o (fdiv (fsub b2 b3) (of_Z h)) o b3) (mk_frow o o fone o) (mk_frow o o o fone).

(* camera_orthographic.cpp:58-63 and 70: the point of the screen for a sample. The product with the
   identity screen2camera and the one with camera2world are left out. *)
Definition f_screen (w h : Z) (posx posy : f32) : fvec := f_point (f_raster2screen w h) (mk_fvec posx posy fzero).
