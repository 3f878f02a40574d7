(* The frame of a camera and the rays of the perspective camera in single precision. *)
From Coq Require Import ZArith.
From Flocq Require Import IEEE754.BinarySingleNaN.
From Verif Require Import Common FltModel FRayModel FMatModel.

(* matrix4.cpp:255-270: the matrix of three axes and a position *)
Definition f_columns (left newup dir pos : fvec) : fmat :=
  mk_fmat (mk_frow (fx left) (fx newup) (fx dir) (fx pos))
          (mk_frow (fy left) (fy newup) (fy dir) (fy pos))
          (mk_frow (fz left) (fz newup) (fz dir) (fz pos))
          (mk_frow fzero fzero fzero fone).

(* matrix4.cpp:240-271.  normalize makes the test of is_normalized once more, so that test only
   decides about the warning, which is left out. *)
Definition f_look_at (pos eye up : fvec) : fmat :=
  let newup := f_normalize up in
  let dir := f_normalize (fv_sub eye pos) in
  let left := f_normalize (fv_cross newup dir) in
  let newup := fv_cross dir left in
  f_columns left newup dir pos.

(* camera_perspective.cpp:78-85: [p] stands for raster2camera*Point3(posx, posy, 0) *)
Definition f_persp_ray (c2w : fmat) (p : fvec) : fray :=
  mk_fray (f_point c2w (mk_fvec fzero fzero fzero)) (f_vec c2w (f_normalize p)).

(* camera_orthographic.cpp:84: the direction of every ray, also of the rays of the differentials (lines 75-77) *)
Definition f_ortho_dir (c2w : fmat) : fvec := f_vec c2w (mk_fvec fzero fzero fone).

(* camera360.cpp:20-23: the sines and cosines of the two angles are those the library returns *)
Definition f_pano_dir (c2w : fmat) (st ct sp cp : f32) : fvec :=
  f_normalize (f_vec c2w (mk_fvec (fmul st cp) ct (fmul st sp))).
