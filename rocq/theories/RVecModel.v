(* src/geometry/vec3.{hpp,cpp} and src/materials/shading_space.{hpp,cpp} over the real
   numbers: exact arithmetic with square roots.  There is no NaN and no infinity
   here; x / 0 is what the library defines and no theorem relies on it. *)
From Coq Require Import Reals Lra.
Local Open Scope R_scope.

(* the three floats of Vec3 and Normal *)
Record rv := RV { rx : R; ry : R; rz : R }.

(* vec3.cpp:92-100 *)
Definition rdot (a b : rv) : R := rx a * rx b + ry a * ry b + rz a * rz b.
(* vec3.cpp:128-133 *)
Definition rcross (a b : rv) : rv :=
  RV (ry a * rz b - rz a * ry b) (rz a * rx b - rx a * rz b) (rx a * ry b - ry a * rx b).
(* vec3.cpp:326-329, 389-392 (operator* with a float), 352-355 and operator- *)
Definition radd (a b : rv) : rv := RV (rx a + rx b) (ry a + ry b) (rz a + rz b).
Definition rscale (k : R) (a : rv) : rv := RV (k * rx a) (k * ry a) (k * rz a).
Definition rsub (a b : rv) : rv := RV (rx a - rx b) (ry a - ry b) (rz a - rz b).
Definition rneg (a : rv) : rv := RV (- rx a) (- ry a) (- rz a).
(* vec3.cpp:102-105 *)
Definition rlength (a : rv) : R := sqrt (rdot a a).
(* vec3.cpp:112-119 *)
Definition rdistance (a b : rv) : R := rlength (rsub b a).

(* vec3.cpp:135-156: a vector whose squared length is within 1e-5 of one is left
   alone.  Without DEBUG a zero vector becomes three NaNs; here it stays zero. *)
Definition rnormalize (a : rv) : rv :=
  let l2 := rdot a a in
  if Rlt_dec (1 - / 100000) l2 then
    if Rlt_dec l2 (1 + / 100000) then a else rscale (/ sqrt l2) a
  else rscale (/ sqrt l2) a.

(* vec3.cpp:256-278 *)
Definition rreflect (v c : rv) : rv :=
  let d := rdot v c in RV (rx v - 2 * d * rx c) (ry v - 2 * d * ry c) (rz v - 2 * d * rz c).

(* vec3.cpp:280-322; None when nothing is transmitted *)
Definition rrefract (v n : rv) (eta : R) : option rv :=
  let cosi := rdot v n in
  let sin2i := Rmax 0 (1 - cosi * cosi) in
  let sin2t := sin2i * eta * eta in
  if Rlt_dec 1 sin2t then None
  else
    let cost := sqrt (1 - sin2t) in
    Some (radd (rscale eta (rneg v)) (rscale (cosi * eta - cost) n)).

(* shading_space.hpp: the axes s, t and n *)
Record shading := mk_shading { sh_s : rv; sh_t : rv; sh_n : rv }.

(* shading_space.cpp:6-10, from the dpdu and the normal of the hit *)
Definition shading_of (dpdu normal : rv) : shading :=
  mk_shading dpdu (rnormalize (rcross normal dpdu)) normal.

(* shading_space.cpp:12-17 *)
Definition to_world (m : shading) (v : rv) : rv :=
  rnormalize (radd (radd (rscale (rx v) (sh_s m)) (rscale (ry v) (sh_t m))) (rscale (rz v) (sh_n m))).

(* shading_space.cpp:19-22 *)
Definition to_shading (m : shading) (w : rv) : rv :=
  rnormalize (RV (rdot w (sh_s m)) (rdot w (sh_t m)) (rdot w (sh_n m))).
