(* src/primitives/triangle.cpp: the surface of a triangle and the sampling of its points, and the
   sums of mesh.cpp, over the real numbers. *)
From Coq Require Import Reals List.
From Verif Require Import RVecModel MatModel.
Import ListNotations.
Local Open Scope R_scope.

(* triangle.hpp: the positions of the three vertices; their normals and texture coordinates play no
   part in these functions *)
Record rtri := RTri { f_a : rv; f_b : rv; f_c : rv }.

(* triangle.cpp:41-44 *)
Definition face_surface (t : rtri) : R :=
  / 2 * rlength (rcross (rsub (f_b t) (f_a t)) (rsub (f_c t) (f_a t))).

(* triangle.cpp:46-53 *)
Definition face_surface_in (transform : rmat) (t : rtri) : R :=
  let s := m_get_scale transform in
  let at_ p := RV (rx p * rx s) (ry p * ry s) (rz p * rz s) in
  let a := at_ (f_a t) in let b := at_ (f_b t) in let c := at_ (f_c t) in
  / 2 * rlength (rcross (rsub b a) (rsub c a)).

(* triangle.cpp:124-139: the point and the normal; the array of densities is not used *)
Definition face_sample (t : rtri) (r0 r1 : R) : rv * rv :=
  let r0 := Rmax 0 r0 in
  let sq := sqrt r0 in
  let u := 1 - sq in let v := r1 * sq in let w := 1 - u - v in
  let a := f_a t in let b := f_b t in let c := f_c t in
  (RV (u * rx a + v * rx b + w * rx c) (u * ry a + v * ry b + w * ry c) (u * rz a + v * rz b + w * rz c),
   rnormalize (rcross (rsub b a) (rsub c a))).

(* mesh.cpp:134-142, 144-152 *)
Definition faces_surface (l : list rtri) : R := fold_left (fun total t => total + face_surface t) l 0.
Definition faces_surface_in (transform : rmat) (l : list rtri) : R :=
  fold_left (fun total t => total + face_surface_in transform t) l 0.

(* mesh.cpp:160-168 *)
Fixpoint face_densities (transform : rmat) (sum : R) (l : list rtri) : list R :=
  match l with
  | [] => []
  | t :: l => let sum := sum + face_surface_in transform t in sum :: face_densities transform sum l
  end.
