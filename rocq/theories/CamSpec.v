(* What a camera should show. *)
From Coq Require Import Reals.
From Verif Require Import RVecModel MatModel.
Local Open Scope R_scope.

Definition close1 (e x : R) : Prop := 1 - e <= x <= 1 + e.

(* a is a positive multiple of b *)
Definition same_direction (a b : rv) : Prop := exists k, 0 < k /\ a = rscale k b.

(* columns of the camera matrix: the axes of the image to the right, upwards and away from
   the viewer *)
Definition axis_right (m : rmat) : rv := m_vec m (RV 1 0 0).
Definition axis_up (m : rmat) : rv := m_vec m (RV 0 1 0).
Definition axis_away (m : rmat) : rv := m_vec m (RV 0 0 1).

(* the position on the screen of a raster position: the shorter side of the image spans -1 to 1 *)
Definition screen_x (w h x : R) : R := (2 * x - w) / Rmin w h.
Definition screen_y (w h y : R) : R := (h - 2 * y) / Rmin w h.
