(* src/lights/area_light.cpp over the real numbers: exact arithmetic.  One wavelength: a
   spectrum is a number. *)
From Coq Require Import Reals Lra.
From Verif Require Import RVecModel MatModel.
Local Open Scope R_scope.

(* Shape::intersect in object space with an unlimited distance: parameter and normal *)
Definition shape := rray -> option (R * rv).

(* area_light.hpp, asset.hpp *)
Record light := mk_light {
  l_to_world : rmat; l_to_obj : rmat;
  l_shape : shape;
  l_area : R;      (* the surface in world space, area_light.cpp:11 *)
  l_emission : R }.

Definition rabsdot (a b : rv) : R := Rabs (rdot a b).

(* what sample_visible_surface gives: spectrum, direction, density and distance *)
Record lsample := mk_lsample { ls_power : R; ls_wi : rv; ls_pdf : R; ls_distance : R }.

(* area_light.cpp:56-113; [point] is what sample_point returned.  None: the ray towards the
   point misses the shape and the code goes on with an unset normal.  The test for an infinite
   density is that for a zero denominator; FLT_MAX is left out of the result. *)
Definition sample_visible (l : light) (point pos : rv) : option lsample :=
  let o := m_point (l_to_obj l) pos in
  let d := rnormalize (rsub point o) in
  match l_shape l (RRay o d) with
  | None => None
  | Some (t, n) =>
      let lp := rr_apply (RRay o d) t in
      let r2 := (rx o - rx lp) * (rx o - rx lp) + (ry o - ry lp) * (ry o - ry lp) + (rz o - rz lp) * (rz o - rz lp) in
      let den := rabsdot n (rneg d) * l_area l in
      if Req_EM_T den 0 then Some (mk_lsample 0 d 0 t)
      else
        Some (mk_lsample (if Rlt_dec 0 (rdot n (rneg d)) then l_emission l else 0)
                         (rnormalize (m_vec (l_to_world l) d)) (r2 / den) t)
  end.

(* area_light.cpp:115-134 *)
Definition light_pdf (l : light) (pos wi : rv) : R :=
  let r := RRay (m_point (l_to_obj l) pos) (m_vec (l_to_obj l) wi) in
  match l_shape l r with
  | None => 0
  | Some (t, n) =>
      let o := r_org r in
      let lp := rr_apply r t in
      let r2 := (rx o - rx lp) * (rx o - rx lp) + (ry o - ry lp) * (ry o - ry lp) + (rz o - rz lp) * (rz o - rz lp) in
      r2 / (rabsdot n (rneg (r_dir r)) * l_area l)
  end.

(* area_light.cpp:28-54: ray and density; [point] and [n] come from sample_point *)
Definition sample_surface (l : light) (point n : rv) (r2 r3 : R) : rray * R :=
  let z := 1 - 2 * r2 in
  let r := sqrt (Rmax 0 (1 - z * z)) in
  let phi := 2 * PI * r3 in
  let d := RV (r * cos phi) (r * sin phi) z in
  let d := if Rlt_dec (rdot d n) 0 then rscale (-1) d else d in
  (m_ray (l_to_world l) (RRay point d), / l_area l * / (2 * PI)).
