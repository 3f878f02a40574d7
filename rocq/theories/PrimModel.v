(* src/primitives/sphere.cpp, the sampling of src/primitives/box.cpp and the boxes of
   transformed shapes, over the real numbers: exact arithmetic.  The texture coordinates and
   the derivatives of the hit are not modelled; a mask is a function of the hit point. *)
From Coq Require Import Reals Lra List.
From Verif Require Import RVecModel MatModel.
Import ListNotations.
Local Open Scope R_scope.

(* settings.h *)
Definition self_error : R := / 100.

(* utility.hpp:289-312 *)
Definition equation2 (a b c : R) : option (R * R) :=
  let delta := b * b - 4 * a * c in
  if Rle_dec delta 0 then
    if Rle_dec 0 (delta + / 10000) then let s := (- b) / (a * 2) in Some (s, s)
    else if Rle_dec 0 delta then
      let q := if Rlt_dec b 0 then - (1 / 2) * (b - sqrt delta) else - (1 / 2) * (b + sqrt delta) in
      Some (q / a, c / q)
    else None
  else
    let q := if Rlt_dec b 0 then - (1 / 2) * (b - sqrt delta) else - (1 / 2) * (b + sqrt delta) in
    Some (q / a, c / q).

(* sphere.cpp:98-101 and 125-127: points on the axis are moved *)
Definition off_axis (p : rv) : rv :=
  if Req_EM_T (rx p) 0 then if Req_EM_T (ry p) 0 then RV self_error (ry p) (rz p) else p else p.

(* sphere.cpp:63-151: the distance, the point and the normal, or None for `return false`.
   NaN in sol2 is None here. *)
Definition sphere_try (masked : rv -> bool) (r : rray) (t : R) : option (R * rv * rv) :=
  let hitp := rr_apply r t in
  let p := off_axis hitp in
  if masked p then None else Some (t, p, hitp).

Definition sphere_intersect (masked : rv -> bool) (r : rray) (distance : R) : option (R * rv * rv) :=
  let a := rdot (r_dir r) (r_dir r) in
  let b := 2 * rdot (r_dir r) (r_org r) in
  let c := rdot (r_org r) (r_org r) - 1 in
  match equation2 a b c with
  | None => None
  | Some (s1, s2) =>
      let '(s1, s2) := if Rlt_dec s2 s1 then (s2, s1) else (s1, s2) in
      if Rlt_dec distance s1 then None
      else
        if Rlt_dec s1 self_error then
          if Rlt_dec s2 self_error then None
          else if Rlt_dec distance s2 then None
          else sphere_try masked r s2
        else
          match sphere_try masked r s1 with
          | Some h => Some h
          | None => sphere_try masked r s2
          end
  end.

(* sphere.cpp:153-163 *)
Definition sphere_surface (transform : rmat) : R :=
  let s := rx (m_get_scale transform) in 4 * PI * s * s.

(* sphere.cpp:165-179; the point, equal to the normal *)
Definition sphere_sample (r0 r1 : R) : rv :=
  let z := 1 - 2 * r0 in
  let r := sqrt (Rmax 0 (1 - z * z)) in
  let phi := 2 * PI * r1 in
  RV (r * cos phi) (r * sin phi) z.

(* ----- box ----- *)

(* box.cpp:51-56 *)
Definition box_surface (transform : rmat) : R :=
  let s := m_get_scale transform in
  2 * (rx s + rz s) * ry s + 2 * rx s * rz s.

(* box.cpp:134-143 *)
Definition box_densities (transform : rmat) : list R :=
  let s := m_get_scale transform in
  let d0 := rx s * ry s in
  let d1 := d0 * 2 in
  let d2 := d1 + rx s * rz s in
  let d3 := d2 + rx s * rz s in
  let d4 := d3 + rz s * ry s in
  let d5 := d4 + rz s * ry s in
  [d0; d1; d2; d3; d4; d5].

(* utility.hpp:192-210 *)
Definition lerp (v lo hi : R) : R := (1 - v) * lo + v * hi.
Definition inverse_lerp (v lo hi : R) : R := (v - lo) / (hi - lo).

(* box.cpp:145-229: point and normal *)
Definition box_sample (r0 r1 : R) (d : list R) : rv * rv :=
  let at_ k := nth k d 0 in
  let res := lerp r0 0 (at_ 5%nat) in
  if Rlt_dec res (at_ 0%nat) then
    (RV (inverse_lerp res 0 (at_ 0%nat)) r1 1, RV 0 0 1)
  else if Rlt_dec res (at_ 1%nat) then
    (RV (inverse_lerp (res - at_ 0%nat) 0 (at_ 1%nat - at_ 0%nat)) r1 0, RV 0 0 (-1))
  else if Rlt_dec res (at_ 2%nat) then
    (RV (inverse_lerp (res - at_ 1%nat) 0 (at_ 2%nat - at_ 1%nat)) 0 r1, RV 0 (-1) 0)
  else if Rlt_dec res (at_ 3%nat) then
    (RV (inverse_lerp (res - at_ 2%nat) 0 (at_ 3%nat - at_ 2%nat)) 1 r1, RV 0 1 0)
  else if Rlt_dec res (at_ 4%nat) then
    (RV 0 r1 (inverse_lerp (res - at_ 3%nat) 0 (at_ 4%nat - at_ 3%nat)), RV (-1) 0 0)
  else
    (RV 1 r1 (inverse_lerp (res - at_ 4%nat) 0 (at_ 5%nat - at_ 4%nat)), RV 1 0 0).

(* ----- boxes of transformed shapes ----- *)

(* point3.hpp:198-218 *)
Definition rpmin (a b : rv) : rv := RV (Rmin (rx a) (rx b)) (Rmin (ry a) (ry b)) (Rmin (rz a) (rz b)).
Definition rpmax (a b : rv) : rv := RV (Rmax (rx a) (rx b)) (Rmax (ry a) (ry b)) (Rmax (rz a) (rz b)).

(* sphere.cpp:44-58 with corners -1 and 1, box.cpp:24-37 with 0 and 1; the eight points in
   the order of the code *)
Definition corners (m : rmat) (lo hi : R) : list rv :=
  [m_point m (RV lo lo lo); m_point m (RV hi lo lo); m_point m (RV hi hi lo); m_point m (RV lo hi lo);
   m_point m (RV lo lo hi); m_point m (RV hi lo hi); m_point m (RV hi hi hi); m_point m (RV lo hi hi)].
Definition transformed_box (m : rmat) (lo hi : R) : rv * rv :=
  match corners m lo hi with
  | [] => (RV 0 0 0, RV 0 0 0)
  | p :: l => (fold_left rpmin l p, fold_left rpmax l p)
  end.
Definition sphere_box (m : rmat) : rv * rv := transformed_box m (-1) 1.
Definition box_box (m : rmat) : rv * rv := transformed_box m 0 1.
