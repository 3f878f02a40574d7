(* src/primitives/hit_point.cpp, src/textures/texture_normal.cpp and texture_height.cpp over the
   real numbers: exact arithmetic.  x / 0 is what the library defines; theorems exclude it. *)
From Coq Require Import Reals NArith.
From Verif Require Import RVecModel.
Local Open Scope R_scope.

(* hit_point.hpp, the members used here *)
Record hitp := mk_hitp { hp_p : rv; hp_n : rv; hp_u : rv; hp_v : rv }.

(* ray.hpp: origin and direction *)
Record dray := mk_dray { dr_o : rv; dr_d : rv }.

(* point3.hpp and vec3.hpp operator[] *)
Definition component (k : nat) (a : rv) : R :=
  match k with O => rx a | S O => ry a | _ => rz a end.

(* hit_point.cpp:29-48 *)
Definition solving_axes (n : rv) : nat * nat :=
  let nx := Rabs (rx n) in let ny := Rabs (ry n) in let nz := Rabs (rz n) in
  if Rlt_dec ny nx then
    if Rlt_dec nz nx then (1%nat, 2%nat)
    else if Rlt_dec nz ny then (0%nat, 2%nat) else (0%nat, 1%nat)
  else if Rlt_dec nz ny then (0%nat, 2%nat) else (0%nat, 1%nat).

(* hit_point.cpp:9-20: where a differential ray meets the plane of the hit *)
Definition plane_point (h : hitp) (r : dray) : rv :=
  let d := - rdot (hp_n h) (hp_p h) in
  let t := - (rdot (hp_n h) (dr_o r) + d) in
  let t := t / rdot (hp_n h) (dr_d r) in
  radd (dr_o r) (rscale t (dr_d r)).

(* hit_point.cpp:6-67: du and dv as (x, y) pairs; None is differentials = false *)
Definition calculate_differentials (h : hitp) (rx ry : dray) : option ((R * R) * (R * R)) :=
  let px := plane_point h rx in
  let py := plane_point h ry in
  let '(axes0, axes1) := solving_axes (hp_n h) in
  let a00 := component axes0 (hp_u h) in
  let a01 := component axes0 (hp_v h) in
  let a10 := component axes1 (hp_u h) in
  let a11 := component axes1 (hp_v h) in
  let bx0 := component axes0 px - component axes0 (hp_p h) in
  let bx1 := component axes1 px - component axes1 (hp_p h) in
  let by0 := component axes0 py - component axes0 (hp_p h) in
  let by1 := component axes1 py - component axes1 (hp_p h) in
  let det := a00 * a11 - a01 * a10 in
  if Rlt_dec (/ 100000) (Rabs det) then
    let invdet := 1 / det in
    Some (((a11 * bx0 - a01 * bx1) * invdet, (a11 * by0 - a01 * by1) * invdet),
          ((a00 * bx1 - a10 * bx0) * invdet, (a00 * by1 - a10 * by0) * invdet))
  else None.

(* bump.cpp:3-7: frame and normal *)
Definition plain_bump (h : hitp) : shading * rv :=
  let m := shading_of (hp_u h) (hp_n h) in (m, sh_n m).

(* texture_normal.cpp:17-28: one channel of the texel *)
Definition normal_channel (c : N) : R := INR (N.to_nat c) * (1 / 255) * 2 - 1.

(* texture_normal.cpp:11-44; the texel has the channels r, g and b *)
Definition normal_bump (r g b : N) (h : hitp) : shading * rv :=
  let nsh := RV (normal_channel r) (normal_channel g) (normal_channel b) in
  let olds := hp_u h in
  let oldn := rnormalize (rcross (hp_u h) (hp_v h)) in
  let oldt := rnormalize (rcross olds oldn) in
  let old := mk_shading olds oldt oldn in
  let n := rnormalize (to_world old nsh) in
  let s := rnormalize (rsub (hp_u h) (rscale (rdot n (hp_u h)) n)) in
  let t := rnormalize (rcross n s) in
  (mk_shading s t n, if Rlt_dec (rdot n (hp_n h)) 0 then rneg n else n).

(* texture_height.cpp:30-33, 44-47: the step of a coordinate from its two derivatives *)
Definition height_step (d : R * R) : R :=
  let e := (1 / 2) * (Rabs (fst d) + Rabs (snd d)) in if Req_EM_T e 0 then / 100 else e.

(* texture_height.cpp:13-60: the channel of the map at (u, v) of the hit is [height 0 0] and the
   shifted ones are [height e 0] and [height 0 e]; differences of uint8_t are int *)
Definition height_gradient (height : R -> R -> N) (du dv : R * R) : R * R :=
  let at_ a b := INR (N.to_nat (height a b)) in
  let eu := height_step du in
  let ev := height_step dv in
  ((at_ eu 0 - at_ 0 0) * (1 / 255) / eu, (at_ 0 ev - at_ 0 0) * (1 / 255) / ev).

(* texture_height.cpp:62-77 *)
Definition height_bump (uv : R * R) (h : hitp) : shading * rv :=
  let '(u, v) := uv in
  let dpdu := radd (hp_u h) (rscale (u - rdot (hp_n h) (hp_u h)) (hp_n h)) in
  let dpdv := radd (hp_v h) (rscale (v - rdot (hp_n h) (hp_v h)) (hp_n h)) in
  let n := rnormalize (rcross dpdu dpdv) in
  let s := rnormalize (rsub dpdu (rscale (rdot dpdu n) n)) in
  let t := rnormalize (rcross n s) in
  let n := if Rlt_dec (rdot n (hp_n h)) 0 then rneg n else n in
  (mk_shading s t n, n).
