(* src/samplers/filter_*.cpp over the real numbers: the weight of a sample at a given
   offset from the centre of a pixel.  Exact arithmetic. *)
From Coq Require Import Reals.
Local Open Scope R_scope.

(* filter.hpp: range_x and range_y (the two are equal in every filter) and weight *)
Record filter := mk_filter { f_range : R; f_weight : R -> R -> R }.

(* filter_box.cpp *)
Definition box_filter : filter := mk_filter 1 (fun _ _ => 1).

(* filter_tent.cpp:14-18 *)
Definition tent_filter : filter :=
  mk_filter 2 (fun x y => Rmax 0 (2 - Rabs x) / 2 * Rmax 0 (2 - Rabs y) / 2).

(* filter_gaussian.cpp:11-28; precomputed_exp_x and precomputed_exp_y are equal *)
Definition gauss_filter (falloff : R) : filter :=
  let precomputed_exp := exp (- falloff * 2 * 2) in
  mk_filter 2 (fun x y =>
    Rmax 0 (exp (- falloff * x * x) - precomputed_exp) *
    Rmax 0 (exp (- falloff * y * y) - precomputed_exp)).

(* filter_mitchell.cpp:21-55, one axis: the code is repeated for y *)
Definition mitchell_axis (b c offset : R) : R :=
  let x := Rabs (offset * (1 / 2) * 2) in
  if Rlt_dec 1 x then
    ((- b - 6 * c) * x * x * x + (6 * b + 30 * c) * x * x + (- 12 * b - 48 * c) * x +
     (8 * b + 24 * c)) * (1 / 6)
  else
    ((12 - 9 * b - 6 * c) * x * x * x + (- 18 + 12 * b + 6 * c) * x * x + (6 - 2 * b)) * (1 / 6).
Definition mitchell_filter (b c : R) : filter :=
  mk_filter 2 (fun x y => mitchell_axis b c x * mitchell_axis b c y).

(* filter_lanczos.cpp:17-46, one axis: the code is repeated for y *)
Definition lanczos_axis (tau offset : R) : R :=
  let x := Rabs (offset * (1 / 4)) in
  if Rlt_dec x (/ 100000) then 1
  else if Rlt_dec 1 x then 0
  else let x := x * PI in
       let sinc := sin (x * tau) / (x * tau) in
       let lanczos := sin x / x in
       sinc * lanczos.
Definition lanczos_filter (tau : R) : filter :=
  mk_filter 4 (fun x y => lanczos_axis tau x * lanczos_axis tau y).
