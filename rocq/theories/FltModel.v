(* Single precision arithmetic (IEEE 754 binary32, round to nearest even, one NaN) for the
   places where rounding decides: random numbers, positions of samples, the film, the choice
   of a light, cumulative areas and normalised vectors.
   Every operation of the code is one rounded operation in the order of the source: no excess
   precision (FLT_EVAL_METHOD 0) and no contraction of a product and a sum into one fma.
   The operations themselves are the ones of Flocq, which are proved to round correctly. *)
From Coq Require Import ZArith List.
From Flocq Require Import IEEE754.BinarySingleNaN.
From Verif Require Import Common.
Import ListNotations.
Local Open Scope Z_scope.

Definition f32 : Type := binary_float 24 128.
Definition prec24 : FLX.Prec_gt_0 24 := eq_refl.
Definition emax128 : Prec_lt_emax 24 128 := eq_refl.

Definition fadd (x y : f32) : f32 := @Bplus 24 128 prec24 emax128 mode_NE x y.
Definition fsub (x y : f32) : f32 := @Bminus 24 128 prec24 emax128 mode_NE x y.
Definition fmul (x y : f32) : f32 := @Bmult 24 128 prec24 emax128 mode_NE x y.
Definition fdiv (x y : f32) : f32 := @Bdiv 24 128 prec24 emax128 mode_NE x y.
Definition fsqrt (x : f32) : f32 := @Bsqrt 24 128 prec24 emax128 mode_NE x.
Definition flt (x y : f32) : bool := Bltb x y.
Definition fgt (x y : f32) : bool := Bltb y x.
Definition fle (x y : f32) : bool := Bleb x y.

(* conversion of an integer to float, and m * 2^e *)
Definition fnum (m e : Z) : f32 := binary_normalize 24 128 prec24 emax128 mode_NE m e false.
Definition of_Z (n : Z) : f32 := fnum n 0.
Definition fzero : f32 := of_Z 0.
Definition fone : f32 := of_Z 1.

(* conversions of a float to int and to uint32_t cut off the fraction and are undefined when
   the result does not fit *)
Definition to_range (lo hi : Z) (x : f32) : res Z :=
  if is_finite x
  then let n := Btrunc x in if (lo <=? n) && (n <=? hi) then Ok n else UB
  else UB.
Definition to_int : f32 -> res Z := to_range (- 2 ^ 31) (2 ^ 31 - 1).
Definition to_u32 : f32 -> res Z := to_range 0 (2 ^ 32 - 1).

(* utility.hpp:115-118, 129-132 *)
Definition fmin (x y : f32) : f32 := if flt x y then x else y.
Definition fmax (x y : f32) : f32 := if fgt x y then x else y.

(* ceilf and floorf *)
Definition f_ceil (x : f32) : f32 := @Bnearbyint 24 128 emax128 mode_UP x.
Definition f_floor (x : f32) : f32 := @Bnearbyint 24 128 emax128 mode_DN x.

(* ----- random numbers and positions ----- *)

(* wellrng.cpp:35 for the word z of the state; the constant is 2^-32 *)
Definition f_rand (z : Z) : f32 := fmul (of_Z z) (fnum 1 (-32)).

(* sampler_random.cpp:20 (and 21): nextx + getNumber() *)
Definition random_pos (next z : Z) : f32 := fadd (of_Z next) (f_rand z).

(* sampler_stratified.cpp:13 *)
Definition f_strata (spp : Z) : res Z := to_int (fsqrt (of_Z spp)).

(* sampler_stratified.cpp:22-23, 28-31 *)
Definition strat_pos (strata next x z : Z) : f32 :=
  let d := fdiv fone (of_Z strata) in
  fadd (of_Z next) (fmul (fadd (of_Z x) (f_rand z)) d).

(* ----- film ----- *)

(* image_film.cpp:54-65, one axis: the first pixel and the one after the last *)
Definition f_update (side : Z) (range pos : f32) : res (Z * Z) :=
  let centre := fsub pos (fnum 1 (-1)) in
  let! x0 := to_int (f_ceil (fsub centre range)) in
  let! x1 := to_int (f_floor (fadd centre range)) in
  Ok (Z.max x0 0, Z.min x1 side).

(* image_film.cpp:50-52: a negative channel is set to 0 *)
Definition f_nonneg (c : f32) : f32 := if flt c fzero then fzero else c.

Record fpixel := mk_fpixel { p_x : f32; p_y : f32; p_z : f32; p_n : f32 }.
Record fcolor := mk_fcolor { c_r : f32; c_g : f32; c_b : f32 }.

(* image_film.cpp:84-90: one sample with its weight *)
Definition f_accumulate (p : fpixel) (s : fcolor * f32) : fpixel :=
  let (c, w) := s in
  mk_fpixel (fadd (p_x p) (fmul (f_nonneg (c_r c)) w)) (fadd (p_y p) (fmul (f_nonneg (c_g c)) w))
    (fadd (p_z p) (fmul (f_nonneg (c_b c)) w)) (fadd (p_n p) w).

(* color.cpp:164-175, one channel; [power] is r -> 1.055f*powf(r, 1/2.4)-0.055f.  The
   constants are parameters: only that they are numbers is used. *)
Definition f_transfer (power : f32 -> f32) (cut slope r : f32) : f32 :=
  if fgt r cut then power r else fmul r slope.

(* color.cpp:160-162: a row of the matrix *)
Definition f_row (m : f32 * f32 * f32) (x y z : f32) : f32 :=
  let '(a, b, c) := m in fadd (fadd (fmul x a) (fmul y b)) (fmul z c).

(* image_film.cpp:169-176: the byte of a channel *)
Definition f_byte (c : f32) : res Z := to_u32 (fmin (fmul (fmax fzero c) (of_Z 255)) (of_Z 255)).

(* image_film.cpp:155-176: the three bytes of a pixel *)
Definition f_save (power : f32 -> f32) (cut slope : f32) (rows : (f32 * f32 * f32) * (f32 * f32 * f32) * (f32 * f32 * f32))
  (p : fpixel) : res (Z * Z * Z) :=
  let '(m0, m1, m2) := rows in
  if fgt (p_n p) fzero
  then
    let w := fdiv fone (p_n p) in
    let x := fmul (p_x p) w in
    let y := fmul (p_y p) w in
    let z := fmul (p_z p) w in
    let! r := f_byte (f_transfer power cut slope (f_row m0 x y z)) in
    let! g := f_byte (f_transfer power cut slope (f_row m1 x y z)) in
    let! b := f_byte (f_transfer power cut slope (f_row m2 x y z)) in
    Ok (r, g, b)
  else
    let! r := f_byte fzero in Ok (r, r, r).

(* ----- lights and faces ----- *)

(* ray_tracer.cpp:24 *)
Definition f_light (r : f32) (nlights : Z) : res Z :=
  let! i := to_int (fmul r (of_Z nlights)) in
  Ok (Z.min i (nlights - 1)).

(* mesh.cpp:160-168: the cumulative areas from [sum] *)
Fixpoint f_densities (sum : f32) (areas : list f32) : list f32 :=
  match areas with
  | [] => []
  | a :: rest => let sum := fadd sum a in sum :: f_densities sum rest
  end.

(* mesh.cpp:174 with utility.hpp:192-195: lerp(r0, 0, densities[count-1]) *)
Definition f_pick (r0 total : f32) : f32 := fadd (fmul (fsub fone r0) fzero) (fmul r0 total).

(* densities[i] *)
Definition f_get (d : list f32) (i : Z) : res f32 :=
  if i <? 0 then UB else match nth_error d (Z.to_nat i) with Some x => Ok x | None => UB end.

(* mesh.cpp:201-211: the loop *)
Fixpoint f_search (fuel : nat) (d : list f32) (x : f32) (start end_ : Z) : res Z :=
  match fuel with
  | O => OutOfFuel
  | S fuel =>
    let mid := (start + end_) / 2 in
    let! dm := f_get d mid in
    let! stop := if fle dm x then let! dn := f_get d (mid + 1) in Ok (fgt dn x) else Ok false in
    if stop then Ok mid
    else if fgt dm x then f_search fuel d x start mid
    else f_search fuel d x mid end_
  end.

(* mesh.cpp:170-213: the index of the face whose sample_point is called *)
Definition f_sample_face (fuel : nat) (d : list f32) (r0 : f32) : res Z :=
  let end_ := Z.of_nat (length d) - 1 in
  let! total := f_get d end_ in
  let x := f_pick r0 total in
  let! d0 := f_get d 0 in
  if flt x d0 then Ok 0
  else
    let! dl := f_get d (end_ - 1) in
    if fgt x dl then Ok end_ else f_search fuel d x 0 end_.

(* ----- vectors ----- *)

Record fvec := mk_fvec { fx : f32; fy : f32; fz : f32 }.

Definition f_len2 (v : fvec) : f32 := fadd (fadd (fmul (fx v) (fx v)) (fmul (fy v) (fy v))) (fmul (fz v) (fz v)).

(* 1E-5f, the float next to 1/100000 *)
Definition f_epsilon : f32 := fnum 10995116 (-40).

(* vec3.cpp:135-156 and 604-625, without the check of the debug build *)
Definition f_normalize (v : fvec) : fvec :=
  let len2 := f_len2 v in
  if fgt len2 (fsub fone f_epsilon) && flt len2 (fadd fone f_epsilon) then v
  else
    let len := fdiv fone (fsqrt len2) in
    mk_fvec (fmul (fx v) len) (fmul (fy v) len) (fmul (fz v) len).
