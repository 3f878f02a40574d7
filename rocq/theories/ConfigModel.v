(* Model of the checks of the parsed configuration:
   src/parsers/config_driver.cpp, check_resolution and check_spp.  Single
   precision operations are computed exactly on integers and rounded to 24
   significant bits, to nearest, ties to even; the operands here are far from
   overflow and underflow.  The messages are not modelled. *)
From Verif Require Import Common.
Local Open Scope Z_scope.

Definition int_max : Z := 2 ^ 31 - 1.

(* nearest integer to num/den, ties to even *)
Definition rne (num den : Z) : Z :=
  let q := num / den in
  let r := num mod den in
  if (den <? 2 * r) || ((den =? 2 * r) && Z.odd q) then q + 1 else q.

(* (float)n for a positive int n *)
Definition fl_int (n : Z) : Z :=
  if n <? 2 ^ 24 then n else let e := Z.log2 n - 23 in rne n (2 ^ e) * 2 ^ e.

(* n/d rounded to a float, as a fraction, for positive n and d *)
Definition fl_frac (n d : Z) : Z * Z :=
  let e0 := Z.log2 n - Z.log2 d in
  let e := if d * 2 ^ Z.max e0 0 <=? n * 2 ^ Z.max (- e0) 0 then e0 else e0 - 1 in
  let k := 23 - e in
  (rne (n * 2 ^ Z.max k 0) (d * 2 ^ Z.max (- k) 0) * 2 ^ Z.max (- k) 0, 2 ^ Z.max k 0).

(* config_driver.cpp:131-143.  A height of zero makes the aspect ratio infinite
   and the increment zero. *)
Definition check_resolution (width height : Z) : res (Z * Z) :=
  let rem := width mod 32 in
  if rem =? 0 then Ok (width, height)
  else
    let inc :=
      if height =? 0 then 0
      else let '(an, ad) := fl_frac (fl_int width) (fl_int height) in
           let '(n, d) := fl_frac ((32 - rem) * ad) an in n / d in
    let width' := width + (32 - rem) in
    let h1 := height + inc in
    if (int_max <? width') || (int_max <? inc) || (int_max <? h1) then UB
    else if Z.odd h1 then (if int_max <? h1 + 1 then UB else Ok (width', h1 + 1))
    else Ok (width', h1).

(* sqrtf(m) for a float m that is a positive integer: the result is the first
   component times 2 to the minus second component.  A tie is not possible. *)
Definition fl_sqrt (m : Z) : Z * Z :=
  let j := 23 - Z.log2 m / 2 in
  ((Z.sqrt (4 * m * 4 ^ j) + 1) / 2, j).

(* config_driver.cpp:149 and sampler_stratified.cpp:14: (int)sqrtf((float)spp) *)
Definition int_root (spp : Z) : Z :=
  let '(r, j) := fl_sqrt (fl_int spp) in r / 2 ^ j.

(* config_driver.cpp:152: (int)(root + .5f) *)
Definition near_root (spp : Z) : Z :=
  let '(r, j) := fl_sqrt (fl_int spp) in fl_int (r + 2 ^ (j - 1)) / 2 ^ j.

(* config_driver.cpp:145-157 *)
Definition check_spp (stratified : bool) (spp : Z) : res Z :=
  if negb stratified then Ok spp
  else if spp =? 0 then Ok 0
  else if int_max <? int_root spp * int_root spp then UB
  else if int_root spp * int_root spp =? spp then Ok spp
  else let k := near_root spp in if int_max <? k * k then UB else Ok (k * k).
