(* Model of the division of the image in tiles (src/renderer.cpp:15-28,
   101-112) and of the pixel order of the samplers
   (src/samplers/sampler_random.cpp, sampler_stratified.cpp). *)
From Coq Require Import QArith.
From Verif Require Import Common ArrayIO.
Local Open Scope Z_scope.

(* settings.h: SPLIT_SIZE *)
Definition SPLIT_SIZE : Z := 32.

(* renderer.hpp:40-53 *)
Record tile := mk_tile { startx : Z; endx : Z; starty : Z; endy : Z }.

(* renderer.cpp:18-28: a width that is not a multiple of the tile side disables
   the rendering *)
Definition renderer_size (width height : Z) : Z * Z :=
  if Z.rem width SPLIT_SIZE =? 0 then (width, height) else (0, 0).

(* renderer.cpp:106-111, inner loop from x; results in push order *)
Fixpoint tile_cols (fuel : nat) (x width sy ey : Z) : res (list tile) :=
  match fuel with
  | O => OutOfFuel
  | S fuel =>
      if x <? width then
        let! ex := ck (x + SPLIT_SIZE) in
        let! rest := tile_cols fuel ex width sy ey in
        Ok (mk_tile x ex sy ey :: rest)
      else Ok []
  end.

(* renderer.cpp:102-112, outer loop from y *)
Fixpoint tile_rows (fuel : nat) (y width height : Z) : res (list tile) :=
  match fuel with
  | O => OutOfFuel
  | S fuel =>
      if y <? height then
        let! e := ck (y + SPLIT_SIZE) in
        let ey := if e <? height then e else height in
        let! row := tile_cols (S (Z.to_nat width)) 0 width y ey in
        let! rest := tile_rows fuel e width height in
        Ok (row ++ rest)
      else Ok []
  end.

(* The stack of jobs, the last pushed on top. *)
Definition render_jobs (width height : Z) : res (list tile) :=
  let '(w, h) := renderer_size width height in
  let! l := tile_rows (S (Z.to_nat h)) 0 w h in
  Ok (rev l).

(* ---- samplers ---- *)

(* sampler_random.hpp, sampler_stratified.hpp: bounds and position; the number
   of random values drawn so far stands for the state of the generator *)
Record sampler := mk_sampler {
  s_tile : tile; s_spp : Z; s_nextx : Z; s_nexty : Z; s_drawn : nat }.

(* sampler_random.cpp:6-12, sampler_stratified.cpp:6-16 *)
Definition sampler_init (t : tile) (spp : Z) : sampler :=
  mk_sampler t spp (startx t) (starty t) 0.

(* sampler_random.cpp:24-28, sampler_stratified.cpp:35-39 *)
Definition sampler_advance (s : sampler) (drawn : nat) : sampler :=
  let nx := s_nextx s + 1 in
  if nx =? endx (s_tile s)
  then mk_sampler (s_tile s) (s_spp s) (startx (s_tile s)) (s_nexty s + 1) drawn
  else mk_sampler (s_tile s) (s_spp s) nx (s_nexty s) drawn.

(* Random values: [rng k] is the k-th call of getNumber.  Positions are exact
   rationals instead of floats. *)
Local Open Scope Q_scope.

(* sampler_random.cpp:14-30.  None: nothing delivered. *)
Definition random_get (rng : nat -> Q) (s : sampler) : sampler * option (list (Q * Q)) :=
  if (s_nexty s =? endy (s_tile s))%Z then (s, None)
  else
    let spp := Z.to_nat (s_spp s) in
    let d := s_drawn s in
    let samples := map (fun i => (inject_Z (s_nextx s) + rng (d + 2 * i)%nat,
                                  inject_Z (s_nexty s) + rng (d + 2 * i + 1)%nat)) (seq 0 spp) in
    (sampler_advance s (d + 2 * spp), Some samples).

(* sampler_stratified.cpp:15: (int)sqrtf((float)spp), here the exact integer
   root; ConfigProps relates it to the float computation *)
Definition strata (spp : Z) : Z := Z.sqrt spp.

(* sampler_stratified.cpp:18-41 with randomized = true (JITTERED_SAMPLER) *)
Definition stratified_get (rng : nat -> Q) (s : sampler) : sampler * option (list (Q * Q)) :=
  if (s_nexty s =? endy (s_tile s))%Z then (s, None)
  else
    let k := Z.to_nat (strata (s_spp s)) in
    let d := s_drawn s in
    let dx := 1 / inject_Z (strata (s_spp s)) in
    let dy := 1 / inject_Z (strata (s_spp s)) in
    let samples := flat_map (fun y => map (fun x =>
        let i := (y * k + x)%nat in
        (inject_Z (s_nextx s) + (inject_Z (Z.of_nat x) + rng (d + 2 * i)%nat) * dx,
         inject_Z (s_nexty s) + (inject_Z (Z.of_nat y) + rng (d + 2 * i + 1)%nat) * dy))
        (seq 0 k)) (seq 0 k) in
    (sampler_advance s (d + 2 * (k * k)), Some samples).

(* the results of n calls in a row *)
Fixpoint sampler_run (get : sampler -> sampler * option (list (Q * Q))) (n : nat) (s : sampler)
  : list (option (list (Q * Q))) :=
  match n with
  | O => []
  | S n => let '(s', r) := get s in r :: sampler_run get n s'
  end.
