(* Specification of tiles, of the visiting order and of strata. *)
From Coq Require Import QArith Qround.
From Verif Require Import Common TilesModel.
Local Open Scope Z_scope.

(* pixel (px, py) belongs to tile t *)
Definition in_tile (px py : Z) (t : tile) : bool :=
  ((startx t <=? px) && (px <? endx t) && (starty t <=? py) && (py <? endy t))%bool.

(* a non-empty tile, at most 32 by 32, inside of a w by h image *)
Definition tile_fits (w h : Z) (t : tile) : Prop :=
  0 <= startx t < endx t /\ endx t <= w /\ endx t - startx t = 32 /\
  0 <= starty t < endy t /\ endy t <= h /\ endy t - starty t <= 32.

(* number of pixels of a tile and pixel number i in row-major order *)
Definition tile_area (t : tile) : Z := (endx t - startx t) * (endy t - starty t).
Definition tile_pixel (t : tile) (i : nat) : Z * Z :=
  (startx t + Z.of_nat i mod (endx t - startx t),
   starty t + Z.of_nat i / (endx t - startx t)).

(* position p lies in the cell of pixel c, borders included *)
Definition in_cell (c : Z * Z) (p : Q * Q) : Prop :=
  (inject_Z (fst c) <= fst p <= inject_Z (fst c + 1) /\
   inject_Z (snd c) <= snd p <= inject_Z (snd c + 1))%Q.

(* column and row of the stratum of pixel c, divided in k by k strata, that
   contains position p *)
Definition stratum (k : Z) (c : Z * Z) (p : Q * Q) : Z * Z :=
  (Qfloor ((fst p - inject_Z (fst c)) * inject_Z k),
   Qfloor ((snd p - inject_Z (snd c)) * inject_Z k)).
