(* Model of the image film, without concurrency: src/cameras/image_film.cpp.
   Sample positions and filter extents are exact rationals instead of floats. *)
From Coq Require Import QArith Qround.
From Verif Require Import Common.
Local Open Scope Z_scope.

(* image_film.cpp:54-64, one axis: first updated pixel and end of the loop *)
Definition film_range (pos range : Q) (limit : Z) : Z * Z :=
  let centre := (pos - (1 # 2))%Q in
  let p0 := Qceiling (centre - range)%Q in
  let p1 := Qfloor (centre + range)%Q in
  (Z.max p0 0, Z.min p1 limit).

(* the values of an int loop variable from a while it is below b *)
Definition zrange (a b : Z) : list Z := map (fun i => a + Z.of_nat i) (seq 0 (Z.to_nat (b - a))).

(* image_film.cpp:67-69: pixels updated by a sample, in loop order *)
Definition affected (range_x range_y : Q) (width height : Z) (pos : Q * Q) : list (Z * Z) :=
  let '(x0, x1) := film_range (fst pos) range_x width in
  let '(y0, y1) := film_range (snd pos) range_y height in
  flat_map (fun y => map (fun x => (x, y)) (zrange x0 x1)) (zrange y0 y1).

(* ---- saving ---- *)

(* A float: a finite number or a special value. *)
Inductive fl := Fin (q : Q) | PInf | MInf | NaN.

Definition Qltb (a b : Q) : bool := negb (Qle_bool b a).

(* the < operator *)
Definition fl_lt (a b : fl) : bool :=
  match a, b with
  | NaN, _ | _, NaN => false
  | Fin p, Fin q => Qltb p q
  | MInf, MInf => false
  | MInf, _ => true
  | _, MInf => false
  | PInf, _ => false
  | Fin _, PInf => true
  end.

(* utility.hpp:115-118 and 129-132 *)
Definition fl_min (a b : fl) : fl := if fl_lt a b then a else b.
Definition fl_max (a b : fl) : fl := if fl_lt b a then a else b.

(* multiplication by the constant 0xFF *)
Definition fl_mul255 (a : fl) : fl := match a with Fin q => Fin (q * 255) | _ => a end.

(* conversion to uint32_t: undefined outside of the range of the type *)
Definition fl_u32 (a : fl) : res N :=
  match a with
  | Fin q => if Qltb (- (1 # 1)) q && Qltb q (inject_Z (2 ^ 32))
             then Ok (Z.to_N (Z.max 0 (Qfloor q))) else UB
  | _ => UB
  end.

(* image_film.cpp:166-171, one channel *)
Definition film_channel (c : fl) : res N :=
  fl_u32 (fl_min (fl_mul255 (fl_max (Fin 0) c)) (Fin 255)).

Record rgb := mk_rgb { cr : fl; cg : fl; cb : fl }.

(* image_film.cpp:165-171 *)
Definition film_word (c : rgb) : res N :=
  let! r := film_channel (cr c) in
  let! g := film_channel (cg c) in
  let! b := film_channel (cb c) in
  Ok (N.lor (N.lor (N.lor 0x000000FF (u32 (N.shiftl r 8))) (u32 (N.shiftl g 16)))
            (u32 (N.shiftl b 24))).

(* image_film.hpp:36-53 *)
Record film_pixel := mk_fp { fp_x : Q; fp_y : Q; fp_z : Q; fp_samples : Q }.

(* image_film.cpp:155-164; [to_srgb] stands for ColorXYZ::to_sRGB *)
Definition film_colour (to_srgb : Q -> Q -> Q -> rgb) (p : film_pixel) : rgb :=
  if Qltb 0 (fp_samples p)
  then let weight := (1 / fp_samples p)%Q in
       to_srgb (fp_x p * weight)%Q (fp_y p * weight)%Q (fp_z p * weight)%Q
  else mk_rgb (Fin 0) (Fin 0) (Fin 0).

Fixpoint mapM {A B} (f : A -> res B) (l : list A) : res (list B) :=
  match l with
  | [] => Ok []
  | a :: l => let! b := f a in let! r := mapM f l in Ok (b :: r)
  end.

(* image_film.cpp:147-176: the array handed to img_write *)
Definition save_words (to_srgb : Q -> Q -> Q -> rgb) (buffer : Z -> Z -> film_pixel)
  (width height : Z) : res (list N) :=
  mapM (fun '(x, y) => film_word (film_colour to_srgb (buffer x y)))
       (flat_map (fun y => map (fun x => (x, y)) (zrange 0 width)) (zrange 0 height)).
