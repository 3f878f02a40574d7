(* src/textures/image_map.cpp, the elliptical filter (ImageMapEWA, lines 37-70, 152-205 and
   237-307).  Floats are exact rationals; log2f of an axis is an arbitrary function [lg] and sqrtf
   an arbitrary function [sq] on numbers that are not negative. *)
From Coq Require Import QArith Qround Qminmax Qabs.
From Verif Require Import Common Array2DModel ImgModel.
Local Open Scope Q_scope.

(* image_map.cpp:37-70, the decimals of the source *)
Definition ewa_weights : list Q :=
  [
   (864664733 # 1000000000); (849040031 # 1000000000); (83365953 # 100000000); (818519294 # 1000000000);
   (80361563 # 100000000); (788944781 # 1000000000); (774503231 # 1000000000); (760287285 # 1000000000);
   (746293485 # 1000000000); (732518315 # 1000000000); (718958378 # 1000000000); (705610275 # 1000000000);
   (692470789 # 1000000000); (679536581 # 1000000000); (666804492 # 1000000000); (654271305 # 1000000000);
   (641933978 # 1000000000); (629789352 # 1000000000); (617834508 # 1000000000); (606066525 # 1000000000);
   (594482362 # 1000000000); (583079159 # 1000000000); (571854174 # 1000000000); (560804546 # 1000000000);
   (549927592 # 1000000000); (539220572 # 1000000000); (528680861 # 1000000000); (518305838 # 1000000000);
   (50809288 # 100000000); (498039544 # 1000000000); (488143265 # 1000000000); (478401601 # 1000000000);
   (468812168 # 1000000000); (45937258 # 100000000); (450080454 # 1000000000); (440933526 # 1000000000);
   (431929469 # 1000000000); (423066139 # 1000000000); (414341331 # 1000000000); (405752778 # 1000000000);
   (397298455 # 1000000000); (388976216 # 1000000000); (380784035 # 1000000000); (372719884 # 1000000000);
   (364781618 # 1000000000); (356967449 # 1000000000); (34927541 # 100000000); (341703475 # 1000000000);
   (334249914 # 1000000000); (32691282 # 100000000); (319690347 # 1000000000); (312580705 # 1000000000);
   (305582166 # 1000000000); (298692942 # 1000000000); (291911423 # 1000000000); (285235822 # 1000000000);
   (278664529 # 1000000000); (272195935 # 1000000000); (265828371 # 1000000000); (259560347 # 1000000000);
   (253390193 # 1000000000); (247316495 # 1000000000); (241337672 # 1000000000); (235452279 # 1000000000);
   (229658857 # 1000000000); (223955944 # 1000000000); (21834214 # 100000000); (212816045 # 1000000000);
   (207376286 # 1000000000); (202021524 # 1000000000); (196750447 # 1000000000); (191561714 # 1000000000);
   (186454013 # 1000000000); (181426153 # 1000000000); (176476851 # 1000000000); (171604887 # 1000000000);
   (166809067 # 1000000000); (162088141 # 1000000000); (157441005 # 1000000000); (152866468 # 1000000000);
   (148363426 # 1000000000); (143930718 # 1000000000); (139567271 # 1000000000); (135272011 # 1000000000);
   (131043866 # 1000000000); (126881793 # 1000000000); (122784719 # 1000000000); (11875169 # 100000000);
   (114781633 # 1000000000); (11087364 # 100000000); (107026696 # 1000000000); (103239879 # 1000000000);
   (995122194 # 10000000000); (958427936 # 10000000000); (922307223 # 10000000000); (886750817 # 10000000000);
   (851749927 # 10000000000); (817295909 # 10000000000); (783380121 # 10000000000); (749994367 # 10000000000);
   (717130303 # 10000000000); (684779733 # 10000000000); (652934611 # 10000000000); (621587038 # 10000000000);
   (590728968 # 10000000000); (560353249 # 10000000000); (530452281 # 10000000000); (501018465 # 10000000000);
   (472044498 # 10000000000); (443523228 # 10000000000); (415447652 # 10000000000); (387810767 # 10000000000);
   (360605568 # 10000000000); (333825648 # 10000000000); (307464004 # 10000000000); (281514227 # 10000000000);
   (255970061 # 10000000000); (230824798 # 10000000000); (206072628 # 10000000000); (181707144 # 10000000000);
   (157722086 # 10000000000); (13411209 # 1000000000); (110870898 # 10000000000); (87992847 # 10000000000);
   (65472275 # 10000000000); (433036685 # 100000000000); (21481365 # 10000000000); (0 # 10)].

(* image_map.cpp:255-257: the coefficients of the ellipse; the product in the first one is in the
   source *)
Definition ellipse_a (dvdx dvdy : Q) : Q := dvdx * dvdx * (dvdy * dvdy) + 1.
Definition ellipse_b (dudx dvdx dudy dvdy : Q) : Q := - (2) * (dudx * dvdx + dudy * dvdy).
Definition ellipse_c (dudx dudy : Q) : Q := dudx * dudx + dudy * dudy + 1.

(* image_map.cpp:283, 288: the wrapped column or row *)
Definition wrap (s z : Z) : Z := (if z <? 0 then s + z else if s - 1 <? z then Z.rem z s else z)%Z.

(* the integers from lo to hi *)
Definition upto (lo hi : Z) : list Z := map (fun i => lo + Z.of_nat i)%Z (seq 0 (Z.to_nat (hi - lo + 1))).

(* image_map.cpp:280-289: the columns and rows in the order of the loops *)
Definition box (u0 u1 v0 v1 : Z) : list (Z * Z) := flat_map (fun y => map (fun x => (x, y)) (upto u0 u1)) (upto v0 v1).

(* image_map.cpp:291-303: the texels inside the ellipse with their weights; a texel out of the map
   is UB *)
Fixpoint gather (l : level) (a b c u v : Q) (ps : list (Z * Z)) : res (list (Q * texel)) :=
  match ps with
  | [] => Ok []
  | (x, y) :: ps =>
    let s := Z.of_N (l_side l) in
    let nx := wrap s x in
    let ny := wrap s y in
    let uoff := inject_Z nx - u in
    let voff := inject_Z ny - v in
    let radius2 := a * uoff * uoff + b * voff * uoff + c * voff * voff in
    if negb (Qle_bool 1 radius2) then
      let! hit := fetch l nx ny in
      let! i := to_int (radius2 * 128) in
      let i := Z.min i 127 in
      if (i <? 0)%Z then UB
      else
        let! rest := gather l a b c u v ps in
        Ok ((nth (Z.to_nat i) ewa_weights 0, hit) :: rest)
    else gather l a b c u v ps
  end.

Definition weight_sum (ws : list (Q * texel)) : Q := fold_right (fun p s => fst p + s) 0 ws.
Definition channel_sum (ch : texel -> N) (ws : list (Q * texel)) : Q := fold_right (fun p s => qN (ch (snd p)) * fst p + s) 0 ws.

(* image_map.cpp:237-307.  A denominator of 0 gives NaN, or 0 times infinity, whose conversion to an
   integer is undefined. *)
Definition ewa (sq : Q -> Q) (m : mipmap) (u v dudx dvdx dudy dvdy : Q) (lev : Z) : res texel :=
  let! l := level_at m lev in
  let s := qN (l_side l) in
  let u := u * s - (1 # 2) in
  let v := v * s - (1 # 2) in
  let dudx := dudx * s in
  let dvdx := dvdx * s in
  let dudy := dudy * s in
  let dvdy := dvdy * s in
  let a := ellipse_a dvdx dvdy in
  let b := ellipse_b dudx dvdx dudy dvdy in
  let c := ellipse_c dudx dudy in
  let f := a * c - b * b * (1 # 4) in
  if Qeq_bool f 0 then UB
  else
    let invf := 1 / f in
    let a := a * invf in
    let b := b * invf in
    let c := c * invf in
    let delta := - b * b + 4 * a * c in
    let invdelta := 1 / delta in
    let x0 := sq (delta * c) in
    let y0 := sq (delta * a) in
    let! u0 := to_int (inject_Z (Qceiling (u - 2 * invdelta * x0))) in
    let! u1 := to_int (inject_Z (Qfloor (u + 2 * invdelta * x0))) in
    let! v0 := to_int (inject_Z (Qceiling (v - 2 * invdelta * y0))) in
    let! v1 := to_int (inject_Z (Qfloor (v + 2 * invdelta * y0))) in
    let! ws := gather l a b c u v (box u0 u1 v0 v1) in
    let total := weight_sum ws in
    if Qeq_bool total 0 then UB
    else
      let inv := 1 / total in
      let! r := to_u8 (channel_sum t_r ws * inv) in
      let! g := to_u8 (channel_sum t_g ws * inv) in
      let! bl := to_u8 (channel_sum t_b ws * inv) in
      let! al := to_u8 (channel_sum t_a ws * inv) in
      Ok (mk_texel al r g bl).

(* image_map.cpp:152-205; EWA_MAX_ECCENTRICITY is 30 (image_map.hpp:68) *)
Definition ewa_filter (lg sq : Q -> Q) (m : mipmap) (u v dudx dvdx dudy dvdy : Q) : res texel :=
  let l1 := sq (dudx * dudx + dvdx * dvdx) in
  let l2 := sq (dudy * dudy + dvdy * dvdy) in
  let '(longer, shorter, dudx, dvdx, dudy, dvdy) :=
    if negb (Qle_bool l2 l1) then (l2, l1, dudy, dvdy, dudx, dvdx) else (l1, l2, dudx, dvdx, dudy, dvdy) in
  if Qeq_bool shorter 0 then bilinear m u v 0
  else
    let '(shorter, dudy, dvdy) :=
      if negb (Qle_bool longer (shorter * 30)) then
        let scale := longer / (shorter * 30) in (shorter * scale, dudy * scale, dvdy * scale)
      else (shorter, dudy, dvdy) in
    let last := (Z.of_nat (length m) - 1)%Z in
    let chosen := Qmax 0 (inject_Z last + lg shorter) in
    if negb (Qle_bool chosen (inject_Z last)) then let! l := level_at m last in fetch l 0 0
    else
      let! below := to_range 0 256 chosen in
      let decimal := chosen - inject_Z below in
      let! p0 := ewa sq m u v dudx dvdx dudy dvdy below in
      let! p1 := ewa sq m u v dudx dvdx dudy dvdy (below + 1) in
      blend_texel p0 p1 decimal.
