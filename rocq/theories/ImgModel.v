(* src/textures/image_map.cpp (MIP levels, unfiltered and trilinear filters) and
   src/textures/texture_image.cpp (coordinates).  Floats are exact rationals; log2f of a
   texture side is exact, log2f of a footprint is an arbitrary function [lg]. *)
From Coq Require Import QArith Qround Qminmax Qabs.
From Verif Require Import Common Array2DModel.
Local Open Scope N_scope.

(* image_map.hpp: struct Texel *)
Record texel := mk_texel { t_a : N; t_r : N; t_g : N; t_b : N }.

(* conversion of a float to an integer type truncates towards zero and is undefined when
   the result does not fit *)
Definition qtrunc (q : Q) : Z := if Qle_bool 0 q then Qfloor q else Qceiling q.
Definition to_range (lo hi : Z) (q : Q) : res Z :=
  let z := qtrunc q in if ((lo <=? z) && (z <? hi))%Z then Ok z else UB.
Definition to_int (q : Q) : res Z := to_range (- 2 ^ 31)%Z (2 ^ 31)%Z q.
Definition to_u16 (q : Q) : res Z := to_range 0%Z (2 ^ 16)%Z q.
Definition to_u8 (q : Q) : res N := let! z := to_range 0%Z 256%Z q in Ok (Z.to_N z).

Definition qN (n : N) : Q := inject_Z (Z.of_N n).

Fixpoint map_res {A B} (f : A -> res B) (l : list A) : res (list B) :=
  match l with
  | [] => Ok []
  | a :: l => let! b := f a in let! r := map_res f l in Ok (b :: r)
  end.

(* the pairs (x, y) in the order of the loops of image_map.cpp:314-316 *)
Definition range (n : N) : list N := map N.of_nat (seq 0 (N.to_nat n)).
Definition grid (n : N) : list (N * N) := flat_map (fun y => map (fun x => (x, y)) (range n)) (range n).

Definition texel_at (values : list texel) (i : N) : res texel :=
  match nth_error values (N.to_nat i) with Some t => Ok t | None => UB end.

(* image_map.cpp:323-326: 0.25f times a sum of four bytes is exact and below 256 *)
Definition mean4 (a b c d : N) : N := (a + b + c + d) / 4.
Definition mean_texel (a b c d : texel) : texel :=
  mk_texel (mean4 (t_a a) (t_a b) (t_a c) (t_a d)) (mean4 (t_r a) (t_r b) (t_r c) (t_r d))
           (mean4 (t_g a) (t_g b) (t_g c) (t_g d)) (mean4 (t_b a) (t_b b) (t_b c) (t_b d)).

(* image_map.cpp:318-327 *)
Definition down_texel (values : list texel) (side : N) (p : N * N) : res texel :=
  let '(x, y) := p in
  let! t0 := texel_at values (2 * y * side + 2 * x) in
  let! t1 := texel_at values ((2 * y + 1) * side + 2 * x) in
  let! t2 := texel_at values (2 * y * side + (2 * x + 1)) in
  let! t3 := texel_at values ((2 * y + 1) * side + (2 * x + 1)) in
  Ok (mean_texel t0 t1 t2 t3).

(* image_map.cpp:310-330; the part of the output buffer that is not written is dropped *)
Definition downsample (values : list texel) (side : N) : res (list texel) :=
  map_res (down_texel values side) (grid (N.shiftr side 1)).

Record level := mk_level { l_side : N; l_map : arr texel }.
Definition mipmap := list level.

(* image_map.cpp:83-93, the levels from 1 on *)
Fixpoint levels (n : nat) (original : list texel) (side : N) : res mipmap :=
  match n with
  | O => Ok []
  | S n =>
      let half := N.shiftr side 1 in
      let! reduced := downsample original side in
      let! a := new_from LOG_BS reduced half in
      let! rest := levels n reduced half in
      Ok (mk_level half a :: rest)
  end.

(* image_map.cpp:72-96; log2f(0) is minus infinity and its conversion undefined *)
Definition image_map (values : list texel) (side : N) : res mipmap :=
  if side =? 0 then UB
  else if N.of_nat (length values) <? side * side then UB
  else
    let original := firstn (N.to_nat (side * side)) values in
    let! a := new_from LOG_BS original side in
    let! rest := levels (N.to_nat (N.log2 side)) original side in
    Ok (mk_level side a :: rest).

(* MIPmap[level] and side[level]: outside the arrays is UB *)
Definition level_at (m : mipmap) (l : Z) : res level :=
  if (l <? 0)%Z then UB
  else match nth_error m (Z.to_nat l) with Some x => Ok x | None => UB end.

(* Array2D::get.  A negative coordinate lies outside the contract of get and is counted
   as UB here, although the address computed may by chance lie in the block; reading a
   cell never written is UB. *)
Definition fetch (v : level) (x y : Z) : res texel :=
  if ((x <? 0) || (y <? 0))%Z then UB
  else
    let! c := get LOG_BS (l_map v) (Z.to_N x) (Z.to_N y) in
    match c with Some t => Ok t | None => UB end.

(* image_map.cpp:106-112 *)
Definition unfiltered (m : mipmap) (u v : Q) : res texel :=
  let! l := level_at m 0 in
  let! x := to_u16 (u * qN (l_side l) - (1 # 2)) in
  let! y := to_u16 (v * qN (l_side l) - (1 # 2)) in
  fetch l x y.

(* one channel of image_map.cpp:225-232 *)
Definition mix (t0 t1 t2 t3 : N) (iu du iv dv : Q) : res N :=
  to_u8 ((qN t0 * iu + qN t1 * du) * iv + (qN t2 * iu + qN t3 * du) * dv).

(* image_map.cpp:207-235 *)
Definition bilinear (m : mipmap) (u v : Q) (lev : Z) : res texel :=
  let! l := level_at m lev in
  let s := Z.of_N (l_side l) in
  let u := (u * qN (l_side l) - (1 # 2))%Q in
  let v := (v * qN (l_side l) - (1 # 2))%Q in
  let! x := to_int u in
  let! y := to_int v in
  let du := Qabs (u - inject_Z x) in
  let dv := Qabs (v - inject_Z y) in
  let iu := (1 - du)%Q in
  let iv := (1 - dv)%Q in
  let nx := (if x + 1 <=? s - 1 then x + 1 else 0)%Z in
  let ny := (if y + 1 <=? s - 1 then y + 1 else 0)%Z in
  let! t0 := fetch l x y in
  let! t1 := fetch l nx y in
  let! t2 := fetch l x ny in
  let! t3 := fetch l nx ny in
  let! r := mix (t_r t0) (t_r t1) (t_r t2) (t_r t3) iu du iv dv in
  let! g := mix (t_g t0) (t_g t1) (t_g t2) (t_g t3) iu du iv dv in
  let! b := mix (t_b t0) (t_b t1) (t_b t2) (t_b t3) iu du iv dv in
  let! a := mix (t_a t0) (t_a t1) (t_a t2) (t_a t3) iu du iv dv in
  Ok (mk_texel a r g b).

(* one channel of image_map.cpp:137-148: both products are truncated to a byte, and the
   byte sum wraps *)
Definition blend (a b : N) (d : Q) : res N :=
  let! p := to_u8 (qN a * (1 - d)) in
  let! q := to_u8 (qN b * d) in
  Ok (u8 (p + q)).

Definition blend_texel (a b : texel) (d : Q) : res texel :=
  let! r := blend (t_r a) (t_r b) d in
  let! g := blend (t_g a) (t_g b) d in
  let! bl := blend (t_b a) (t_b b) d in
  let! al := blend (t_a a) (t_a b) d in
  Ok (mk_texel al r g bl).

(* image_map.cpp:114-151; 1e-5f *)
Definition footprint (dudx dvdx dudy dvdy : Q) : Q :=
  Qmax (Qmax (Qmax (Qabs dudx) (Qabs dvdx)) (Qmax (Qabs dudy) (Qabs dvdy))) (1 # 100000).

Definition trilinear (lg : Q -> Q) (m : mipmap) (u v dudx dvdx dudy dvdy : Q) : res texel :=
  let last := (Z.of_nat (length m) - 1)%Z in
  let chosen := (inject_Z last + lg (footprint dudx dvdx dudy dvdy))%Q in
  if Qle_bool chosen 0 then bilinear m u v 0
  else if negb (Qle_bool chosen (inject_Z last)) then
    let! l := level_at m last in fetch l 0 0
  else
    let! below := to_range 0 256 chosen in
    let decimal := (chosen - inject_Z below)%Q in
    let! p0 := bilinear m u v below in
    let! p1 := bilinear m u v (below + 1) in
    blend_texel p0 p1 decimal.

(* ----- texture_image.cpp ----- *)

Record vec2 := mk_vec2 { v_x : Q; v_y : Q }.

(* texture_image.cpp:65-68 *)
Definition repeat1 (u : Q) : res Q :=
  if negb (Qle_bool u 1) then let! i := to_int u in Ok (u - inject_Z i)%Q else Ok u.

(* texture_image.cpp:59-92; du is (du/dx, du/dy) and dv (dv/dx, dv/dy) *)
Definition map_value (filter : Q -> Q -> Q -> Q -> Q -> Q -> res texel) (is_unfiltered : bool)
  (shift scale uv : vec2) (diff : option (vec2 * vec2)) : res texel :=
  let! u := repeat1 (v_x uv * v_x scale + v_x shift) in
  let! v := repeat1 (v_y uv * v_y scale + v_y shift) in
  match is_unfiltered, diff with
  | false, Some (du, dv) =>
      filter u v (v_x du * v_x scale)%Q (v_x dv * v_x scale)%Q (v_y du * v_y scale)%Q (v_y dv * v_y scale)%Q
  | _, _ => filter u v 0%Q 0%Q 0%Q 0%Q
  end.

(* texture_image.cpp:21-31: the sides of the file that are accepted, the pixels allocated
   (width*height is an int), and the conversion of the side to uint16_t *)
Definition image_from_file (width height : Z) (pixels : list texel) : option (res mipmap) :=
  if ((width =? height) && (Z.land height (height - 1) =? 0))%Z then
    Some (if (width * height <? 2 ^ 31)%Z then image_map pixels (Z.to_N (width mod 2 ^ 16)) else UB)
  else None.

Inductive tex_filter := Unfiltered | Trilinear | Ewa.

(* a texture file: its sides and its pixels as img_read8 returns them *)
Record tex_file := mk_tex_file { tf_width : Z; tf_height : Z; tf_pixels : list texel }.

(* texture_library.cpp:36-61: the maps by path; `insert` keeps the first map of a path.
   A map is its filter class and its levels. *)
Definition map_lib := list (list N * (tex_filter * mipmap)).
Fixpoint get_map (lib : map_lib) (path : list N) : option (tex_filter * mipmap) :=
  match lib with
  | [] => None
  | (p, m) :: rest => if list_eq_dec N.eq_dec p path then Some m else get_map rest path
  end.

(* TextureImage as far as the map is concerned: None is the default map *)
Record tex_image := mk_tex_image { ti_unfiltered : bool; ti_map : option (tex_filter * mipmap) }.

(* texture_image.cpp:3-51; `file` is None when the file is not readable *)
Definition texture_image (lib : map_lib) (path : list N) (file : option tex_file) (filter : tex_filter) :
  res (tex_image * map_lib) :=
  let unf := match filter with Unfiltered => true | _ => false end in
  match get_map lib path with
  | Some m => Ok (mk_tex_image unf (Some m), lib)
  | None =>
      match file with
      | None => Ok (mk_tex_image unf None, lib)
      | Some f =>
          match image_from_file (tf_width f) (tf_height f) (tf_pixels f) with
          | None => Ok (mk_tex_image unf None, lib)
          | Some r => let! m := r in Ok (mk_tex_image unf (Some (filter, m)), (path, (filter, m)) :: lib)
          end
      end
  end.
