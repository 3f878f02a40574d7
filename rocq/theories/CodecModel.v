(* The wrappers around libjpeg, libpng and libtiff (src/utility/imageio/jpg.c, png.c and
   tiff.c), the choice of a format by extension (imageio.c) and the loading of a texture
   file (parsers/config_driver.cpp:277-283, textures/texture_image.cpp:15-37).

   The three libraries are abstract: a file is the raster it encodes, that is the sides,
   the number of samples of a pixel and the rows of 8-bit samples from the top.  What the
   libraries return for a raster is stated at each use.  The lossy step of jpeg is before
   the raster: jpg_read is modelled from the decoded raster.  Files that make a library
   report an error are not modelled, except where a wrapper itself refuses the raster. *)
From Coq Require Import String.
From Verif Require Import Common PixelModel.
Local Open Scope N_scope.

(* ----- imageio.c: the format of an extension ----- *)

Inductive format := Bmp | Tga | Ppm | Jpg | Png | Tiff.

(* the symbols given to the compiler for imageio.c (CMakeLists.txt:129-195) *)
Record libs := mk_libs { jpeg_found : bool; png_found : bool; tiff_found : bool }.

Definition is_jpg (ext : string) : bool := (ext =? "jpg")%string || (ext =? "jpeg")%string.
Definition is_tiff (ext : string) : bool := (ext =? "tif")%string || (ext =? "tiff")%string.

(* imageio.c:8-31: the writer called; None is the value 0 without a call *)
Definition write_format (l : libs) (ext : string) : option format :=
  if (ext =? "bmp")%string then Some Bmp
  else if (ext =? "tga")%string then Some Tga
  else if (ext =? "ppm")%string then Some Ppm
  else if jpeg_found l && is_jpg ext then Some Jpg
  else if png_found l && (ext =? "png")%string then Some Png
  else if tiff_found l && is_tiff ext then Some Tiff
  else None.

(* imageio.c:33-59 *)
Definition valid_format (l : libs) (ext : string) : option format :=
  if (ext =? "")%string then None
  else if (ext =? "bmp")%string then Some Bmp
  else if (ext =? "tga")%string then Some Tga
  else if (ext =? "ppm")%string then Some Ppm
  else if jpeg_found l && is_jpg ext then Some Jpg
  else if png_found l && (ext =? "png")%string then Some Png
  else if tiff_found l && is_tiff ext then Some Tiff
  else None.

(* imageio.c:61-84; line 79 asks for JPEG_FOUND.  Without TIFF_FOUND the function of line
   81 is not defined and the program does not link: this is not modelled. *)
Definition dimensions_format (l : libs) (ext : string) : option format :=
  if (ext =? "bmp")%string then Some Bmp
  else if (ext =? "tga")%string then Some Tga
  else if (ext =? "ppm")%string then Some Ppm
  else if jpeg_found l && is_jpg ext then Some Jpg
  else if png_found l && (ext =? "png")%string then Some Png
  else if jpeg_found l && is_tiff ext then Some Tiff
  else None.

(* imageio.c:86-108 *)
Definition read_format (l : libs) (ext : string) : option format :=
  if (ext =? "bmp")%string then Some Bmp
  else if (ext =? "tga")%string then Some Tga
  else if (ext =? "ppm")%string then Some Ppm
  else if jpeg_found l && is_jpg ext then Some Jpg
  else if png_found l && (ext =? "png")%string then Some Png
  else if tiff_found l && is_tiff ext then Some Tiff
  else None.

(* imageio.c:110-130 *)
Definition supported (l : libs) (ext : string) : bool :=
  if (ext =? "bmp")%string || (ext =? "tga")%string || (ext =? "ppm")%string then true
  else if jpeg_found l && is_jpg ext then true
  else if png_found l && (ext =? "png")%string then true
  else tiff_found l && is_tiff ext.

(* ----- rasters ----- *)

Record raster := mk_raster {
  ra_width : nat; ra_height : nat; ra_samples : nat; ra_rows : list (list N) }.

(* an element of an array; outside the array it is undefined behaviour *)
Definition at_index {A} (l : list A) (i : nat) : res A :=
  match nth_error l i with Some a => Ok a | None => UB end.

Fixpoint collect {A} (f : nat -> res A) (l : list nat) : res (list A) :=
  match l with
  | [] => Ok []
  | i :: l => let! a := f i in let! r := collect f l in Ok (a :: r)
  end.

(* two nested loops, y outside, over the pixels of an image: one list for each row *)
Definition each_row {A} (w h : nat) (f : nat -> nat -> res A) : res (list (list A)) :=
  collect (fun y => collect (fun x => f x y) (seq 0 w)) (seq 0 h).

Definition each_pixel {A} (w h : nat) (f : nat -> nat -> res A) : res (list A) :=
  let! rows := each_row w h f in Ok (concat rows).

(* the three bytes of jpg.c:31-33, png.c:24-26 and tiff.c:31-33 *)
Definition rgb_bytes (p : N) : list N := [px_red p; px_green p; px_blue p].

(* png.c:6-47 and tiff.c:6-44: the raster given to the library, 8 bits, 3 samples, from the
   top.  The files are assumed to be writable. *)
Definition rgb_write (w h : nat) (data : list N) : res raster :=
  let! rows := each_row w h (fun x y => let! p := at_index data (y * w + x) in Ok (rgb_bytes p)) in
  Ok (mk_raster w h 3 (map (@concat N) rows)).

(* ----- jpg.c:122-170 ----- *)

(* jpg.c:153-161: three samples for each pixel, whatever output_components is.  The buffer
   of the row has output_width*output_components bytes.  A greyscale file is decoded as one
   sample, an rgb or YCbCr file as three, a CMYK or YCCK file as four (the default
   out_color_space of libjpeg). *)
Definition jpg_pixel (row : list N) (x : nat) : res N :=
  let! r := at_index row (x * 3 + 0) in
  let! g := at_index row (x * 3 + 1) in
  let! b := at_index row (x * 3 + 2) in
  Ok (px_make r g b).

Definition jpg_read (f : raster) : res (list N) :=
  each_pixel (ra_width f) (ra_height f)
    (fun x y => let! row := at_index (ra_rows f) y in jpg_pixel row x).

(* ----- png.c:91-164 ----- *)

(* png_read_image after the transformations of png.c:122-139: every pixel has four samples.
   Grey samples are repeated, and a missing alpha is 255.  The depths below and above 8 bits
   and the palettes are converted by the library and are not modelled; a raster here has 1
   (grey), 2 (grey and alpha), 3 (rgb) or 4 (rgb and alpha) samples. *)
Fixpoint to_rgba (samples : nat) (row : list N) : list N :=
  match samples, row with
  | 1%nat, g :: row => g :: g :: g :: 255 :: to_rgba samples row
  | 2%nat, g :: t =>
      match t with a :: row => g :: g :: g :: a :: to_rgba samples row | _ => [] end
  | 3%nat, r :: t =>
      match t with
      | g :: t => match t with b :: row => r :: g :: b :: 255 :: to_rgba samples row | _ => [] end
      | _ => []
      end
  | _, _ => row
  end.

(* png.c:150-153 *)
Definition png_pixel (row : list N) (x : nat) : res N :=
  let! a := at_index row (x * 4 + 3) in
  let! b := at_index row (x * 4 + 2) in
  let! g := at_index row (x * 4 + 1) in
  let! r := at_index row (x * 4 + 0) in
  Ok (N.lor (N.lor (N.lor a (N.shiftl b 24)) (N.shiftl g 16)) (N.shiftl r 8)).

Definition png_read (f : raster) : res (list N) :=
  let rows := map (to_rgba (ra_samples f)) (ra_rows f) in
  each_pixel (ra_width f) (ra_height f)
    (fun x y => let! row := at_index rows y in png_pixel row x).

(* ----- tiff.c:77-125 ----- *)

(* one word of TIFFReadRGBAImage: A, B, G, R from the high byte *)
Definition abgr (r g b a : N) : N := r + 256 * g + 65536 * b + 16777216 * a.
Definition tiff_r (w : N) : N := N.land w 255.                    (* TIFFGetR *)
Definition tiff_g (w : N) : N := N.land (N.shiftr w 8) 255.       (* TIFFGetG *)
Definition tiff_b (w : N) : N := N.land (N.shiftr w 16) 255.      (* TIFFGetB *)
Definition tiff_a (w : N) : N := N.land (N.shiftr w 24) 255.      (* TIFFGetA *)

Fixpoint abgr_row (samples : nat) (row : list N) : list N :=
  match samples, row with
  | 3%nat, r :: t =>
      match t with
      | g :: t => match t with b :: row => abgr r g b 255 :: abgr_row samples row | _ => [] end
      | _ => []
      end
  | 4%nat, r :: t =>
      match t with
      | g :: t =>
          match t with
          | b :: t => match t with a :: row => abgr r g b a :: abgr_row samples row | _ => [] end
          | _ => []
          end
      | _ => []
      end
  | _, _ => []
  end.

(* TIFFReadRGBAImage: the origin is the lower left corner.  The alpha of a file with four
   samples is taken as associated alpha, which the library does not change. *)
Definition read_rgba_image (f : raster) : list N :=
  concat (map (abgr_row (ra_samples f)) (rev (ra_rows f))).

(* tiff.c:106-115 *)
Definition tiff_pixel (w h samples : nat) (data : list N) (x y : nat) : res N :=
  let! p := at_index data ((h - 1 - y) * w + x) in
  Ok (N.lor (N.lor (N.lor (N.shiftl (tiff_b p) 24) (N.shiftl (tiff_g p) 16)) (N.shiftl (tiff_r p) 8))
        (if (samples =? 4)%nat then tiff_a p else 255)).

(* None is the value 0, without a write to the array of the caller (tiff.c:95-120) *)
Definition tiff_read (f : raster) : res (option (list N)) :=
  if ((ra_samples f =? 3) || (ra_samples f =? 4))%nat then
    let! v := each_pixel (ra_width f) (ra_height f)
      (tiff_pixel (ra_width f) (ra_height f) (ra_samples f) (read_rgba_image f)) in
    Ok (Some v)
  else Ok None.

(* ----- loading a texture ----- *)

(* what the functions of a format answer for a file: x_valid, x_dimensions and x_read *)
Record answers := mk_answers {
  an_valid : bool; an_dims : option (nat * nat); an_read : res (option (list N)) }.

Definition jpg_answers (f : raster) : answers :=
  mk_answers true (Some (ra_width f, ra_height f)) (let! v := jpg_read f in Ok (Some v)).
Definition png_answers (f : raster) : answers :=
  mk_answers true (Some (ra_width f, ra_height f)) (let! v := png_read f in Ok (Some v)).
(* tiff.c:46-75: any file the library opens *)
Definition tiff_answers (f : raster) : answers :=
  mk_answers true (Some (ra_width f, ra_height f)) (tiff_read f).

Definition power_of_2 (n : nat) : bool := N.land (N.of_nat n) (N.of_nat n - 1) =? 0.

(* config_driver.cpp:277-283 and texture_image.cpp:15-37 for a readable file: the side and
   the pixels given to the image map, None for the default map.  `file` is what each format
   answers for the file, `junk` the block returned by malloc.  width and height are not
   initialised (texture_image.cpp:15-16) and the values of img_dimensions and img_read8 are
   ignored. *)
Definition load_texture (l : libs) (ext : string) (file : format -> answers) (junk : nat -> list N) :
  res (option (nat * list N)) :=
  match valid_format l ext with
  | Some k =>
      if an_valid (file k) then
        match (match dimensions_format l ext with Some k => an_dims (file k) | None => None end) with
        | None => UB
        | Some (w, h) =>
            if (w =? h)%nat && power_of_2 h then
              let! v := match read_format l ext with Some k => an_read (file k) | None => Ok None end in
              Ok (Some (w, match v with Some v => v | None => junk (w * h)%nat end))
            else Ok None
        end
      else Ok None
  | None => Ok None
  end.
