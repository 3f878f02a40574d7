(* What is expected of image files, independently of the wrappers. *)
From Coq Require Import String.
From Verif Require Import Common PixelModel CodecModel.
Local Open Scope N_scope.

(* the extensions of the formats *)
Definition extension_of (k : format) (ext : string) : Prop :=
  match k with
  | Bmp => ext = "bmp"%string
  | Tga => ext = "tga"%string
  | Ppm => ext = "ppm"%string
  | Jpg => ext = "jpg"%string \/ ext = "jpeg"%string
  | Png => ext = "png"%string
  | Tiff => ext = "tif"%string \/ ext = "tiff"%string
  end.

(* the library that a format needs *)
Definition available (l : libs) (k : format) : Prop :=
  match k with
  | Bmp | Tga | Ppm => True
  | Jpg => jpeg_found l = true
  | Png => png_found l = true
  | Tiff => tiff_found l = true
  end.

(* rows of bytes of the right size *)
Definition well_formed (f : raster) : Prop :=
  length (ra_rows f) = ra_height f /\
  Forall (fun row => length row = (ra_width f * ra_samples f)%nat /\ Forall is_byte row) (ra_rows f).

(* sample c of the pixel in column x of row y from the top *)
Definition sample (f : raster) (x y c : nat) : option N :=
  match nth_error (ra_rows f) y with
  | Some row => nth_error row (x * ra_samples f + c)
  | None => None
  end.

(* red, green, blue and alpha of a pixel: grey is equal parts of the three, opaque unless an
   alpha is given *)
Definition colour_at (f : raster) (x y : nat) : option (N * N * N * N) :=
  match ra_samples f with
  | 1%nat => match sample f x y 0 with Some g => Some (g, g, g, 255) | _ => None end
  | 2%nat => match sample f x y 0, sample f x y 1 with
             | Some g, Some a => Some (g, g, g, a) | _, _ => None end
  | 3%nat => match sample f x y 0, sample f x y 1, sample f x y 2 with
             | Some r, Some g, Some b => Some (r, g, b, 255) | _, _, _ => None end
  | 4%nat => match sample f x y 0, sample f x y 1, sample f x y 2, sample f x y 3 with
             | Some r, Some g, Some b, Some a => Some (r, g, b, a) | _, _, _, _ => None end
  | _ => None
  end.

(* the array of a reader has, top-down and left-right, the colours of the file *)
Definition channels (p : N) : N * N * N * N := (px_red p, px_green p, px_blue p, px_alpha p).
Definition shows (out : list N) (f : raster) : Prop :=
  length out = (ra_width f * ra_height f)%nat /\
  forall x y, (x < ra_width f)%nat -> (y < ra_height f)%nat ->
    exists p, nth_error out (y * ra_width f + x) = Some p /\ p < 2 ^ 32 /\
              colour_at f x y = Some (channels p).

(* the array read back: the colours that were written, opaque *)
Definition opaque_copy (out data : list N) : Prop :=
  length out = length data /\
  forall i p, nth_error data i = Some p ->
    exists q, nth_error out i = Some q /\ q < 2 ^ 32 /\ channels q = (px_red p, px_green p, px_blue p, 255).
