(* Property theorems about jpeg, png and tiff files (C232-C239). *)
From Coq Require Import String.
From Verif Require Import Common PixelModel CodecModel CodecSpec CodecProofs.
Local Open Scope N_scope.

(* C232.  An image of any size written as png or tiff is read back with the same colours,
   opaque, in the same order. *)
Theorem png_round_trip : forall w h data, length data = (w * h)%nat ->
  exists f out, rgb_write w h data = Ok f /\ ra_width f = w /\ ra_height f = h /\
    png_read f = Ok out /\ opaque_copy out data.
Proof.
  intros w h data L. destruct (rgb_write_ok w h data L) as (f & E & W & Ew & Eh & Es & C).
  destruct (png_read_shows f W ltac:(lia)) as (out & R & S).
  exists f, out. repeat (split; [assumption |]). eapply shows_written; eassumption.
Qed.
Print Assumptions png_round_trip.

Theorem tiff_round_trip : forall w h data, length data = (w * h)%nat ->
  exists f out, rgb_write w h data = Ok f /\ ra_width f = w /\ ra_height f = h /\
    tiff_read f = Ok (Some out) /\ opaque_copy out data.
Proof.
  intros w h data L. destruct (rgb_write_ok w h data L) as (f & E & W & Ew & Eh & Es & C).
  destruct (tiff_read_shows f W ltac:(lia)) as (out & R & S).
  exists f, out. repeat (split; [assumption |]). eapply shows_written; eassumption.
Qed.
Print Assumptions tiff_round_trip.

Example round_trip_ex :
  let data := [0x11223344; 0xFFEEDD00; 0x000000FF; 0x01020304; 0xABCDEF01; 0x10203040] in
  length data = (2 * 3)%nat /\
  (let! f := rgb_write 2 3 data in Ok (ra_rows f)) =
    Ok [[0x33; 0x22; 0x11; 0xDD; 0xEE; 0xFF]; [0; 0; 0; 3; 2; 1]; [0xEF; 0xCD; 0xAB; 0x30; 0x20; 0x10]] /\
  (let! f := rgb_write 2 3 data in tiff_read f) =
    Ok (Some [0x112233FF; 0xFFEEDDFF; 0x000000FF; 0x010203FF; 0xABCDEFFF; 0x102030FF]) /\
  (let! f := rgb_write 2 3 data in png_read f) =
    Ok [0x112233FF; 0xFFEEDDFF; 0x000000FF; 0x010203FF; 0xABCDEFFF; 0x102030FF].
Proof. vm_compute. repeat split; reflexivity. Qed.

(* C233.  Png files with any kind of samples, rgb jpeg files and tiff files of three or four
   samples are read without undefined behaviour, every pixel in its place. *)
Theorem png_decoded : forall f, well_formed f -> (1 <= ra_samples f <= 4)%nat ->
  exists out, png_read f = Ok out /\ shows out f.
Proof. exact png_read_shows. Qed.
Print Assumptions png_decoded.

Theorem jpg_decoded : forall f, well_formed f -> ra_samples f = 3%nat ->
  exists out, jpg_read f = Ok out /\ shows out f.
Proof. exact jpg_read_shows. Qed.
Print Assumptions jpg_decoded.

Theorem tiff_decoded : forall f, well_formed f -> ra_samples f = 3%nat \/ ra_samples f = 4%nat ->
  exists out, tiff_read f = Ok (Some out) /\ shows out f.
Proof. exact tiff_read_shows. Qed.
Print Assumptions tiff_decoded.

Definition rgb_2x2 : raster := mk_raster 2 2 3 [[1; 2; 3; 4; 5; 6]; [7; 8; 9; 10; 11; 12]].
Definition grey_alpha_2x1 : raster := mk_raster 2 1 2 [[100; 200; 30; 40]].
Definition rgba_1x2 : raster := mk_raster 1 2 4 [[1; 2; 3; 4]; [5; 6; 7; 8]].
Example decoded_ex :
  jpg_read rgb_2x2 = Ok [0x030201FF; 0x060504FF; 0x090807FF; 0x0C0B0AFF] /\
  png_read rgb_2x2 = Ok [0x030201FF; 0x060504FF; 0x090807FF; 0x0C0B0AFF] /\
  tiff_read rgb_2x2 = Ok (Some [0x030201FF; 0x060504FF; 0x090807FF; 0x0C0B0AFF]) /\
  png_read grey_alpha_2x1 = Ok [0x646464C8; 0x1E1E1E28] /\
  tiff_read rgba_1x2 = Ok (Some [0x03020104; 0x07060508]) /\
  well_formed rgb_2x2 /\ well_formed grey_alpha_2x1 /\ well_formed rgba_1x2.
Proof.
  repeat (split; [vm_compute; reflexivity |]).
  repeat split; repeat constructor.
Qed.

(* C234.  No greyscale jpeg can be read: the reader always leaves its row. *)
Theorem grey_jpeg_refuted : forall f, well_formed f -> ra_samples f = 1%nat ->
  (0 < ra_width f)%nat -> (0 < ra_height f)%nat -> jpg_read f = UB.
Proof. exact jpg_grey_ub. Qed.
Print Assumptions grey_jpeg_refuted.

Definition grey_2x1 : raster := mk_raster 2 1 1 [[100; 200]].
Example grey_jpeg_ex :
  well_formed grey_2x1 /\ jpg_read grey_2x1 = UB /\ png_read grey_2x1 = Ok [0x646464FF; 0xC8C8C8FF].
Proof. split; [repeat split; repeat constructor | vm_compute; split; reflexivity]. Qed.

(* C235.  A jpeg of four samples (CMYK): pixel x has the samples 3x, 3x+1 and 3x+2 of its
   row.  From the second pixel on these belong to other pixels: in every row the red of the
   second pixel is the black of the first, and the last pixels of the row are not read. *)
Theorem cmyk_jpeg_refuted : forall f, well_formed f -> ra_samples f = 4%nat ->
  (2 <= ra_width f)%nat ->
  exists out, jpg_read f = Ok out /\ length out = (ra_width f * ra_height f)%nat /\
  forall y, (y < ra_height f)%nat ->
    exists p black, nth_error out (y * ra_width f + 1) = Some p /\
      sample f 0 y 3 = Some black /\ px_red p = black.
Proof.
  intros f W S Hw. destruct (jpg_four_pixels f W S) as (out & E & L & P).
  exists out. split; [exact E |]. split; [exact L |]. intros y Hy.
  destruct (P 1%nat y ltac:(lia) Hy) as (p & row & r & g & b & Ep & Er & E0 & _ & _ & C).
  exists p, r. split; [exact Ep |]. split.
  - rewrite (sample_of f 0 y 3 row Er). exact E0.
  - unfold channels in C. congruence.
Qed.
Print Assumptions cmyk_jpeg_refuted.

(* two pictures with the same pixel at the right, shown with different colours there *)
Definition cmyk_a : raster := mk_raster 2 1 4 [[10; 20; 30; 40; 1; 2; 3; 4]].
Definition cmyk_b : raster := mk_raster 2 1 4 [[10; 20; 30; 99; 1; 2; 3; 4]].
Example cmyk_jpeg_ex :
  well_formed cmyk_a /\ well_formed cmyk_b /\
  colour_at cmyk_a 1 0 = colour_at cmyk_b 1 0 /\
  jpg_read cmyk_a = Ok [0x1E140AFF; 0x020128FF] /\ jpg_read cmyk_b = Ok [0x1E140AFF; 0x020163FF].
Proof.
  split; [repeat split; repeat constructor |]. split; [repeat split; repeat constructor |].
  vm_compute. repeat split; reflexivity.
Qed.

(* C236.  An extension stands for the same format whether the image is written, checked,
   read or only asked for, and that format is available; with libtiff and libjpeg both found
   or both missing this holds for the dimensions too. *)
Ltac ext_cases ext :=
  repeat match goal with
  | |- context [String.eqb ext ?s] => destruct (String.eqb_spec ext s); [subst ext |]
  end.

Theorem extensions_agree : forall l ext,
  valid_format l ext = write_format l ext /\
  read_format l ext = write_format l ext /\
  (supported l ext = true <-> write_format l ext <> None) /\
  (jpeg_found l = tiff_found l -> dimensions_format l ext = write_format l ext) /\
  (forall k, write_format l ext = Some k <-> extension_of k ext /\ available l k).
Proof.
  intros [j p t] ext.
  unfold valid_format, read_format, write_format, dimensions_format, supported, is_jpg, is_tiff.
  cbn [jpeg_found png_found tiff_found].
  ext_cases ext; cbn [String.eqb Ascii.eqb Bool.eqb orb andb]; rewrite ?andb_false_r, ?andb_true_r.
  all: split; [| split; [| split; [| split]]].
  all: try (destruct j, p, t; first [reflexivity | discriminate | intros; first [reflexivity | discriminate]]).
  all: try (destruct j, p, t; split; intros; first [reflexivity | discriminate | congruence]).
  all: intros []; cbn; destruct j, p, t; cbn;
    (split; [intros E; try discriminate E; split; auto | intros (E & A)];
     first [discriminate | congruence | reflexivity | (destruct E; congruence) | idtac]).
Qed.
Print Assumptions extensions_agree.

Example extensions_ex :
  write_format (mk_libs true true true) "jpeg"%string = Some Jpg /\
  write_format (mk_libs false true true) "jpeg"%string = None /\
  dimensions_format (mk_libs true true true) "tif"%string = Some Tiff /\
  supported (mk_libs true true true) "JPG"%string = false.
Proof. repeat split. Qed.

(* C237.  With libtiff and without libjpeg every tiff texture is accepted and loaded with
   sides that were never set. *)
Theorem tiff_without_jpeg_refuted : forall l ext file junk,
  tiff_found l = true -> jpeg_found l = false -> extension_of Tiff ext ->
  an_valid (file Tiff) = true ->
  supported l ext = true /\ valid_format l ext = Some Tiff /\ read_format l ext = Some Tiff /\
  dimensions_format l ext = None /\ load_texture l ext file junk = UB.
Proof.
  intros [j p t] ext file junk T J [-> | ->] V; cbn in T, J; subst t j;
    unfold load_texture; cbn -[an_valid]; destruct p; cbn -[an_valid]; rewrite V; repeat split.
Qed.
Print Assumptions tiff_without_jpeg_refuted.

Example tiff_without_jpeg_ex :
  load_texture (mk_libs false true true) "tif"%string (fun _ => tiff_answers rgb_2x2) (fun n => repeat 0 n) = UB /\
  load_texture (mk_libs true true true) "tif"%string (fun _ => tiff_answers rgb_2x2) (fun n => repeat 0 n) =
    Ok (Some (2%nat, [0x030201FF; 0x060504FF; 0x090807FF; 0x0C0B0AFF])).
Proof. vm_compute. split; reflexivity. Qed.

(* C238.  A greyscale tiff (one or two samples) whose side is a power of two is accepted as a
   texture, and the texture is whatever malloc returned. *)
Theorem grey_tiff_refuted : forall l ext file junk f,
  tiff_found l = true -> jpeg_found l = true -> extension_of Tiff ext ->
  file Tiff = tiff_answers f -> ra_samples f = 1%nat \/ ra_samples f = 2%nat ->
  ra_width f = ra_height f -> power_of_2 (ra_height f) = true ->
  load_texture l ext file junk = Ok (Some (ra_width f, junk (ra_width f * ra_height f)%nat)).
Proof.
  intros [j p t] ext file junk f T J X F S Q P2; cbn in T, J; subst t j.
  assert (R : tiff_read f = Ok None).
  { unfold tiff_read. destruct S as [-> | ->]; reflexivity. }
  assert (L : forall a, a = tiff_answers f ->
    (if an_valid a then
       match an_dims a with
       | None => UB
       | Some (w, h) =>
           if (w =? h)%nat && power_of_2 h then
             let! v := an_read a in
             Ok (Some (w, match v with Some v => v | None => junk (w * h)%nat end))
           else Ok None
       end
     else Ok None) = Ok (Some (ra_width f, junk (ra_width f * ra_height f)%nat))).
  { intros a ->. unfold tiff_answers. cbn [an_valid an_dims an_read]. rewrite P2, R, Q, Nat.eqb_refl.
    reflexivity. }
  destruct X as [-> | ->]; unfold load_texture; cbn [valid_format dimensions_format read_format];
    destruct p; apply L; exact F.
Qed.
Print Assumptions grey_tiff_refuted.

Definition grey_2x2 : raster := mk_raster 2 2 1 [[10; 20]; [30; 40]].
Example grey_tiff_ex :
  well_formed grey_2x2 /\
  load_texture (mk_libs true true true) "tiff"%string (fun _ => tiff_answers grey_2x2) (fun n => repeat 7 n) =
    Ok (Some (2%nat, [7; 7; 7; 7])).
Proof. split; [repeat split; repeat constructor | vm_compute; reflexivity]. Qed.

(* C239.  A square image with a power of two as side becomes a texture with its own pixels,
   whatever was in memory: png files with any samples, rgb jpeg files, tiff files of three or
   four samples (with libjpeg too). *)
Definition answers_of (k : format) (f : raster) : answers :=
  match k with Jpg => jpg_answers f | Png => png_answers f | _ => tiff_answers f end.
Definition readable_samples (k : format) (n : nat) : Prop :=
  match k with
  | Jpg => n = 3%nat
  | Png => (1 <= n <= 4)%nat
  | Tiff => n = 3%nat \/ n = 4%nat
  | _ => False
  end.

Theorem texture_has_file_pixels : forall l k ext file f,
  available l k -> jpeg_found l = tiff_found l -> extension_of k ext ->
  readable_samples k (ra_samples f) -> well_formed f -> file k = answers_of k f ->
  ra_width f = ra_height f -> power_of_2 (ra_height f) = true ->
  exists out, shows out f /\
    forall junk, load_texture l ext file junk = Ok (Some (ra_width f, out)).
Proof.
  intros l k ext file f A JT X S W F Q P2.
  destruct (extensions_agree l ext) as (V & R & _ & D & K).
  assert (KF : write_format l ext = Some k) by (apply K; split; assumption).
  specialize (D JT). rewrite KF in V, R, D.
  assert (RD : exists out, an_read (answers_of k f) = Ok (Some out) /\ shows out f).
  { destruct k; try contradiction; cbn [readable_samples answers_of] in *.
    - destruct (jpg_read_shows f W S) as (out & E & H). exists out. cbn. rewrite E. split; [reflexivity | exact H].
    - destruct (png_read_shows f W S) as (out & E & H). exists out. cbn. rewrite E. split; [reflexivity | exact H].
    - exact (tiff_read_shows f W S). }
  destruct RD as (out & E & H). exists out. split; [exact H |]. intros junk.
  unfold load_texture. rewrite V, D, R, F, E.
  assert (AD : an_valid (answers_of k f) = true /\ an_dims (answers_of k f) = Some (ra_width f, ra_height f)).
  { destruct k; split; reflexivity. }
  destruct AD as (-> & ->). rewrite P2, Q, Nat.eqb_refl. reflexivity.
Qed.
Print Assumptions texture_has_file_pixels.

Example texture_has_file_pixels_ex :
  load_texture (mk_libs true true true) "png"%string (fun _ => png_answers grey_2x2) (fun n => repeat 7 n) =
    Ok (Some (2%nat, [0x0A0A0AFF; 0x141414FF; 0x1E1E1EFF; 0x282828FF])) /\
  load_texture (mk_libs true true true) "jpg"%string (fun _ => jpg_answers rgb_2x2) (fun n => repeat 7 n) =
    Ok (Some (2%nat, [0x030201FF; 0x060504FF; 0x090807FF; 0x0C0B0AFF])).
Proof. vm_compute. split; reflexivity. Qed.
