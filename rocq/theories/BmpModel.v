(* Model of src/utility/imageio/bmp.c (whole file) on a little-endian machine.

   A file is the list of its bytes.  fopen, malloc and fwrite are assumed to
   succeed (for non-negative sizes); reading a file that does not exist is not
   modelled. *)
From Verif Require Import Common ArrayIO PixelModel.
Local Open Scope Z_scope.

Definition BMP_MAGIC : N := 19778.                       (* bmp.c:6 *)

(* bmp.c:8-13, for bpp = 24.  (1 << 24) & 0xFFFF is 0; the sub-expressions are
   int computations, the sum is size_t and is returned as uint32_t. *)
Definition bmp_size24 (width height : Z) : res N :=
  let! a := ck (width * 24) in
  let! b := ck (a + 31) in
  let! c := ck (height * (Z.quot b 32)) in
  let! d := ck (4 * (Z.land (Z.shiftl 1 24) 0xFFFF + c)) in
  Ok (pat32 (14 + 40 + d)).

(* bmp.c:61-77 with the packed structs of bmp.h:26-66 laid out in bytes *)
Definition create_bmp_header (width height : Z) : res (list N) :=
  let! size := bmp_size24 width height in
  let! nh := ck (- Z.abs height) in
  Ok (le16 BMP_MAGIC ++ le32 size ++ le16 0 ++ le16 0 ++ le32 54 ++
      le32 40 ++ le32 (pat32 width) ++ le32 (pat32 nh) ++ le16 1 ++ le16 24 ++
      le32 0 ++ le32 0 ++ le32 0 ++ le32 0 ++ le32 0 ++ le32 0).

(* bmp.c:101-107, n iterations starting at x *)
Fixpoint bmp_write_row (n : nat) (width y x : Z) (data : list N) : res (list N) :=
  match n with
  | O => Ok []
  | S n =>
      let! yw := ck (y * width) in
      let! i := ck (yw + x) in
      let! p := rd data i in
      let! rest := bmp_write_row n width y (x + 1) data in
      Ok (px_blue p :: px_green p :: px_red p :: rest)
  end.

(* bmp.c:99-109, n iterations starting at y; [pad] are the bytes of the row
   buffer after the pixels, which the code never initialises *)
Fixpoint bmp_write_rows (n : nat) (width y : Z) (pad : list N) (data : list N)
  : res (list N) :=
  match n with
  | O => Ok []
  | S n =>
      let! row := bmp_write_row (Z.to_nat width) width y 0 data in
      let! rest := bmp_write_rows n width (y + 1) pad data in
      Ok (row ++ pad ++ rest)
  end.

(* bmp.c:79-115, for width >= 0 and height >= 0 (for negative arguments see
   bmp_write below).  [garbage] is the content of the fresh malloc block.
   data_idx counts 3 per pixel and is compared with width*height*bpp. *)
Definition bmp_write (garbage : nat -> N) (width height : Z) (data : list N)
  : res (list N * bool) :=
  if ((width <? 0) || (height <? 0))%bool then UB (* not modelled *) else
  let! hdr := create_bmp_header width height in
  let! wb := ck (width * 3) in
  let padding := Z.rem wb 4 in
  let! rowlen := ck (wb + padding) in
  let pad := map garbage (seq 0 (Z.to_nat padding)) in
  let! rows := bmp_write_rows (Z.to_nat height) width 0 pad data in
  let! wh := ck (width * height) in
  let! total := ck (wh * 3) in
  Ok (hdr ++ rows, (total =? wh * 3)%Z).

(* Header fields of a file that is long enough (the callers check the length,
   as fread does). *)
Definition byte (l : list N) (i : nat) : N := nth i l 0%N.
Definition f16 (l : list N) (i : nat) : N := dle16 (byte l i) (byte l (1 + i)).
Definition f32 (l : list N) (i : nat) : N :=
  dle32 (byte l i) (byte l (1 + i)) (byte l (2 + i)) (byte l (3 + i)).

Definition h_signature (f : list N) : N := f16 f 0.       (* bmp.h:29 *)
Definition h_file_size (f : list N) : N := f32 f 2.       (* bmp.h:31 *)
Definition h_data_offset (f : list N) : N := f32 f 10.    (* bmp.h:37 *)
Definition h_width (f : list N) : Z := int32 (f32 f 18).  (* bmp.h:47 *)
Definition h_height (f : list N) : Z := int32 (f32 f 22). (* bmp.h:49 *)
Definition h_bpp (f : list N) : N := f16 f 28.            (* bmp.h:53 *)
Definition h_compression (f : list N) : N := f32 f 30.    (* bmp.h:55 *)
Definition h_palette (f : list N) : N := f32 f 46.        (* bmp.h:63 *)

(* both fread calls succeed *)
Definition has_header (f : list N) : bool := (14 + 40 <=? length f)%nat.

(* bmp.c:15-34 *)
Definition bmp_valid (f : list N) : bool :=
  (has_header f && (h_signature f =? BMP_MAGIC)%N &&
   (h_compression f =? 0)%N && (h_palette f =? 0)%N &&
   ((h_bpp f =? 24)%N || (h_bpp f =? 32)%N))%bool.

(* bmp.c:36-59; None: returns 0 *)
Definition bmp_dimensions (f : list N) : res (option (Z * Z)) :=
  if (has_header f && (h_signature f =? BMP_MAGIC)%N)%bool then
    let height := h_height f in
    if 0 <=? height then Ok (Some (h_width f, height))
    else let! nh := ck (- height) in Ok (Some (h_width f, nh))
  else Ok None.

(* bmp.c:164-171; the three |= commute *)
Definition bmp_read_pixel (bpp : Z) (row : list N) (x : Z) : res N :=
  let! b := rd row (x * bpp + 0) in
  let! g := rd row (x * bpp + 1) in
  let! r := rd row (x * bpp + 2) in
  let pixel := px_make r g b in
  if bpp =? 4 then
    let! a := rd row (x * bpp + 3) in
    Ok (N.land pixel (N.lor a 0xFFFFFF00))
  else Ok pixel.

(* bmp.c:161-174, n iterations from x *)
Fixpoint bmp_read_row (n : nat) (row : list N) (bpp width y x : Z) (buf : list N)
  : res (list N) :=
  match n with
  | O => Ok buf
  | S n =>
      let! p := bmp_read_pixel bpp row x in
      let! yw := ck (y * width) in
      let! i := ck (yw + x) in
      let! buf := upd buf i p in
      bmp_read_row n row bpp width y (x + 1) buf
  end.

(* bmp.c:159-177; n is the number of values between y and ymax, each
   iteration moves y by one towards ymax.  fread of an item of size 0, or of
   more bytes than are left, returns 0. *)
Fixpoint bmp_read_rows (n : nat) (bpp width rowlen inc y written : Z)
  (stream : list N) (buf : list N) : res (list N * Z) :=
  match n with
  | O => Ok (buf, written)
  | S n =>
      if ((rowlen =? 0) || (Z.of_nat (length stream) <? rowlen))%bool
      then Ok (buf, written)
      else
        let row := firstn (Z.to_nat rowlen) stream in
        let! buf := bmp_read_row (Z.to_nat width) row bpp width y 0 buf in
        let! written := ck (written + width) in
        bmp_read_rows n bpp width rowlen inc (y + inc) written
          (skipn (Z.to_nat rowlen) stream) buf
  end.

(* bmp.c:117-184 *)
Definition bmp_read (f : list N) (buf : list N) : res (list N * bool) :=
  if negb (bmp_valid f) then Ok (buf, false)          (* lines 127-133 *)
  else
    let height := h_height f in
    let width := h_width f in
    let bpp := Z.of_N (N.shiftr (h_bpp f) 3) in
    let! wb := ck (width * bpp) in
    let padding := Z.rem wb 4 in
    let! nh := ck (- height) in
    if height =? 0 then UB                            (* division by zero, line 143 *)
    else
      let inc := Z.quot nh (Z.abs height) in
      let! rowlen := ck (wb + padding) in
      (* malloc of a negative size fails and fread would use a null pointer *)
      if rowlen <? 0 then UB
      else
        let stream := skipn (N.to_nat (h_data_offset f)) f in   (* line 158 *)
        let habs := if inc <? 0 then height else nh in
        let y0 := if inc <? 0 then height - 1 else 0 in
        let! (buf, written) :=
          bmp_read_rows (Z.to_nat habs) bpp width rowlen inc y0 0 stream buf in
        let! total := ck (habs * width) in
        Ok (buf, written =? total).
