(* Model of src/utility/imageio/tga.c (whole file) on a little-endian machine.

   A file is the list of its bytes; fopen, malloc and fwrite are assumed to
   succeed. *)
From Verif Require Import Common ArrayIO PixelModel.
Local Open Scope Z_scope.

(* Field access in a header known to be 18 bytes long (tga.h:26-52, packed). *)
Definition tbyte (l : list N) (i : nat) : N := nth i l 0%N.
Definition t16 (l : list N) (i : nat) : N := dle16 (tbyte l i) (tbyte l (1 + i)).
Definition t_id_len (f : list N) : N := tbyte f 0.
Definition t_cmap_type (f : list N) : N := tbyte f 1.
Definition t_datatype (f : list N) : N := tbyte f 2.
Definition t_cmap_len (f : list N) : N := t16 f 5.
Definition t_width (f : list N) : N := t16 f 12.
Definition t_height (f : list N) : N := t16 f 14.
Definition t_bpp (f : list N) : N := tbyte f 16.
Definition t_descriptor (f : list N) : N := tbyte f 17.

Definition TGA_RGB : N := 0x2.              (* tga.c:9 *)
Definition TGA_RGB_RLE : N := 0xA.          (* tga.c:12 *)
Definition TGA_UPPER_ORIGIN : N := 0x20.    (* tga.c:16 *)

(* tga.c:18-39 *)
Definition valid_header (f : list N) : bool :=
  (((t_datatype f =? TGA_RGB)%N || (t_datatype f =? TGA_RGB_RLE)%N) &&
   ((t_bpp f =? 24)%N || (t_bpp f =? 32)%N || (t_bpp f =? 16)%N || (t_bpp f =? 15)%N) &&
   (t_cmap_type f =? 0)%N &&
   ((N.land (t_descriptor f) 0xF0 =? 0)%N ||
    (N.land (t_descriptor f) 0xF0 =? TGA_UPPER_ORIGIN)%N))%bool.

(* tga.c:60-72; the fread of the header must succeed *)
Definition tga_valid (f : list N) : bool := ((18 <=? length f)%nat && valid_header f)%bool.

(* tga.c:41-58; None: returns 0 *)
Definition tga_dimensions (f : list N) : option (Z * Z) :=
  if tga_valid f then Some (Z.of_N (t_width f), Z.of_N (t_height f)) else None.

(* ---- writer ---- *)

(* tga.c:96-103, n iterations from x *)
Fixpoint tga_write_row (n : nat) (width y x : Z) (data : list N) : res (list N) :=
  match n with
  | O => Ok []
  | S n =>
      let! yw := ck (y * width) in
      let! i := ck (yw + x) in
      let! p := rd data i in
      let! rest := tga_write_row n width y (x + 1) data in
      Ok (px_blue p :: px_green p :: px_red p :: rest)
  end.

(* tga.c:94-105, n iterations from y *)
Fixpoint tga_write_rows (n : nat) (width y : Z) (data : list N) : res (list N) :=
  match n with
  | O => Ok []
  | S n =>
      let! row := tga_write_row (Z.to_nat width) width y 0 data in
      let! rest := tga_write_rows n width (y + 1) data in
      Ok (row ++ rest)
  end.

(* tga.c:74-111, for non-negative width and height.  The header is zeroed and
   the fields set at lines 87-91; (uint16_t) truncates. *)
Definition tga_write (width height : Z) (data : list N) : res (list N * bool) :=
  if ((width <? 0) || (height <? 0))%bool then UB (* not modelled *) else
  let hdr := ([0; 0; TGA_RGB] ++ le16 0 ++ le16 0 ++ [0] ++ le16 0 ++ le16 0 ++
              le16 (u16 (Z.to_N width)) ++ le16 (u16 (Z.to_N height)) ++
              [N.shiftl 3 3; TGA_UPPER_ORIGIN])%N in
  let! wb := ck (width * 3) in
  let! rows := tga_write_rows (Z.to_nat height) width 0 data in
  let! wh := ck (width * height) in
  let! total := ck (wh * 3) in
  Ok (hdr ++ rows, total =? wh * 3).

(* ---- reader ---- *)

(* The pixel assembled from the bytes starting at [o] of the item:
   tga.c:162-186 (o = 0), 198-222 and 243-267 (o = 1). *)
Definition tga_px (bpp : Z) (l : list N) (o : nat) : N :=
  let p0 := tbyte l o in
  let p1 := tbyte l (1 + o) in
  let p2 := tbyte l (2 + o) in
  let p3 := tbyte l (3 + o) in
  if bpp =? 3 then
    N.lor (N.lor (N.lor 0x000000FF (N.shiftl p2 8)) (N.shiftl p1 16)) (N.shiftl p0 24)
  else if bpp =? 4 then
    N.lor (N.lor (N.lor (N.lor 0 p3) (N.shiftl p2 8)) (N.shiftl p1 16)) (N.shiftl p0 24)
  else
    N.lor (N.lor (N.lor 0x000000FF
      (N.shiftl (N.shiftl (N.land p1 0x7C) 1) 8))
      (N.shiftl (N.lor (N.shiftl (N.land p1 0x03) 6) (N.shiftr (N.land p0 0xE0) 2)) 16))
      (N.shiftl (N.shiftl (N.land p0 0x1F) 3) 24).

Record st := mk_st {
  sx : Z;         (* x, tga.c:132 *)
  sy : Z;         (* y, tga.c:133 *)
  si : Z;         (* i, tga.c:136 *)
  sw : Z;         (* written, tga.c:139; its increments are not checked for
                     overflow: it is at most the number of stores *)
  sbuf : list N   (* values *)
}.

(* One store with i++, written++, x++: tga.c:162-189, 198-225, 243-270.  The
   successive |= on values[i] are one store of the assembled pixel. *)
Definition tga_store (p : N) (s : st) : res st :=
  let! b := upd (sbuf s) (si s) p in
  Ok (mk_st (sx s + 1) (sy s) (si s + 1) (sw s + 1) b).

(* tga.c:226-238 *)
Definition tga_wrap (width inc ymax : Z) (s : st) : res st :=
  if sx s =? width then
    let y := sy s + inc in
    let s := if y =? ymax
             then mk_st width (ymax - inc) (si s) (sw s) (sbuf s)
             else mk_st 0 y (si s) (sw s) (sbuf s) in
    let! i := ck (sy s * width) in
    Ok (mk_st (sx s) (sy s) i (sw s) (sbuf s))
  else Ok s.

(* tga.c:196-239, n iterations left *)
Fixpoint tga_run (n : nat) (width inc ymax : Z) (p : N) (s : st) : res st :=
  match n with
  | O => Ok s
  | S n =>
      let! s := tga_store p s in
      let! s := tga_wrap width inc ymax s in
      tga_run n width inc ymax p s
  end.

(* tga.c:158-274: while(x<WIDTH && fread(&pixel, BPP+COMPRESSED, 1, fin)).
   A short read consumes what is left. *)
Fixpoint tga_inner (fuel : nat) (bpp : Z) (compressed : bool) (width inc ymax : Z)
  (stream : list N) (s : st) : res (st * list N) :=
  match fuel with
  | O => OutOfFuel
  | S fuel =>
      if sx s <? width then
        let size := Z.to_nat (bpp + (if compressed then 1 else 0)) in
        if (length stream <? size)%nat then Ok (s, [])
        else
          let pixel := firstn size stream in
          let rest := skipn size stream in
          let! s :=
            if compressed then
              if negb (N.land (tbyte pixel 0) 0x80 =? 0)%N then
                tga_run (N.to_nat (1 + N.land (tbyte pixel 0) 0x7F)) width inc ymax
                  (tga_px bpp pixel 1) s
              else tga_store (tga_px bpp pixel 1) s
            else tga_store (tga_px bpp pixel 0) s in
          tga_inner fuel bpp compressed width inc ymax rest s
      else Ok (s, stream)
  end.

(* tga.c:154-276 *)
Fixpoint tga_outer (fuel : nat) (bpp : Z) (compressed : bool) (width inc ymax : Z)
  (stream : list N) (s : st) : res st :=
  if sy s =? ymax then Ok s
  else
    match fuel with
    | O => OutOfFuel
    | S fuel =>
        let! i := ck (sy s * width) in
        let! (s, stream) := tga_inner (S (length stream)) bpp compressed width inc ymax stream
                              (mk_st 0 (sy s) i (sw s) (sbuf s)) in
        tga_outer fuel bpp compressed width inc ymax stream
          (mk_st (sx s) (sy s + inc) (si s) (sw s) (sbuf s))
    end.

(* tga.c:113-281; the fuel of the outer loop is HEIGHT+1. *)
Definition tga_read (f : list N) (buf : list N) : res (list N * bool) :=
  if negb (tga_valid f) then Ok (buf, false)
  else
    let bpp := if (t_bpp f =? 15)%N then 2 else Z.of_N (N.shiftr (t_bpp f) 3) in
    let compressed := (t_datatype f =? TGA_RGB_RLE)%N in
    let width := Z.of_N (t_width f) in
    let height := Z.of_N (t_height f) in
    let skipme := (t_id_len f + t_cmap_type f * t_cmap_len f)%N in
    let top_down := negb (N.land (t_descriptor f) TGA_UPPER_ORIGIN =? 0)%N in
    let inc := if top_down then 1 else -1 in
    let ymax := if top_down then height else -1 in
    let y := if top_down then 0 else height - 1 in
    let stream := skipn (N.to_nat skipme) (skipn 18 f) in    (* lines 121, 153 *)
    let! s := tga_outer (S (Z.to_nat height)) bpp compressed width inc ymax stream
                (mk_st 0 y 0 0 buf) in
    let! total := ck (width * height) in
    Ok (sbuf s, total =? sw s).
