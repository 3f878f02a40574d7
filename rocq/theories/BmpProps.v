(* Property theorems about BMP files (C03, C04, C05). *)
From Verif Require Import Common PixelModel BmpModel BmpSpec BmpProofs BmpProofs2.
Local Open Scope Z_scope.

(* C03.  Every image whose dimensions do not overflow the int computations of
   the writer is written, accepted, reported with its dimensions, and read back
   with the same colours and alpha 255, whatever the reading buffer contained
   and whatever the uninitialised padding bytes are. *)
Theorem bmp_round_trip : forall g W H data,
  0 < W -> 0 < H -> W * 24 + 31 < 2 ^ 31 ->
  54 + 4 * (H * ((W * 24 + 31) / 32)) < 2 ^ 31 -> W * H * 3 < 2 ^ 31 ->
  Z.of_nat (length data) = W * H -> Forall (fun p => (p < 2 ^ 32)%N) data ->
  exists f, bmp_write g W H data = Ok (f, true) /\
    bmp_valid f = true /\
    bmp_dimensions f = Ok (Some (W, H)) /\
    forall buf, length buf = length data ->
      bmp_read f buf = Ok (map (fun p => N.lor p 255) data, true).
Proof. exact bmp_round_trip_lemma. Qed.
Print Assumptions bmp_round_trip.

Example bmp_round_trip_ex :
  exists f, bmp_write (fun _ => 7%N) 3 2 [1; 2; 0xFF00FF00; 0x12345678; 5; 0xFFFFFFFF]%N = Ok (f, true) /\
  bmp_read f [9; 9; 9; 9; 9; 9]%N =
  Ok ([0xFF; 0xFF; 0xFF00FFFF; 0x123456FF; 0xFF; 0xFFFFFFFF]%N, true).
Proof. eexists. split; [vm_compute; reflexivity | vm_compute; reflexivity]. Qed.

(* C04.  For every byte string accepted by bmp_dimensions with non-negative
   width and positive height (and sizes within int), reading into a buffer of
   width*height pixels is free of undefined behaviour and keeps the buffer
   size; when the reader reports success the whole buffer is determined by the
   file. *)
Theorem bmp_read_safe : forall f W H buf,
  bmp_dimensions f = Ok (Some (W, H)) ->
  0 <= W -> 1 <= H -> W * 4 + 3 < 2 ^ 31 -> W * H < 2 ^ 31 ->
  Z.of_nat (length buf) = W * H ->
  exists buf' ok, bmp_read f buf = Ok (buf', ok) /\ length buf' = length buf /\
    (ok = true -> forall buf2, length buf2 = length buf -> bmp_read f buf2 = Ok (buf', true)).
Proof. exact bmp_safe_lemma. Qed.
Print Assumptions bmp_read_safe.

(* A bottom-up 32-bit file with a foreign data offset. *)
Definition sample_file (w h : N) : list N :=
  (le16 19778 ++ le32 0 ++ le16 0 ++ le16 0 ++ le32 55 ++
   le32 40 ++ le32 w ++ le32 h ++ le16 1 ++ le16 32 ++
   le32 0 ++ le32 0 ++ le32 0 ++ le32 0 ++ le32 0 ++ le32 0 ++
   [77; 1; 2; 3; 4; 5; 6; 7; 8])%N.

Example bmp_read_safe_ex :
  bmp_dimensions (sample_file 1 2) = Ok (Some (1, 2)) /\
  bmp_read (sample_file 1 2) [0; 0]%N = Ok ([0x05060708; 0x01020304]%N, true).
Proof. split; vm_compute; reflexivity. Qed.

(* C04 fails for the remaining headers: height 0 divides by zero, and a
   negative width is accepted and makes the row buffer size negative. *)
Theorem bmp_read_zero_height_refuted : forall f W buf,
  bmp_valid f = true -> bmp_dimensions f = Ok (Some (W, 0)) -> bmp_read f buf = UB.
Proof. exact bmp_zero_height_lemma. Qed.
Print Assumptions bmp_read_zero_height_refuted.

Theorem bmp_read_negative_width_refuted : forall f W H buf,
  bmp_valid f = true -> bmp_dimensions f = Ok (Some (W, H)) -> W < 0 -> bmp_read f buf = UB.
Proof. exact bmp_negative_width_lemma. Qed.
Print Assumptions bmp_read_negative_width_refuted.

Example bmp_refuted_ex :
  bmp_valid (sample_file 1 0) = true /\ bmp_dimensions (sample_file 1 0) = Ok (Some (1, 0)) /\
  bmp_valid (sample_file 0xFFFFFFFF 1) = true /\
  bmp_dimensions (sample_file 0xFFFFFFFF 1) = Ok (Some (-1, 1)).
Proof. repeat split; vm_compute; reflexivity. Qed.

(* C05.  For even widths the written file conforms to the format: its size
   field is the number of bytes and a standard decoder finds every pixel. *)
Theorem bmp_conformant_even_width : forall g W H data,
  0 < W -> 0 < H -> W * 24 + 31 < 2 ^ 31 ->
  54 + 4 * (H * ((W * 24 + 31) / 32)) < 2 ^ 31 -> W * H * 3 < 2 ^ 31 ->
  Z.even W = true ->
  Z.of_nat (length data) = W * H -> Forall (fun p => (p < 2 ^ 32)%N) data ->
  (forall i, (g i < 256)%N) ->
  exists f, bmp_write g W H data = Ok (f, true) /\
    std_file_size f = Some (N.of_nat (length f)) /\
    forall x y, 0 <= x < W -> 0 <= y < H ->
      exists p, nth_error data (Z.to_nat (y * W + x)) = Some p /\
      std_bmp24_pixel f x y = Some (px_red p, px_green p, px_blue p).
Proof. exact bmp_conformant_even_lemma. Qed.
Print Assumptions bmp_conformant_even_width.

Example bmp_conformant_even_ex :
  exists f, bmp_write (fun _ => 7%N) 2 2 [0x01020300; 0x04050600; 0x07080900; 0x0A0B0C00]%N = Ok (f, true) /\
  std_bmp24_pixel f 1 1 = Some (0xC, 0xB, 0xA)%N /\ std_file_size f = Some 70%N.
Proof.
  eexists. split; [vm_compute; reflexivity |].
  split; [vm_compute; reflexivity | vm_compute; reflexivity].
Qed.

(* C05 fails for every odd width: the size field differs from the number of
   bytes and no row starts on the prescribed 4-byte boundary. *)
Theorem bmp_odd_width_refuted : forall g W H data,
  0 < W -> 0 < H -> W * 24 + 31 < 2 ^ 31 ->
  54 + 4 * (H * ((W * 24 + 31) / 32)) < 2 ^ 31 -> W * H * 3 < 2 ^ 31 ->
  Z.odd W = true ->
  Z.of_nat (length data) = W * H ->
  exists f n, bmp_write g W H data = Ok (f, true) /\
    std_file_size f = Some n /\ n <> N.of_nat (length f) /\
    (exists s, Z.of_nat (length f) = 54 + H * s /\ s mod 4 = 2).
Proof. exact bmp_nonconformant_odd_lemma. Qed.
Print Assumptions bmp_odd_width_refuted.

Example bmp_odd_width_ex :
  exists f, bmp_write (fun _ => 7%N) 1 2 [0x01020300; 0x04050600]%N = Ok (f, true) /\
  std_bmp24_pixel f 0 1 <> Some (6, 5, 4)%N.
Proof. eexists. split; [vm_compute; reflexivity | vm_compute; discriminate]. Qed.

(* C05, reading side: for 24-bit files of even width the reader returns what
   the format prescribes, top-down or bottom-up. *)
Theorem bmp_read_conformant_even_width : forall f W H buf buf',
  Forall (fun b => (b < 256)%N) f ->
  bmp_valid f = true -> h_bpp f = 24%N ->
  bmp_dimensions f = Ok (Some (W, H)) ->
  0 < W -> 1 <= H -> W * 4 + 3 < 2 ^ 31 -> W * H < 2 ^ 31 -> Z.even W = true ->
  Z.of_nat (length buf) = W * H ->
  bmp_read f buf = Ok (buf', true) ->
  forall x y, 0 <= x < W -> 0 <= y < H ->
    exists r g b, std_bmp24_pixel f x y = Some (r, g, b) /\
      nth_error buf' (Z.to_nat (y * W + x)) = Some (px_make r g b).
Proof. exact bmp_read_standard_lemma. Qed.
Print Assumptions bmp_read_conformant_even_width.

Definition sample_file24 : list N :=
  (le16 19778 ++ le32 70 ++ le16 0 ++ le16 0 ++ le32 54 ++
   le32 40 ++ le32 2 ++ le32 2 ++ le16 1 ++ le16 24 ++
   le32 0 ++ le32 0 ++ le32 0 ++ le32 0 ++ le32 0 ++ le32 0 ++
   [1; 2; 3; 4; 5; 6; 0; 0; 7; 8; 9; 10; 11; 12; 0; 0])%N.

Example bmp_read_conformant_ex :
  bmp_read sample_file24 [0; 0; 0; 0]%N =
    Ok ([0x070809FF; 0x0A0B0CFF; 0x010203FF; 0x040506FF]%N, true) /\
  std_bmp24_pixel sample_file24 1 0 = Some (12, 11, 10)%N.
Proof. split; vm_compute; reflexivity. Qed.
