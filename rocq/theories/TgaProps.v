(* C06, C07, C08: TGA images. *)
From Verif Require Import Common ByteLemmas ArrayIO PixelModel TgaModel TgaSpec TgaProofs2.
Local Open Scope Z_scope.

(* C06.  Every image whose sides fit the 16-bit header fields and whose byte
   count fits an int is written, has the same dimensions and reads back with
   the same colours and full alpha. *)
Theorem tga_round_trip : forall w h data buf,
  Z.of_nat w < 65536 -> Z.of_nat h < 65536 -> 3 * (Z.of_nat w * Z.of_nat h) < 2 ^ 31 ->
  length data = (w * h)%nat -> length buf = (w * h)%nat ->
  Forall (fun p => p < 2 ^ 32)%N data ->
  exists f, tga_write (Z.of_nat w) (Z.of_nat h) data = Ok (f, true) /\
    tga_valid f = true /\
    tga_dimensions f = Some (Z.of_nat w, Z.of_nat h) /\
    tga_read f buf = Ok (map (fun p => N.lor p 255) data, true).
Proof. exact tga_round_trip_pf. Qed.
Print Assumptions tga_round_trip.

Example tga_round_trip_ex :
  exists f, tga_write 3 2 [0x01020304; 0xFFFFFFFF; 0; 0x80402010; 5; 0xAABBCCDD]%N = Ok (f, true) /\
    length f = 36%nat /\ tga_read f (repeat 7%N 6) =
    Ok ([0x010203FF; 0xFFFFFFFF; 0xFF; 0x804020FF; 0xFF; 0xAABBCCFF]%N, true).
Proof. eexists. split; [vm_compute; reflexivity | split; vm_compute; reflexivity]. Qed.

(* C06.  The header stores the sides modulo 65536 and the write still reports
   success: an image with a side of 65536 or more does not round trip. *)
Theorem tga_big_side_refuted : forall w h data,
  length data = (w * h)%nat ->
  3 * (Z.of_nat w * Z.of_nat h) < 2 ^ 31 -> Z.of_nat w * 3 < 2 ^ 31 ->
  65536 <= Z.of_nat w \/ 65536 <= Z.of_nat h ->
  exists f, tga_write (Z.of_nat w) (Z.of_nat h) data = Ok (f, true) /\
    tga_dimensions f = Some (Z.of_nat w mod 65536, Z.of_nat h mod 65536) /\
    tga_dimensions f <> Some (Z.of_nat w, Z.of_nat h).
Proof.
  intros w h data Hl Hs Hw Hbig. pose proof (tga_write_ok w h data Hl Hs Hw) as E.
  set (f := raw_header _ _ _ _ _ ++ _) in E. exists f. split; [exact E |].
  destruct (tga_write_dimensions_pf w h data f true Hl Hs Hw E) as [_ D].
  split; [exact D |]. rewrite D. intros Hc. injection Hc as C1 C2.
  pose proof (Z.mod_pos_bound (Z.of_nat w) 65536 ltac:(lia)).
  pose proof (Z.mod_pos_bound (Z.of_nat h) 65536 ltac:(lia)). lia.
Qed.
Print Assumptions tga_big_side_refuted.

(* a row of 65537 pixels is announced as one pixel *)
Example tga_big_side_ex : forall n, Z.of_nat n = 65537 -> exists f,
  tga_write 65537 1 (repeat 1%N n) = Ok (f, true) /\ tga_dimensions f = Some (1, 1).
Proof.
  intros n Hn.
  assert (L : length (repeat 1%N n) = (n * 1)%nat) by (rewrite repeat_length; lia).
  destruct (tga_big_side_refuted n 1 (repeat 1%N n) L) as (f & E & D & _); try lia.
  rewrite Hn in E, D. exists f. split; [exact E | exact D].
Qed.

(* C07.  Whatever the file, reading it into a buffer of the announced size
   stays within the buffer and terminates, for uncompressed files and for
   run-length ones at least 127 pixels wide. *)
Theorem tga_read_safe : forall f buf w h,
  tga_dimensions f = Some (w, h) -> w * h < 2 ^ 31 -> Z.of_nat (length buf) = w * h ->
  (t_datatype f = 2%N \/ 127 <= w) ->
  exists buf' ok, tga_read f buf = Ok (buf', ok) /\ length buf' = length buf.
Proof. exact tga_read_safe_pf. Qed.
Print Assumptions tga_read_safe.

(* C07.  A successful read does not depend on what the buffer held before:
   every pixel comes from the file. *)
Theorem tga_read_determined : forall f b1 b2 w h r1 r2,
  tga_dimensions f = Some (w, h) -> w * h < 2 ^ 31 ->
  Z.of_nat (length b1) = w * h -> Z.of_nat (length b2) = w * h ->
  (t_datatype f = 2%N \/ 127 <= w) ->
  tga_read f b1 = Ok (r1, true) -> tga_read f b2 = Ok (r2, true) -> r1 = r2.
Proof. exact tga_read_determined_pf. Qed.
Print Assumptions tga_read_determined.

(* An invalid file is refused without touching the buffer. *)
Theorem tga_read_invalid : forall f buf, tga_dimensions f = None -> tga_read f buf = Ok (buf, false).
Proof.
  intros f buf Hd. unfold tga_dimensions in Hd. unfold tga_read.
  destruct (tga_valid f); [discriminate | reflexivity].
Qed.
Print Assumptions tga_read_invalid.

Example tga_read_safe_ex :
  let f := (raw_header 0 24 2 1 false ++ [1; 2; 3; 4; 5; 6])%N in
  tga_dimensions f = Some (2, 1) /\ t_datatype f = 2%N /\
  tga_read f [0; 0]%N = Ok ([0x010203FF; 0x040506FF]%N, true).
Proof. vm_compute. auto. Qed.
Example tga_read_safe_overrun_ex :
  let f := (rle_header 0 24 127 1 true ++ encode [Run 126 [1; 2; 3]; Run 128 [4; 5; 6]])%N in
  tga_dimensions f = Some (127, 1) /\
  exists b, tga_read f (repeat 0%N 127) = Ok (b, false).
Proof. split; [vm_compute; reflexivity | eexists; vm_compute; reflexivity]. Qed.

(* C07.  For every smaller width there is a valid file whose last run goes
   past the end of the image and makes the reader store outside the buffer. *)
Definition overrun_file (w : nat) : list N :=
  (rle_header 0 24 (N.of_nat w) 1 true ++
   encode (repeat (Raw [[1; 2; 3]]) (w - 1) ++ [Run 128 [4; 5; 6]]))%N.

Lemma overrun_sweep : forallb (fun w =>
  match tga_dimensions (overrun_file w), tga_read (overrun_file w) (repeat 0%N w) with
  | Some (a, b), UB => (a =? Z.of_nat w) && (b =? 1)
  | _, _ => false
  end)%bool (seq 1 126) = true.
Proof. vm_compute. reflexivity. Qed.

Theorem tga_read_overrun_refuted : forall w, (1 <= w <= 126)%nat ->
  exists f, tga_dimensions f = Some (Z.of_nat w, 1) /\ tga_read f (repeat 0%N w) = UB.
Proof.
  intros w Hw. exists (overrun_file w). pose proof overrun_sweep as S.
  rewrite forallb_forall in S. specialize (S w). rewrite in_seq in S. specialize (S ltac:(lia)).
  destruct (tga_dimensions (overrun_file w)) as [[a b] |]; [| discriminate].
  destruct (tga_read (overrun_file w) (repeat 0%N w)); try discriminate.
  apply andb_true_iff in S. rewrite !Z.eqb_eq in S. destruct S as [-> ->]. auto.
Qed.
Print Assumptions tga_read_overrun_refuted.

(* C08.  Run-length files made of runs and one-pixel raw packets decode to the
   packets' pixels, for every depth, row order, identifier and trailing data. *)
Theorem tga_rle_decode : forall w h td bits depth id ps trail buf,
  depth_of bits depth -> Z.of_nat w < 65536 -> Z.of_nat h < 65536 ->
  Z.of_nat w * Z.of_nat h < 2 ^ 31 -> (length id < 256)%nat -> length buf = (w * h)%nat ->
  Forall (packet_ok depth) ps -> Forall one_raw ps -> length (pixels ps) = (w * h)%nat ->
  exists buf',
    tga_read (rle_header (N.of_nat (length id)) bits (N.of_nat w) (N.of_nat h) td
                ++ id ++ encode ps ++ trail) buf = Ok (buf', true) /\
    length buf' = length buf /\
    forall x y, (x < w)%nat -> (y < h)%nat ->
      exists px, nth_error (pixels ps) (storage_index w h td x y) = Some px /\
                 nth_error buf' (y * w + x) = spec_pixel px.
Proof. exact tga_rle_decode_pf. Qed.
Print Assumptions tga_rle_decode.

Example tga_rle_decode_ex :
  let ps := [Run 3 [1; 2; 3]; Raw [[4; 5; 6]]; Run 2 [7; 8; 9]]%N in
  Forall (packet_ok 3) ps /\ Forall one_raw ps /\ length (pixels ps) = 6%nat /\
  tga_read (rle_header 2 24 2 3 false ++ [77; 78] ++ encode ps)%N (repeat 0%N 6) =
  Ok ([0x070809FF; 0x070809FF; 0x010203FF; 0x040506FF; 0x010203FF; 0x010203FF]%N, true).
Proof.
  cbv zeta. split; [repeat constructor; vm_compute; reflexivity |].
  split; [repeat constructor |]. split; vm_compute; reflexivity.
Qed.

(* C08.  A run-length file that ends early is reported as a failure. *)
Theorem tga_rle_truncated : forall w h td bits depth id ps buf,
  depth_of bits depth -> Z.of_nat w < 65536 -> Z.of_nat h < 65536 ->
  Z.of_nat w * Z.of_nat h < 2 ^ 31 -> (length id < 256)%nat -> length buf = (w * h)%nat ->
  Forall (packet_ok depth) ps -> Forall one_raw ps -> (length (pixels ps) < w * h)%nat ->
  exists buf',
    tga_read (rle_header (N.of_nat (length id)) bits (N.of_nat w) (N.of_nat h) td
                ++ id ++ encode ps) buf = Ok (buf', false).
Proof. exact tga_rle_truncated_pf. Qed.
Print Assumptions tga_rle_truncated.

(* C06/C08.  Uncompressed files of every supported depth and row order. *)
Theorem tga_raw_decode : forall w h td bits depth id pxs trail buf,
  depth_of bits depth -> Z.of_nat w < 65536 -> Z.of_nat h < 65536 ->
  Z.of_nat w * Z.of_nat h < 2 ^ 31 -> (length id < 256)%nat -> length buf = (w * h)%nat ->
  Forall (fun px => length px = depth /\ Forall is_byte px) pxs -> length pxs = (w * h)%nat ->
  exists buf',
    tga_read (raw_header (N.of_nat (length id)) bits (N.of_nat w) (N.of_nat h) td
                ++ id ++ concat pxs ++ trail) buf = Ok (buf', true) /\
    length buf' = length buf /\
    forall x y, (x < w)%nat -> (y < h)%nat ->
      exists px, nth_error pxs (storage_index w h td x y) = Some px /\
                 nth_error buf' (y * w + x) = spec_pixel px.
Proof. exact tga_raw_decode_pf. Qed.
Print Assumptions tga_raw_decode.

Example tga_raw_decode_ex :
  tga_read (raw_header 0 16 2 2 false ++ concat [[0x1F; 0]; [0xE0; 3]; [0; 0x7C]; [0xFF; 0xFF]])%N
    (repeat 0%N 4) = Ok ([0xF8FF; 0xF8F8F8FF; 0xF80000FF; 0x00F800FF]%N, true).
Proof. vm_compute. reflexivity. Qed.

(* C08.  A raw packet of two or more pixels is not decoded: only its first
   pixel is taken and its second one is read as a packet header.  A valid file
   is refused, or accepted with wrong colours. *)
Theorem tga_raw_packet_refuted :
  (exists ps, Forall (packet_ok 3) ps /\ length (pixels ps) = 2%nat /\
     exists b, tga_read (rle_header 0 24 2 1 true ++ encode ps) (repeat 0%N 2) = Ok (b, false)) /\
  (exists ps, Forall (packet_ok 3) ps /\ length (pixels ps) = 4%nat /\
     exists b, tga_read (rle_header 0 24 4 1 true ++ encode ps ++ repeat 0%N 8) (repeat 0%N 4)
               = Ok (b, true) /\
       exists px, nth_error (pixels ps) 1 = Some px /\ nth_error b 1 <> spec_pixel px).
Proof.
  split.
  - exists [Raw [[1; 2; 3]; [4; 5; 6]]]%N. split; [repeat constructor; vm_compute; reflexivity |].
    split; [reflexivity |]. eexists. vm_compute. reflexivity.
  - exists [Raw [[1; 2; 3]; [4; 5; 6]; [7; 8; 9]; [10; 11; 12]]]%N.
    split; [repeat constructor; vm_compute; reflexivity |].
    split; [reflexivity |]. eexists. split; [vm_compute; reflexivity |].
    eexists. split; [vm_compute; reflexivity |]. vm_compute. discriminate.
Qed.
Print Assumptions tga_raw_packet_refuted.
