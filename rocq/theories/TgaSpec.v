(* Specification of the TGA pixel formats and of run-length packets. *)
From Verif Require Import Common.
Local Open Scope N_scope.

(* Colour of a stored pixel as 0xBBGGRRAA; 15/16-bit pixels are little-endian
   words with 5 bits per channel (blue lowest), expanded by a factor of 8;
   24-bit ones are blue, green, red; 32-bit ones carry alpha last. *)
Definition bgra (b g r a : N) : N := b * 2 ^ 24 + g * 2 ^ 16 + r * 2 ^ 8 + a.

Definition spec_pixel (bytes : list N) : option N :=
  match bytes with
  | [b0; b1] =>
      let v := b0 + 256 * b1 in
      Some (bgra (v mod 32 * 8) (v / 32 mod 32 * 8) (v / 1024 mod 32 * 8) 255)
  | [b; g; r] => Some (bgra b g r 255)
  | [b; g; r; a] => Some (bgra b g r a)
  | _ => None
  end.

Inductive packet :=
| Run (count : nat) (px : list N)      (* one pixel repeated *)
| Raw (pxs : list (list N)).           (* consecutive pixels *)

Definition packet_ok (depth : nat) (p : packet) : Prop :=
  match p with
  | Run c px => (1 <= c <= 128)%nat /\ length px = depth /\ Forall is_byte px
  | Raw pxs => (1 <= length pxs <= 128)%nat /\
               Forall (fun px => length px = depth /\ Forall is_byte px) pxs
  end.

Definition encode_packet (p : packet) : list N :=
  match p with
  | Run c px => (128 + N.of_nat (c - 1)) :: px
  | Raw pxs => N.of_nat (length pxs - 1) :: concat pxs
  end.

Definition packet_pixels (p : packet) : list (list N) :=
  match p with
  | Run c px => repeat px c
  | Raw pxs => pxs
  end.

Definition encode (ps : list packet) : list N := concat (map encode_packet ps).
Definition pixels (ps : list packet) : list (list N) := concat (map packet_pixels ps).

(* A type 10 (run-length RGB) header. *)
Definition rle_header (id_len depth_bits width height : N) (top_down : bool) : list N :=
  [id_len; 0; 10] ++ le16 0 ++ le16 0 ++ [0] ++ le16 0 ++ le16 0 ++
  le16 width ++ le16 height ++ [depth_bits; if top_down then 0x20 else 0].

(* A type 2 (uncompressed RGB) header. *)
Definition raw_header (id_len depth_bits width height : N) (top_down : bool) : list N :=
  [id_len; 0; 2] ++ le16 0 ++ le16 0 ++ [0] ++ le16 0 ++ le16 0 ++
  le16 width ++ le16 height ++ [depth_bits; if top_down then 0x20 else 0].

(* The stored sequence lists image rows from the top or from the bottom. *)
Definition storage_index (w h : nat) (top_down : bool) (x y : nat) : nat :=
  ((if top_down then y else h - 1 - y) * w + x)%nat.

(* Packets the reader decodes correctly: runs, and raw packets of one pixel. *)
Definition one_raw (p : packet) : Prop :=
  match p with Run _ _ => True | Raw pxs => length pxs = 1%nat end.

(* Bits per pixel in the header and bytes per stored pixel. *)
Definition depth_of (bits : N) (depth : nat) : Prop :=
  In (bits, depth) [(15, 2%nat); (16, 2%nat); (24, 3%nat); (32, 4%nat)]%N.
