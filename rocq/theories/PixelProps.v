(* Property theorems about pixel buffers (C10). *)
From Verif Require Import Common PixelModel PixelProofs.
Local Open Scope N_scope.

(* C10.  BGRA to RGB and back keeps the colour channels (every bit above the
   alpha byte) and sets alpha to 255. *)
Theorem bgra_rgb_bgra : forall l, Forall (fun p => p < 2 ^ 32) l ->
  rgb_to_bgra (bgra_to_rgb l) = Ok (map (fun p => N.lor p 255) l).
Proof. exact rgb_of_bgra. Qed.
Print Assumptions bgra_rgb_bgra.

Example bgra_rgb_bgra_ex :
  rgb_to_bgra (bgra_to_rgb [0x11223344; 0xFFEEDD00]) = Ok [0x112233FF; 0xFFEEDDFF].
Proof. vm_compute. reflexivity. Qed.

(* C10.  RGB bytes to BGRA and back is the identity, and the conversion is
   defined for every length that is a multiple of three. *)
Theorem rgb_bgra_rgb : forall l q, Forall (fun b => b < 256) l ->
  rgb_to_bgra l = Ok q -> bgra_to_rgb q = l.
Proof. exact bgra_of_rgb. Qed.
Print Assumptions rgb_bgra_rgb.

Theorem rgb_to_bgra_defined : forall l, (exists k, length l = 3 * k)%nat ->
  exists q, rgb_to_bgra l = Ok q /\ (3 * length q = length l)%nat.
Proof. exact rgb_to_bgra_total. Qed.
Print Assumptions rgb_to_bgra_defined.

Example rgb_bgra_rgb_ex :
  rgb_to_bgra [1; 2; 3; 250; 251; 252] = Ok [0x030201FF; 0xFCFBFAFF].
Proof. vm_compute. reflexivity. Qed.

(* The channels of an assembled pixel do not bleed into each other. *)
Theorem px_channels_independent : forall r g b, r < 256 -> g < 256 -> b < 256 ->
  px_red (px_make r g b) = r /\ px_green (px_make r g b) = g /\
  px_blue (px_make r g b) = b /\ px_alpha (px_make r g b) = 255 /\
  px_make r g b < 2 ^ 32.
Proof. exact px_make_channels. Qed.
Print Assumptions px_channels_independent.
