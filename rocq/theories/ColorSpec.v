(* What is expected of colours and spectra, without the definitions of the model. *)
From Coq Require Import Reals List.
From Verif Require Import Common ColorModel.
Import ListNotations.
Local Open Scope R_scope.

(* the wavelengths a user reads in the documentation: 400 to 700 nm every 20 nm *)
Definition nm (i : nat) : R := (400 + 20 * INR i) * 1e-9.

(* Planck's law for the radiance of a black body, with the constants in SI units *)
Definition planck (t lambda : R) : R :=
  2 * 6.62606957e-34 * 299792458 ^ 2 / lambda ^ 5 / (exp (6.62606957e-34 * 299792458 / (1.38064852e-23 * lambda * t)) - 1).

(* a byte *)
Definition byte (z : Z) : Prop := (0 <= z <= 255)%Z.

(* the colour shown for a spectrum *)
Definition shown (b : build) (w : spectrum) : color := to_srgb (to_xyz b w).

(* light reflected n times by surfaces of one spectrum, in a build *)
Fixpoint bounces (b : build) (n : nat) (surface light : spectrum) : spectrum :=
  match n with O => light | Datatypes.S n => pointwise Rmult b surface (bounces b n surface light) end.

(* a colour as a mixture, symmetric in the three channels: the common part is white, what two channels
   have in common beyond it is their mixture, what only one has is that one *)
Definition mixture (t : basis) (r g b : R) (i : nat) : R :=
  let lo := Rmin r (Rmin g b) in
  nth i (t_white t) 0 * lo
  + nth i (t_cyan t) 0 * (Rmin g b - lo) + nth i (t_magenta t) 0 * (Rmin r b - lo) + nth i (t_yellow t) 0 * (Rmin r g - lo)
  + nth i (t_red t) 0 * (r - Rmin r (Rmax g b)) + nth i (t_green t) 0 * (g - Rmin g (Rmax r b)) + nth i (t_blue t) 0 * (b - Rmin b (Rmax r g)).
