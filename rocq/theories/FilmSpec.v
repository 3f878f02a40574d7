(* Specification of the saved film. *)
From Coq Require Import QArith.
From Verif Require Import Common FilmModel.
Local Open Scope Z_scope.

(* value of a channel: 0 for what is not above 0, 255 for what is not below 1 *)
Definition channel_value (c : fl) (v : N) : Prop :=
  match c with
  | Fin q => ((q <= 0)%Q -> v = 0%N) /\ ((1 <= q)%Q -> v = 255%N) /\
             ((0 < q < 1)%Q -> (inject_Z (Z.of_N v) <= q * 255 < inject_Z (Z.of_N v + 1))%Q)
  | PInf => v = 255%N
  | MInf => v = 0%N
  | NaN => v = 255%N
  end.

(* the four bytes of a saved word *)
Definition word_of (c : rgb) (w : N) : Prop :=
  (w < 2 ^ 32)%N /\ (w mod 256 = 255)%N /\
  channel_value (cr c) ((w / 2 ^ 8) mod 256)%N /\
  channel_value (cg c) ((w / 2 ^ 16) mod 256)%N /\
  channel_value (cb c) ((w / 2 ^ 24) mod 256)%N.

(* the pixel that contains a position, and being inside of the image *)
Definition pixel_of (p : Q * Q) (x y : Z) : Prop :=
  (inject_Z x <= fst p < inject_Z (x + 1) /\ inject_Z y <= snd p < inject_Z (y + 1))%Q.
