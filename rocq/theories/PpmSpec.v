(* The PPM format, as far as the properties need it. *)
From Verif Require Import Common DecimalModel.
Local Open Scope N_scope.

Definition blank (c : N) : Prop := c = 32 \/ 9 <= c <= 13.

(* Two magic characters, then width, height and maximum separated by blanks, and
   one blank. *)
Definition ppm_file (kind w h m : N) (s1 s2 s3 : list N) (s4 : N) (body : list N) : list N :=
  [80; kind] ++ s1 ++ dec w ++ s2 ++ dec h ++ s3 ++ dec m ++ [s4] ++ body.
Definition separators (s1 s2 s3 : list N) (s4 : N) : Prop :=
  Forall blank s1 /\ Forall blank s2 /\ s2 <> [] /\ Forall blank s3 /\ s3 <> [] /\ blank s4.

(* The colour word 0xBBGGRRAA of three channels. *)
Definition colour (r g b : N) : N := b * 2 ^ 24 + g * 2 ^ 16 + r * 2 ^ 8 + 255.

(* Sample t out of 255 represents sample v out of m, up to one unit and
   [slack] units of 1/m. *)
Definition rescaled (slack m v t : N) : Prop :=
  t <= 255 /\ t * m <= 255 * v + slack /\ 255 * v <= (t + 1) * m + slack.

(* The words of a sequence of samples taken three at a time. *)
Inductive decoded (R : N -> N -> Prop) : list N -> list N -> Prop :=
| decoded_nil : decoded R [] []
| decoded_cons : forall r g b r' g' b' l l', R r r' -> R g g' -> R b b' ->
    decoded R l l' -> decoded R (r :: g :: b :: l) (colour r' g' b' :: l').
