(* What an integrator has to compute. *)
From Coq Require Import Reals List.
From Verif Require Import IntegModel.
Local Open Scope R_scope.

(* random numbers of the sampler *)
Definition unit_numbers (rand : nat -> R) : Prop := forall i, 0 <= rand i <= 1.

(* the light that a surface which reflects nothing sends to the camera: its own emission *)
Definition reflects_nothing {V W} (sc : scene V W) (v : V) : Prop :=
  (forall w, sc_value sc v w = 0) /\ (forall a b c s, fst (fst (fst (sc_bsdf sc v a b c s))) = 0).

(* quantities of light are never negative *)
Definition physical {V W} (sc : scene V W) : Prop :=
  (forall l, In l (sc_lights sc) -> 0 <= sl_emission l /\ forall v a b, 0 <= fst (fst (fst (sl_sample l v a b)))) /\
  (forall v w, 0 <= sc_value sc v w) /\ (forall v a b c s, 0 <= fst (fst (fst (sc_bsdf sc v a b c s)))) /\
  (forall v a b c s, 0 <= snd (fst (sc_bsdf sc v a b c s))) /\
  (forall v w, 0 <= sc_absdot sc v w) /\
  (forall x, 0 <= x -> 0 <= sc_luminance sc x).

(* f 0 + ... + f (n - 1) *)
Fixpoint total (n : nat) (f : nat -> R) : R :=
  match n with O => 0 | Datatypes.S k => total k f + f k end.
