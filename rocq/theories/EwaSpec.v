(* What sqrtf and log2f are assumed to do in the elliptical filter. *)
From Coq Require Import QArith.
From Verif Require Import Common ImgModel.
Local Open Scope Q_scope.

(* a square root, up to half a percent *)
Definition close_sqrt (sq : Q -> Q) : Prop :=
  forall x, 0 <= x -> 0 <= sq x /\ (99 # 100) * x <= sq x * sq x /\ sq x * sq x <= (101 # 100) * x.

(* a logarithm in base 2, as far as one half is concerned *)
Definition log_half (lg : Q -> Q) : Prop := forall x, 0 < x -> x < 1 # 2 -> lg x < - (1).

(* a footprint along the axes of the picture: one derivative is horizontal and one vertical; wide is
   its horizontal extent *)
Definition along_axes (dudx dvdx dudy dvdy wide : Q) : Prop :=
  (dvdx == 0 /\ dudy == 0 /\ wide == dudx) \/ (dudx == 0 /\ dvdy == 0 /\ wide == dudy).

(* a logarithm in base 2, as far as the side of the texture is concerned *)
Definition log_side (lg : Q -> Q) (side : N) : Prop :=
  forall x, 0 < x -> x * qN side <= 1 -> lg x <= - inject_Z (Z.of_N (N.log2 side)).
