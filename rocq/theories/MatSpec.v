(* Matrices as functions of row and column, independent of how they are stored. *)
From Coq Require Import Reals List.
From Verif Require Import RVecModel MatModel.
Import ListNotations.
Local Open Scope R_scope.

Definition entry (m : rmat) (i j : nat) : R :=
  match i, j with
  | 0, 0 => m00 m | 0, 1 => m01 m | 0, 2 => m02 m | 0, _ => m03 m
  | 1, 0 => m10 m | 1, 1 => m11 m | 1, 2 => m12 m | 1, _ => m13 m
  | 2, 0 => m20 m | 2, 1 => m21 m | 2, 2 => m22 m | 2, _ => m23 m
  | _, 0 => m30 m | _, 1 => m31 m | _, 2 => m32 m | _, _ => m33 m
  end%nat.

Definition sum4 (f : nat -> R) : R := f 0%nat + f 1%nat + f 2%nat + f 3%nat.

Definition is_product (a b c : rmat) : Prop :=
  forall i j, (i < 4)%nat -> (j < 4)%nat -> entry c i j = sum4 (fun k => entry a i k * entry b k j).

Definition is_identity (m : rmat) : Prop :=
  forall i j, (i < 4)%nat -> (j < 4)%nat -> entry m i j = if Nat.eqb i j then 1 else 0.

(* b undoes a from both sides *)
Definition inverses (a b : rmat) : Prop :=
  exists e, is_identity e /\ is_product a b e /\ is_product b a e.

(* the determinant, expanded along the first column: rows are given by their indices *)
Fixpoint minor (f : nat -> nat -> R) (col : nat) (rows : list nat) (fuel : nat) : R :=
  match fuel with
  | O => 1
  | S n =>
      fst (fold_left (fun (acc : R * R) i =>
             (fst acc + snd acc * f i col * minor f (S col) (remove Nat.eq_dec i rows) n, - snd acc)) rows (0, 1))
  end.
Definition determinant (m : rmat) : R := minor (entry m) 0 [0%nat; 1%nat; 2%nat; 3%nat] 4.

(* the last row of the transforms of points *)
Definition affine (m : rmat) : Prop := m30 m = 0 /\ m31 m = 0 /\ m32 m = 0 /\ m33 m = 1.

(* a linear map that keeps scalar products *)
Definition keeps_dot (f : rv -> rv) : Prop := forall v w, rdot (f v) (f w) = rdot v w.
