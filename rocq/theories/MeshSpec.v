(* Faces laid one after the other on a line: face i covers [cum i, cum (i+1)). *)
From Verif Require Import Common.
From Coq Require Import QArith.
Local Open Scope Q_scope.

Fixpoint cum (areas : list Q) (i : nat) : Q :=
  match i, areas with
  | S i, a :: areas => a + cum areas i
  | _, _ => 0
  end.

Definition total (areas : list Q) : Q := cum areas (length areas).
