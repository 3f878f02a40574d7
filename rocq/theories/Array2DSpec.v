(* Specification of Array2D: a map from coordinates to the last value written. *)
From Verif Require Import Common Array2DModel.
Local Open Scope N_scope.

(* The reader of (x,y) sees the last write to (x,y), where a
   clear counts as a write of [zero] everywhere. *)
Fixpoint last_write {T} (zero : T) (os : list (op T)) (x y : N) (acc : option T)
  : option T :=
  match os with
  | [] => acc
  | OSet x' y' v :: os =>
      last_write zero os x y (if (x =? x') && (y =? y') then Some v else acc)
  | OZero :: os => last_write zero os x y (Some zero)
  end.

Definition op_below {T} (side : N) (o : op T) : Prop :=
  match o with
  | OSet x y _ => x < side /\ y < side
  | OZero => True
  end.
