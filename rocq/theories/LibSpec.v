(* What a library keeps: a specification over histories of operations on one map
   from names to objects, oldest operation first. *)
From Coq Require Import String.
From Verif Require Import Common.

Inductive lib_op :=
| Add (name : string) (p : N)
| Erase (name : string)
| Clear.

Definition forgets (k : string) (o : lib_op) : Prop := o = Erase k \/ o = Clear.

(* p is registered under k: it was the first object added under that name since
   the last time the name was forgotten, and the name was not forgotten after. *)
Definition stored (ops : list lib_op) (k : string) (p : N) : Prop :=
  exists a b c, ops = a ++ b ++ Add k p :: c /\
    (a = [] \/ exists a' o, a = a' ++ [o] /\ forgets k o) /\
    (forall q, ~ In (Add k q) b) /\
    (forall o, In o c -> ~ forgets k o).
