(* Points of a triangle and their texture coordinates. *)
From Verif Require Import Common GeomModel AabbModel TriModel TriSpec.
Local Open Scope Q_scope.

Definition place (T : triangle) (w u v : Q) : vec := mix w u v (v_p (t_a T)) (v_p (t_b T)) (v_p (t_c T)).
Definition texture_at (T : triangle) (w u v : Q) : Q * Q :=
  let a := v_t (t_a T) in let b := v_t (t_b T) in let c := v_t (t_c T) in
  (w * fst a + u * fst b + v * fst c, w * snd a + u * snd b + v * snd c).

(* the three texture coordinates are not on one line *)
Definition unfolded (T : triangle) : Prop :=
  let a := v_t (t_a T) in let b := v_t (t_b T) in let c := v_t (t_c T) in
  ~ (fst a - fst c) * (snd b - snd c) - (fst b - fst c) * (snd a - snd c) == 0.

Definition finite (v : vec) : xvec := XV (Fin (vx v)) (Fin (vy v)) (Fin (vz v)).

(* an infinity or NaN *)
Definition lost (x : xq) : Prop := match x with Fin _ => False | _ => True end.
