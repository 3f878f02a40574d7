(* The ray/triangle test in exact arithmetic. *)
From Coq Require Import Lqa.
From Verif Require Import Common GeomModel AabbModel AabbSpec AabbProofs TriModel TriSpec.
Local Open Scope Q_scope.

Definition tdet (T : triangle) (r : ray) : Q :=
  dot (cross (r_d r) (vsub (v_p (t_c T)) (v_p (t_a T)))) (vsub (v_p (t_b T)) (v_p (t_a T))).
Definition tu (T : triangle) (r : ray) : Q :=
  dot (cross (r_d r) (vsub (v_p (t_c T)) (v_p (t_a T)))) (vsub (r_o r) (v_p (t_a T)))
  * / tdet T r.
Definition tq (T : triangle) (r : ray) : vec :=
  cross (vsub (r_o r) (v_p (t_a T))) (vsub (v_p (t_b T)) (v_p (t_a T))).
Definition tv (T : triangle) (r : ray) : Q := dot (r_d r) (tq T r) * / tdet T r.
Definition td (T : triangle) (r : ray) : Q :=
  dot (vsub (v_p (t_c T)) (v_p (t_a T))) (tq T r) * / tdet T r.

Lemma tdet_transversal : forall T r, transversal T r <-> ~ tdet T r == 0.
Proof.
  intros T r; unfold transversal.
  assert (E : dot (cross (vsub (v_p (t_b T)) (v_p (t_a T))) (vsub (v_p (t_c T)) (v_p (t_a T))))
        (r_d r) == - tdet T r).
  { unfold tdet, dot, cross, vsub; cbn; ring. }
  rewrite E; split; intros H G; apply H; lra.
Qed.

Lemma td_on_ray : forall T r, ~ tdet T r == 0 ->
  on_ray r (td T r) (mix (1 - tu T r - tv T r) (tu T r) (tv T r)
                         (v_p (t_a T)) (v_p (t_b T)) (v_p (t_c T))).
Proof.
  intros T r N; unfold td, tu, tv, tq; unfold tdet in *.
  destruct (v_p (t_a T)) as [ax ay az], (v_p (t_b T)) as [bx by_ bz],
           (v_p (t_c T)) as [cx cy cz].
  destruct r as [[ox oy oz] [dx dy dz] nz].
  unfold on_ray, mix, dot, cross, vsub in *; cbn in *.
  repeat split; field; exact N.
Qed.

(* Cramer's rule: the solution is unique *)
Lemma meets_unique : forall T r t w u v, ~ tdet T r == 0 -> w + u + v == 1 ->
  on_ray r t (mix w u v (v_p (t_a T)) (v_p (t_b T)) (v_p (t_c T))) ->
  t == td T r /\ u == tu T r /\ v == tv T r.
Proof.
  intros T r t w u v N W (X & Y & Z).
  unfold td, tu, tv, tq; unfold tdet in *.
  destruct (v_p (t_a T)) as [ax ay az], (v_p (t_b T)) as [bx by_ bz],
           (v_p (t_c T)) as [cx cy cz].
  destruct r as [[ox oy oz] [dx dy dz] nz].
  unfold mix, dot, cross, vsub in *; cbn in *.
  assert (EW : w == 1 - u - v) by lra.
  assert (EX : ox == (1 - u - v) * ax + u * bx + v * cx - t * dx) by (rewrite <- EW; lra).
  assert (EY : oy == (1 - u - v) * ay + u * by_ + v * cy - t * dy) by (rewrite <- EW; lra).
  assert (EZ : oz == (1 - u - v) * az + u * bz + v * cz - t * dz) by (rewrite <- EW; lra).
  rewrite EX, EY, EZ. clear EX EY EZ X Y Z W EW w ox oy oz.
  repeat split; field; exact N.
Qed.

(* the outcome of the test in terms of the four numbers *)
Lemma tri_intersect_cases : forall masked T r D h,
  match tri_intersect masked T r D h with
  | None =>
      tdet T r == 0 \/
      ~ (0 <= tu T r /\ 0 <= tv T r /\ tu T r + tv T r <= 1) \/
      ~ acceptable D (td T r) \/ exists tmp, masked tmp = true
  | Some (d, h') =>
      ~ tdet T r == 0 /\ (0 <= tu T r /\ 0 <= tv T r /\ tu T r + tv T r <= 1) /\
      acceptable D (td T r) /\ d = td T r /\ h_point h' = ray_apply r (td T r) /\
      h_normal h' =
        vadd (vadd (vscale (v_n (t_a T)) (1 - tu T r - tv T r)) (vscale (v_n (t_b T)) (tu T r)))
             (vscale (v_n (t_c T)) (tv T r)) /\
      h_uv h' =
        ((1 - tu T r - tv T r) * fst (v_t (t_a T)) + tu T r * fst (v_t (t_b T)) +
         tv T r * fst (v_t (t_c T)),
         (1 - tu T r - tv T r) * snd (v_t (t_a T)) + tu T r * snd (v_t (t_b T)) +
         tv T r * snd (v_t (t_c T))) /\
      (exists tmp, masked tmp = false /\ h_uv tmp = h_uv h' /\ h_dpdu tmp = h_dpdu h' /\
                   h_dpdv tmp = h_dpdv h') /\
      h_index h' = h_index h /\ h_du h' = h_du h /\ h_dv h' = h_dv h
  end.
Proof.
  intros masked T r D h; unfold tri_intersect, acceptable; cbv zeta.
  fold (tdet T r). destruct (Qeqb_spec (tdet T r) 0) as [Z | Z]; [left; exact Z |].
  fold (tu T r). fold (tq T r). fold (tv T r). fold (td T r).
  destruct (qltb_spec (tu T r) 0); cbn [orb]; [right; left; lra |].
  destruct (qltb_spec 1 (tu T r)); cbn [orb].
  { destruct (Qlt_le_dec (tv T r) 0); right; left; lra. }
  destruct (qltb_spec (tv T r) 0); cbn [orb]; [right; left; lra |].
  destruct (qltb_spec 1 (tu T r + tv T r)); cbn [orb]; [right; left; lra |].
  destruct (qltb_spec (td T r) self_err); cbn [orb]; [right; right; left; intros (A & _); lra |].
  destruct (xlt D (Fin (td T r))) eqn:X; [right; right; left; intros (_ & A); congruence |].
  match goal with |- context [if masked ?x then _ else _] =>
    set (tmp := x); destruct (masked tmp) eqn:M end.
  { right; right; right; exists tmp; exact M. }
  split; [exact Z |]; split; [lra |]; split; [split; [lra | reflexivity] |].
  split; [reflexivity |]. split; [reflexivity |]. split; [reflexivity |]. split; [reflexivity |].
  split; [exists tmp; split; [exact M | split; [reflexivity | split; reflexivity]] |].
  split; [reflexivity |]. split; reflexivity.
Qed.

Lemma tri_aabb_valid : forall T, valid (tri_aabb T).
Proof. intro T; apply valid_of. Qed.

Lemma qmin_l : forall a b, qmin a b <= a.
Proof. intros a b; unfold qmin; destruct (qltb_spec a b); lra. Qed.
Lemma qmin_r : forall a b, qmin a b <= b.
Proof. intros a b; unfold qmin; destruct (qltb_spec a b); lra. Qed.
Lemma qmax_l : forall a b, a <= qmax a b.
Proof. intros a b; unfold qmax; destruct (qltb_spec b a); lra. Qed.
Lemma qmax_r : forall a b, b <= qmax a b.
Proof. intros a b; unfold qmax; destruct (qltb_spec b a); lra. Qed.

Lemma mix_ge : forall w u v a b c m, weights w u v -> m <= a -> m <= b -> m <= c ->
  m <= w * a + u * b + v * c.
Proof.
  intros w u v a b c m (W & U & V & S1) A B C.
  assert (0 <= w * (a - m)) by (apply Qmult_le_0_compat; lra).
  assert (0 <= u * (b - m)) by (apply Qmult_le_0_compat; lra).
  assert (0 <= v * (c - m)) by (apply Qmult_le_0_compat; lra).
  assert (w * a + u * b + v * c == w * (a - m) + u * (b - m) + v * (c - m) + (w + u + v) * m)
    by ring.
  rewrite H2, S1. lra.
Qed.

Lemma mix_le : forall w u v a b c m, weights w u v -> a <= m -> b <= m -> c <= m ->
  w * a + u * b + v * c <= m.
Proof.
  intros w u v a b c m (W & U & V & S1) A B C.
  assert (0 <= w * (m - a)) by (apply Qmult_le_0_compat; lra).
  assert (0 <= u * (m - b)) by (apply Qmult_le_0_compat; lra).
  assert (0 <= v * (m - c)) by (apply Qmult_le_0_compat; lra).
  assert (w * a + u * b + v * c == (w + u + v) * m - (w * (m - a) + u * (m - b) + v * (m - c)))
    by ring.
  rewrite H2, S1. lra.
Qed.

(* every point of the triangle is in its box *)
Lemma tri_aabb_contains : forall T w u v, weights w u v ->
  contains (tri_aabb T) (mix w u v (v_p (t_a T)) (v_p (t_b T)) (v_p (t_c T))).
Proof.
  intros T w u v W; unfold contains, tri_aabb, mix; cbn.
  repeat split; first [apply mix_ge | apply mix_le]; try exact W.
  all: first
    [ apply Qle_trans with (qmin (vx (v_p (t_a T))) (vx (v_p (t_b T)))); [apply qmin_l | first [apply qmin_l | apply qmin_r]]
    | apply Qle_trans with (qmin (vy (v_p (t_a T))) (vy (v_p (t_b T)))); [apply qmin_l | first [apply qmin_l | apply qmin_r]]
    | apply Qle_trans with (qmin (vz (v_p (t_a T))) (vz (v_p (t_b T)))); [apply qmin_l | first [apply qmin_l | apply qmin_r]]
    | apply Qle_trans with (qmax (vx (v_p (t_a T))) (vx (v_p (t_b T)))); [first [apply qmax_l | apply qmax_r] | apply qmax_l]
    | apply Qle_trans with (qmax (vy (v_p (t_a T))) (vy (v_p (t_b T)))); [first [apply qmax_l | apply qmax_r] | apply qmax_l]
    | apply Qle_trans with (qmax (vz (v_p (t_a T))) (vz (v_p (t_b T)))); [first [apply qmax_l | apply qmax_r] | apply qmax_l]
    | apply qmin_r | apply qmax_r ].
Qed.
