(* C42: the ray/triangle test. *)
From Coq Require Import Lqa.
From Verif Require Import Common GeomModel AabbModel AabbSpec AabbProofs TriModel TriSpec TriProofs.
Local Open Scope Q_scope.

(* C42.  A reported hit is a point of the triangle on the ray, at the reported
   parameter, within the accepted range; point, normal and texture coordinates
   are those of that point; the mask was asked about it and let it through. *)
Theorem tri_hit_sound : forall masked T r D h d h',
  tri_intersect masked T r D h = Some (d, h') ->
  transversal T r /\
  exists w u v,
    meets T r d w u v /\ acceptable D d /\
    veq (h_point h') (mix w u v (v_p (t_a T)) (v_p (t_b T)) (v_p (t_c T))) /\
    veq (h_normal h') (mix w u v (v_n (t_a T)) (v_n (t_b T)) (v_n (t_c T))) /\
    fst (h_uv h') == w * fst (v_t (t_a T)) + u * fst (v_t (t_b T)) + v * fst (v_t (t_c T)) /\
    snd (h_uv h') == w * snd (v_t (t_a T)) + u * snd (v_t (t_b T)) + v * snd (v_t (t_c T)) /\
    exists tmp, masked tmp = false /\ h_uv tmp = h_uv h'.
Proof.
  intros masked T r D h d h' E.
  assert (C := tri_intersect_cases masked T r D h); rewrite E in C.
  destruct C as (N & (U & V1 & UV) & A & -> & P & NN & TT & (tmp & M & M1 & _) & _).
  split; [exact (proj2 (tdet_transversal T r) N) |].
  exists (1 - tu T r - tv T r), (tu T r), (tv T r).
  assert (R := td_on_ray T r N).
  split; [split; [unfold weights; repeat split; lra | exact R] |].
  split; [exact A |].
  split.
  { rewrite P; destruct R as (R1 & R2 & R3); unfold veq, ray_apply, mix; cbn in *.
    rewrite R1, R2, R3; repeat split; ring. }
  split.
  { rewrite NN; unfold veq, mix; cbn; repeat split; ring. }
  rewrite TT; cbn [fst snd]. split; [reflexivity | split; [reflexivity |]].
  exists tmp; split; [exact M | rewrite M1; exact TT].
Qed.
Print Assumptions tri_hit_sound.

(* C42.  Conversely every point of the triangle met by the ray within the accepted
   range is reported (unless the mask hides it), with its parameter. *)
Theorem tri_hit_complete : forall masked T r D h t w u v,
  transversal T r -> meets T r t w u v -> acceptable D t ->
  (forall tmp, masked tmp = false) ->
  exists d h', tri_intersect masked T r D h = Some (d, h') /\ d == t.
Proof.
  intros masked T r D h t w u v N ((W1 & W2 & W3 & W4) & R) A M.
  assert (N0 := proj1 (tdet_transversal T r) N); clear N; rename N0 into N.
  destruct (meets_unique T r t w u v N W4 R) as (ET & EU & EV).
  assert (C := tri_intersect_cases masked T r D h).
  destruct (tri_intersect masked T r D h) as [[d h'] |].
  - exists d, h'; split; [reflexivity |]; destruct C as (_ & _ & _ & -> & _); lra.
  - exfalso; destruct C as [C | [C | [C | (tmp & C)]]].
    + apply N; exact C.
    + apply C; rewrite <- EU, <- EV; lra.
    + apply C; destruct A as (A1 & A2); split; [rewrite <- ET; exact A1 |].
      destruct D as [D | | |]; cbn in *; try exact A2.
      rewrite <- A2; apply qltb_ext; [reflexivity | lra].
    + rewrite M in C; discriminate.
Qed.
Print Assumptions tri_hit_complete.

Definition tri0 : triangle :=
  mk_tri (mk_vertex (V 0 0 0) (V 0 0 1) (0, 0)) (mk_vertex (V 4 0 0) (V 0 0 1) (1, 0))
         (mk_vertex (V 0 4 0) (V 0 0 1) (0, 1)).
Definition hit0 : hit :=
  mk_hit (V 0 0 0) (V 0 0 0) (XV NaN NaN NaN) (XV NaN NaN NaN) 0 (0, 0) (0, 0) (0, 0) false.

Example tri_case :
  let r := mk_ray (V 0 1 (-2)) (V 1 0 2) (false, false, false) in
  transversal tri0 r /\ meets tri0 r 1 (1 # 2) (1 # 4) (1 # 4) /\ acceptable PInf 1 /\
  match tri_intersect no_mask tri0 r PInf hit0 with
  | Some (d, h') => d == 1 /\ veq (h_point h') (V 1 1 0)
  | None => False
  end.
Proof.
  cbn zeta; split; [| split; [| split]].
  - intro H; vm_compute in H; discriminate.
  - split; [unfold weights; repeat split; lra |].
    unfold on_ray, mix; cbn; repeat split; lra.
  - split; [unfold self_err; lra | reflexivity].
  - unfold veq; cbn; repeat split; reflexivity.
Qed.

(* C42 is false for a ray that runs in the plane of the triangle: whatever it
   crosses, nothing is reported. *)
Theorem tri_coplanar_refuted : forall masked T r D h,
  ~ transversal T r -> tri_intersect masked T r D h = None.
Proof.
  intros masked T r D h N.
  assert (C := tri_intersect_cases masked T r D h).
  destruct (tri_intersect masked T r D h) as [[d h'] |]; [| reflexivity].
  destruct C as (C & _); exfalso; exact (N (proj2 (tdet_transversal T r) C)).
Qed.
Print Assumptions tri_coplanar_refuted.

Example tri_coplanar_case :
  let r := mk_ray (V (-1) 1 0) (V 1 0 0) (false, false, false) in
  meets tri0 r 2 (1 # 2) (1 # 4) (1 # 4) /\ acceptable PInf 2 /\ ~ transversal tri0 r.
Proof.
  cbn zeta; split; [| split].
  - split; [unfold weights; repeat split; lra |].
    unfold on_ray, mix; cbn; repeat split; lra.
  - split; [unfold self_err; lra | reflexivity].
  - intro H; apply H; reflexivity.
Qed.

(* C44.  The box of a triangle contains all of its points. *)
Theorem tri_box_contains : forall T w u v, weights w u v ->
  contains (tri_aabb T) (mix w u v (v_p (t_a T)) (v_p (t_b T)) (v_p (t_c T))).
Proof. exact tri_aabb_contains. Qed.
Print Assumptions tri_box_contains.
Example tri_box_case : weights (1 # 2) (1 # 4) (1 # 4) /\ tri_aabb tri0 = aabb_of (V 0 0 0) (V 4 4 0).
Proof. split; [unfold weights; repeat split; lra | reflexivity]. Qed.
