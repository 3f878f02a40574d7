(* The tangents and the mask of a hit on a triangle. *)
From Coq Require Import Lqa.
From Verif Require Import Common GeomModel AabbModel AabbSpec AabbProofs TriModel TriSpec TriProofs TriProps TanSpec.
Local Open Scope Q_scope.

(* the members that the mask and the caller get *)
Lemma hit_tangents : forall masked T r D h d h', tri_intersect masked T r D h = Some (d, h') ->
  let a := t_a T in let b := t_b T in let c := t_c T in
  let d00 := fst (v_t a) - fst (v_t c) in let d01 := fst (v_t b) - fst (v_t c) in
  let d10 := snd (v_t a) - snd (v_t c) in let d11 := snd (v_t b) - snd (v_t c) in
  let ac := vsub (v_p a) (v_p c) in let bc := vsub (v_p b) (v_p c) in
  h_dpdu h' = xscale (vsub (vscale ac d11) (vscale bc d10)) (recip false (d00 * d11 - d01 * d10)) /\
  h_dpdv h' = xscale (vsub (vscale bc d00) (vscale ac d01)) (recip false (d00 * d11 - d01 * d10)) /\
  masked (mk_hit (V 0 0 0) (V 0 0 0) (h_dpdu h') (h_dpdv h') 0 (h_uv h') (h_du h) (h_du h) (h_diff h)) = false.
Proof.
  intros masked T r D h d h' E; revert E; unfold tri_intersect; cbv zeta.
  match goal with |- (if ?x then _ else _) = _ -> _ => destruct x; [discriminate |] end.
  match goal with |- (if ?x then _ else _) = _ -> _ => destruct x; [discriminate |] end.
  match goal with |- (if ?x then _ else _) = _ -> _ => destruct x; [discriminate |] end.
  match goal with |- (if ?x then _ else _) = _ -> _ => destruct x; [discriminate |] end.
  match goal with |- (if ?x then _ else _) = _ -> _ => destruct x eqn:M; [discriminate |] end.
  intro E; injection E as _ <-; cbn [h_dpdu h_dpdv h_uv]; split; [reflexivity | split; [reflexivity |]].
  exact M.
Qed.

Lemma xscale_finite : forall v q, ~ q == 0 ->
  xscale v (recip false q) = XV (Fin (vx v * / q)) (Fin (vy v * / q)) (Fin (vz v * / q)).
Proof.
  intros v q N; unfold recip; destruct (Qeqb_spec q 0) as [Z | Z]; [contradiction | reflexivity].
Qed.

Theorem tri_tangents : forall masked T r D h d h',
  tri_intersect masked T r D h = Some (d, h') -> unfolded T ->
  exists du dv, h_dpdu h' = finite du /\ h_dpdv h' = finite dv /\
    forall w u v w' u' v', w + u + v == 1 -> w' + u' + v' == 1 ->
      veq (vsub (place T w' u' v') (place T w u v))
          (vadd (vscale du (fst (texture_at T w' u' v') - fst (texture_at T w u v)))
                (vscale dv (snd (texture_at T w' u' v') - snd (texture_at T w u v)))).
Proof.
  intros masked T r D h d h' E N.
  destruct (hit_tangents masked T r D h d h' E) as (U & V & _); clear E.
  unfold unfolded in N; rewrite xscale_finite in U, V by exact N.
  unfold place, texture_at; revert N U V.
  destruct (t_a T) as [[ax ay az] na [au av]], (t_b T) as [[bx by_ bz] nb [bu bv]], (t_c T) as [[cx cy cz] nc [cu cv]].
  cbn [v_p v_t fst snd]; intros N U V.
  match type of U with _ = XV (Fin ?x) (Fin ?y) (Fin ?z) => exists (GeomModel.V x y z) end.
  match type of V with _ = XV (Fin ?x) (Fin ?y) (Fin ?z) => exists (GeomModel.V x y z) end.
  split; [exact U | split; [exact V |]].
  intros w u v w' u' v' S S'; unfold veq, mix; cbn [vx vy vz vsub vadd vscale fst snd].
  assert (W : w == 1 - u - v) by lra; assert (W' : w' == 1 - u' - v') by lra; rewrite W, W'.
  repeat split; field; exact N.
Qed.
Print Assumptions tri_tangents.

Example tri_tangents_ex :
  let r := mk_ray (V 0 1 (-2)) (V 1 0 2) (false, false, false) in
  unfolded tri0 /\ tri_intersect no_mask tri0 r PInf hit0 <> None /\
  (* a face of an obj file without texture coordinates (parser_obj.cpp:326-357) *)
  forall a b c na nb nc, unfolded (mk_tri (mk_vertex a na (0, 0)) (mk_vertex b nb (1, 0)) (mk_vertex c nc (1, 1))).
Proof.
  cbn zeta; split; [intro H; vm_compute in H; discriminate | split; [intro H; vm_compute in H; discriminate |]].
  intros a b c na nb nc H; unfold unfolded in H; cbn in H; vm_compute in H; discriminate.
Qed.

(* The corners share a line of the texture: no component of a tangent is a number. *)
Theorem tri_folded_refuted : forall masked T r D h d h',
  tri_intersect masked T r D h = Some (d, h') -> ~ unfolded T ->
  lost (xx (h_dpdu h')) /\ lost (xy (h_dpdu h')) /\ lost (xz (h_dpdu h')) /\
  lost (xx (h_dpdv h')) /\ lost (xy (h_dpdv h')) /\ lost (xz (h_dpdv h')).
Proof.
  intros masked T r D h d h' E N.
  destruct (hit_tangents masked T r D h d h' E) as (U & V & _); clear E.
  unfold unfolded in N.
  match type of N with ~ ~ ?q == 0 => assert (Z : q == 0) by (destruct (Qeq_dec q 0); [assumption | contradiction]); clear N;
    assert (R : recip false q = PInf) by (unfold recip; rewrite (proj2 (Qeq_bool_iff q 0) Z); reflexivity) end.
  rewrite R in U, V.
  assert (L : forall q, lost (xmul (Fin q) PInf)).
  { intro q; cbn; unfold inf_fin; destruct (Qeq_bool q 0); [exact I |]; destruct (xorb false (qltb q 0)); exact I. }
  rewrite U, V; unfold xscale; cbn [xx xy xz]; repeat split; apply L.
Qed.
Print Assumptions tri_folded_refuted.

Example tri_folded_ex :
  let T := mk_tri (mk_vertex (V 0 0 0) (V 0 0 1) (1 # 2, 1 # 2)) (mk_vertex (V 4 0 0) (V 0 0 1) (1 # 2, 1 # 2))
                  (mk_vertex (V 0 4 0) (V 0 0 1) (1 # 2, 1 # 2)) in
  let r := mk_ray (V 0 1 (-2)) (V 1 0 2) (false, false, false) in
  ~ unfolded T /\ match tri_intersect no_mask T r PInf hit0 with Some (_, h') => h_dpdu h' = XV NaN NaN NaN | None => False end.
Proof. cbn zeta; split; [intro H; apply H; reflexivity | vm_compute; reflexivity]. Qed.

(* A mask that looks at a texture through its coordinates and derivatives. *)
Theorem tri_mask_stale_refuted : forall T r D h h2 d h',
  tri_intersect no_mask T r D h = Some (d, h') ->
  h_diff h = h_diff h2 -> h_du h <> h_du h2 ->
  exists looks : Q * Q -> Q * Q -> Q * Q -> bool -> bool,
    let masked t := looks (h_uv t) (h_du t) (h_dv t) (h_diff t) in
    tri_intersect masked T r D h <> None /\ tri_intersect masked T r D h2 = None.
Proof.
  intros T r D h h2 d h' E DF DU.
  assert (DEC : forall a b : Q * Q, {a = b} + {a <> b}) by (intros; repeat decide equality).
  exists (fun _ du _ _ => if DEC du (h_du h2) then true else false); cbn zeta.
  revert E; unfold tri_intersect; cbv zeta.
  match goal with |- (if ?x then _ else _) = _ -> _ => destruct x; [discriminate |] end.
  match goal with |- (if ?x then _ else _) = _ -> _ => destruct x; [discriminate |] end.
  match goal with |- (if ?x then _ else _) = _ -> _ => destruct x; [discriminate |] end.
  match goal with |- (if ?x then _ else _) = _ -> _ => destruct x; [discriminate |] end.
  intros _; cbn [h_du]; destruct (DEC (h_du h) (h_du h2)); [contradiction |].
  destruct (DEC (h_du h2) (h_du h2)); [split; [discriminate | reflexivity] | contradiction].
Qed.
Print Assumptions tri_mask_stale_refuted.

(* The derivative in v is not handed to the mask. *)
Theorem tri_mask_dv_refuted : forall masked T r D h, h_du h <> h_dv h ->
  (forall t, h_dv t <> h_dv h -> masked t = true) -> tri_intersect masked T r D h = None.
Proof.
  intros masked T r D h N M; destruct (tri_intersect masked T r D h) as [[d h'] |] eqn:E; [| reflexivity].
  destruct (hit_tangents masked T r D h d h' E) as (_ & _ & A); rewrite M in A; [discriminate | exact N].
Qed.
Print Assumptions tri_mask_dv_refuted.

Example tri_mask_ex :
  let r := mk_ray (V 0 1 (-2)) (V 1 0 2) (false, false, false) in
  let h1 := mk_hit (V 0 0 0) (V 0 0 0) (XV NaN NaN NaN) (XV NaN NaN NaN) 0 (0, 0) (1 # 4, 0) (0, 1 # 4) true in
  let h2 := mk_hit (V 0 0 0) (V 0 0 0) (XV NaN NaN NaN) (XV NaN NaN NaN) 0 (0, 0) (1 # 8, 0) (0, 1 # 8) true in
  tri_intersect no_mask tri0 r PInf h1 <> None /\ h_diff h1 = h_diff h2 /\ h_du h1 <> h_du h2 /\ h_du h1 <> h_dv h1.
Proof. cbn zeta; repeat split; intro H; vm_compute in H; discriminate. Qed.
