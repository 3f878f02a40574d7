(* Building the tree of a scene again. *)
From Coq Require Import Permutation.
From Verif Require Import Common GeomModel AabbModel AabbSpec BitsModel KdAddModel KdAddProps KdModel KdSpec
     KdBuild KdWalk KdFacts KdProps KdAgainModel.
Local Open Scope nat_scope.

(* the first build is the one of the other theorems *)
Lemma first_build : forall A (box : A -> aabb) sort cost l s s', l <> [] ->
  live_add kd_new l = Ok s -> live_build box sort cost s = Ok s' -> built box sort cost l = Ok (live_tree s').
Proof.
  intros A box sort cost l s s' NE E B; unfold live_add, kd_new in E; cbn [lv_buf lv_box lv_nodes] in E.
  unfold built; destruct (addAssets kd_empty l) as [k | |] eqn:AK; try discriminate; cbn [bind] in E |- *.
  injection E as <-; unfold live_build, buildTree in *; cbn [lv_buf lv_nodes] in B.
  destruct (addAssets_ok_len l k AK) as [_ KL]; rewrite KL in *.
  destruct l as [| a l]; [congruence |].
  destruct (build _ _ _ _ _ _ _ _) as [[t k'] | |]; try discriminate; cbn [bind] in B |- *.
  injection B as <-; reflexivity.
Qed.

Lemma small_build : forall A (box : A -> aabb) sort cost levels cap l area k, length l <= leaf_assets ->
  build box sort cost (S levels) cap l area k = make_leaf l k.
Proof.
  intros; cbn [build]; destruct (Nat.leb_spec (length l) leaf_assets); [reflexivity | lia].
Qed.

(* the buffer of a tree that was built *)
Lemma leaf_buffer : forall A (l : list A) alloc t k, make_leaf l (mk_kdbuf [] alloc) = Ok (t, k) ->
  t = KLeaf 0 (length l) /\ kb_assets k = l.
Proof.
  intros A l alloc t k E; unfold make_leaf in E.
  destruct (addAssets (mk_kdbuf [] alloc) l) as [k' | |] eqn:AK; try discriminate; cbn [bind kb_assets length] in E.
  injection E as <- <-; split; [reflexivity |].
  assert (G : forall l (b b' : kdbuf A), addAssets b l = Ok b' -> kb_assets b' = kb_assets b ++ l).
  { clear; induction l as [| a l IH]; intros b b' E; cbn [addAssets] in E.
    - injection E as <-; rewrite app_nil_r; reflexivity.
    - unfold addAsset in E; destruct (_ <? _)%Z in E; [| discriminate]; cbn [bind] in E.
      rewrite (IH _ _ E); cbn [kb_assets]; rewrite <- app_assoc; reflexivity. }
  exact (G _ _ _ AK).
Qed.

Lemma adds_append : forall A (l : list A) s s', live_add s l = Ok s' ->
  lv_box s' = lv_box s /\ lv_nodes s' = lv_nodes s /\ kb_assets (lv_buf s') = kb_assets (lv_buf s) ++ l.
Proof.
  intros A l s s' E; unfold live_add in E; destruct (addAssets (lv_buf s) l) as [k | |] eqn:AK; try discriminate.
  injection E as <-; split; [reflexivity | split; [reflexivity |]]; cbn [lv_buf].
  revert AK; generalize (lv_buf s); induction l as [| a l IH]; intros b E; cbn [addAssets] in E.
  - injection E as <-; rewrite app_nil_r; reflexivity.
  - unfold addAsset in E; destruct (_ <? _)%Z in E; [| discriminate]; cbn [bind] in E.
    rewrite (IH _ E); cbn [kb_assets]; rewrite <- app_assoc; reflexivity.
Qed.

(* a build of at most three assets *)
Lemma build_small : forall A (box : A -> aabb) sort cost (s s' : live A),
  kb_assets (lv_buf s) <> [] -> length (kb_assets (lv_buf s)) <= 3 -> live_build box sort cost s = Ok s' ->
  kb_assets (lv_buf s') = kb_assets (lv_buf s) /\
  lv_nodes s' = lv_nodes s ++ [Some (kn_leaf 0 (length (kb_assets (lv_buf s))))] /\
  exists a l, kb_assets (lv_buf s) = a :: l /\ lv_box s' = scene_box box a l.
Proof.
  intros A box sort cost s s' NE L B; unfold live_build in B.
  destruct (kb_assets (lv_buf s)) as [| a l] eqn:K; [congruence |].
  assert (D : exists d, kd_max_depth = S d) by (eexists; reflexivity); destruct D as [d D]; rewrite D in B.
  rewrite small_build in B by exact L; clear D.
  destruct (make_leaf (a :: l) (mk_kdbuf [] (kb_alloc (lv_buf s)))) as [[t k] | |] eqn:M; try discriminate.
  cbn [bind] in B; injection B as <-; cbn [lv_buf lv_nodes lv_box].
  destruct (leaf_buffer _ _ _ _ _ M) as [-> ->]; cbn [finalize]; eauto 6.
Qed.

(* no build removes a node *)
Lemma build_keeps : forall A (box : A -> aabb) sort cost (s s' : live A), live_build box sort cost s = Ok s' ->
  forall i, i < length (lv_nodes s) -> nth_error (lv_nodes s') i = nth_error (lv_nodes s) i.
Proof.
  intros A box sort cost s s' B i I; unfold live_build in B; destruct (kb_assets (lv_buf s)) as [| a l].
  - injection B as <-; reflexivity.
  - destruct (build _ _ _ _ _ _ _ _) as [[t k] | |]; try discriminate; cbn [bind] in B; injection B as <-; cbn [lv_nodes].
    apply finalize_keeps, I.
Qed.

Lemma leaf_sees : forall A (box : A -> aabb) ai assets r p n off found best a d,
  kd_leaf_loop box ai assets r p off n found best = Ok (Some a, d) ->
  In a (firstn n (skipn off assets)) \/ found = Some a.
Proof.
  intros A box ai assets r p n; induction n as [| n IH]; intros off found best a d E; cbn [kd_leaf_loop] in E.
  - injection E as -> _; right; reflexivity.
  - destruct (nth_error assets off) as [b |] eqn:N; [| discriminate].
    assert (S1 : skipn off assets = b :: skipn (S off) assets).
    { clear - N; revert assets N; induction off as [| off IH]; intros [| x assets] N; try discriminate.
      - injection N as ->; reflexivity.
      - exact (IH assets N). }
    assert (STEP : forall f bb, kd_leaf_loop box ai assets r p (S off) n f bb = Ok (Some a, d) ->
      f = Some b \/ f = found -> In a (firstn (S n) (skipn off assets)) \/ found = Some a).
    { intros f bb H F; rewrite S1; cbn [firstn]; destruct (IH _ _ _ _ _ H) as [I | ->]; [left; right; exact I |].
      destruct F as [F | F]; [injection F as ->; left; left; reflexivity | right; symmetry; exact F]. }
    destruct (intersect2 (box b) r p) as [[r1 r2] |]; [| apply (STEP _ _ E); auto].
    destruct (xlt r1 best); [| apply (STEP _ _ E); auto].
    destruct (ai b r best) as [q |]; apply (STEP _ _ E); auto.
Qed.

(* a tree whose first node is a leaf *)
Lemma root_leaf_walk : forall A (box : A -> aabb) ai (t : kdtree A) r n, (N.of_nat n < 2 ^ 31)%N ->
  nth_error (kt_nodes t) 0 = Some (Some (kn_leaf 0 n)) ->
  kd_intersect box ai t r =
  match intersect2 (kt_box t) r (ray_properties r) with
  | None => Ok (None, Fin flt_max)
  | Some (mint, _) =>
      if xlt (Fin flt_max) mint then Ok (None, Fin flt_max)
      else kd_leaf_loop box ai (kt_assets t) r (ray_properties r) 0 n None (Fin flt_max)
  end.
Proof.
  intros A box ai t r n H N; unfold kd_intersect; destruct (intersect2 _ _ _) as [[mint maxt] |]; [| reflexivity].
  rewrite Nat.add_1_r; cbn [kd_walk]; destruct (xlt (Fin flt_max) mint); [reflexivity |].
  rewrite N; destruct (kn_leaf_word 0 n H) as [-> ->]; cbn [kn_leaf kn_union].
  destruct (kd_leaf_loop _ _ _ _ _ _ _ _ _) as [[f b] | |]; reflexivity.
Qed.

(* Rendering a scene of up to three assets once more changes nothing. *)
Theorem rebuild_same_small : forall A (box : A -> aabb) sort cost l s0 s1 s2 ai r,
  l <> [] -> length l <= 3 ->
  live_add kd_new l = Ok s0 -> live_build box sort cost s0 = Ok s1 -> live_build box sort cost s1 = Ok s2 ->
  kd_intersect box ai (live_tree s2) r = kd_intersect box ai (live_tree s1) r.
Proof.
  intros A box sort cost l s0 s1 s2 ai r NE L E0 E1 E2.
  destruct (adds_append _ _ _ _ E0) as (_ & N0 & K0); cbn in N0, K0.
  destruct (build_small _ _ _ _ _ _ ltac:(rewrite K0; exact NE) ltac:(rewrite K0; exact L) E1) as (K1 & N1 & a1 & l1 & A1 & B1).
  rewrite K0 in *; rewrite N0 in N1; cbn [app] in N1.
  destruct (build_small _ _ _ _ _ _ ltac:(rewrite K1; exact NE) ltac:(rewrite K1; exact L) E2) as (K2 & N2 & a2 & l2 & A2 & B2).
  rewrite K1 in *; rewrite N1 in N2; rewrite A1 in A2; injection A2 as <- <-.
  rewrite (root_leaf_walk _ _ _ (live_tree s2) r (length l)); [| lia | unfold live_tree; cbn [kt_nodes]; rewrite N2; reflexivity].
  rewrite (root_leaf_walk _ _ _ (live_tree s1) r (length l)); [| lia | unfold live_tree; cbn [kt_nodes]; rewrite N1; reflexivity].
  unfold live_tree; cbn [kt_box kt_assets]; rewrite K1, K2, B1, B2; reflexivity.
Qed.
Print Assumptions rebuild_same_small.

(* A scene of up to three assets was rendered; whatever is added and rendered again, rays see as many
   assets as before. *)
Theorem rebuild_added_refuted : forall A (box : A -> aabb) sort cost l extra s0 s1 s2 s3,
  l <> [] -> length l <= 3 ->
  live_add kd_new l = Ok s0 -> live_build box sort cost s0 = Ok s1 ->
  live_add s1 extra = Ok s2 -> live_build box sort cost s2 = Ok s3 ->
  exists seen, length seen <= length l /\
    (length (l ++ extra) <= 3 -> seen = l) /\
    forall ai r a d, kd_intersect box ai (live_tree s3) r = Ok (Some a, d) -> In a seen.
Proof.
  intros A box sort cost l extra s0 s1 s2 s3 NE L E0 E1 E2 E3.
  destruct (adds_append _ _ _ _ E0) as (_ & N0 & K0); cbn in N0, K0.
  destruct (build_small _ _ _ _ _ _ ltac:(rewrite K0; exact NE) ltac:(rewrite K0; exact L) E1) as (K1 & N1 & _).
  rewrite K0 in *; rewrite N0 in N1; cbn [app] in N1.
  destruct (adds_append _ _ _ _ E2) as (_ & N2 & K2); rewrite N1 in N2; rewrite K1 in K2.
  assert (R : nth_error (lv_nodes s3) 0 = Some (Some (kn_leaf 0 (length l)))).
  { rewrite (build_keeps _ _ _ _ _ _ E3) by (rewrite N2; cbn; lia); rewrite N2; reflexivity. }
  exists (firstn (length l) (kb_assets (lv_buf s3))); split; [apply firstn_le_length | split].
  - intro S; destruct (build_small _ _ _ _ _ _ ltac:(rewrite K2; destruct l; [congruence | discriminate]) ltac:(rewrite K2; exact S) E3) as (K3 & _).
    rewrite K3, K2, firstn_app, firstn_all, Nat.sub_diag; apply app_nil_r.
  - intros ai r a d H; rewrite (root_leaf_walk _ _ _ (live_tree s3) r (length l)) in H; [| lia | exact R].
    destruct (intersect2 _ _ _) as [[mint maxt] |]; [| discriminate].
    destruct (xlt (Fin flt_max) mint); [discriminate |].
    destruct (leaf_sees _ _ _ _ _ _ _ _ _ _ _ _ H) as [I | I]; [exact I | discriminate].
Qed.
Print Assumptions rebuild_added_refuted.

(* five boxes along x, one of them over the others *)
Definition shelf (i : nat) : aabb :=
  let b (x y z w : Q) := mk_aabb (XV (Fin x) (Fin z) (Fin 0)) (XV (Fin y) (Fin w) (Fin 1)) in
  match i with
  | 0 => b 0%Q 1%Q 0%Q 1%Q | 1 => b 0%Q 2%Q 0%Q 1%Q | 2 => b 0%Q 10%Q 2%Q 3%Q
  | 3 => b 8%Q 10%Q 0%Q 1%Q | _ => b 9%Q 10%Q 0%Q 1%Q
  end.
(* the first point of the box on the ray, if the ray starts outside *)
Definition shelf_intersect (i : nat) (r : ray) (D : xq) : option Q :=
  match intersect2 (shelf i) r (ray_properties r) with
  | Some (Fin d, _) => if qltb 0 d && xlt (Fin d) D then Some d else None
  | _ => None
  end.
Definition upwards : ray := mk_ray (V (17 # 2) (-1) (1 # 2)) (V 0 1 0) (false, false, false).

Example rebuild_small_ex :
  (let! s := live_add kd_new [0; 4] in let! s := live_build shelf (ev_sort in_order) sah_cost s in
   let! s := live_add s [3] in let! s := live_build shelf (ev_sort in_order) sah_cost s in
   let! a := kd_intersect shelf shelf_intersect (live_tree s) upwards in
   Ok (kb_assets (lv_buf s), fst a, match shelf_intersect 3 upwards (Fin flt_max) with Some d => Qeq_bool d 1 | None => false end))
  = Ok ([0; 4; 3], None, true).
Proof. vm_compute; reflexivity. Qed.

(* Rendering the same scene again: the leaves of the first tree are read from the buffer of the
   second.  The box straight above the ray is hit at distance 1 in the first picture and is missing
   in the second. *)
Theorem rebuild_same_refuted :
  match live_add kd_new [0; 1; 2; 3; 4] with
  | Ok s0 => match live_build shelf (ev_sort in_order) sah_cost s0 with
    | Ok s1 => match live_build shelf (ev_sort in_order) sah_cost s1 with
      | Ok s2 =>
          match kd_intersect shelf shelf_intersect (live_tree s1) upwards, kd_intersect shelf shelf_intersect (live_tree s2) upwards with
          | Ok (Some a, Fin d), Ok (Some a', Fin d') => a = 3 /\ (d == 1)%Q /\ a' = 2 /\ (d' == 3)%Q
          | _, _ => False
          end
      | _ => False end
    | _ => False end
  | _ => False end.
Proof. vm_compute; auto. Qed.
Print Assumptions rebuild_same_refuted.
