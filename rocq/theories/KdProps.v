(* C14, C15, C62, C63: construction and traversal of the kd-tree. *)
From Coq Require Import Permutation Sorted.
From Coq Require Import Lqa.
From Verif Require Import Common GeomModel AabbModel AabbSpec AabbProofs AabbProps BitsModel
     BitsProofs KdAddModel KdAddProps KdModel KdSpec KdBuild KdWalk KdFacts.
Local Open Scope nat_scope.

(* C14.  Whatever the assets, the order std::sort chooses among equal positions and
   the outcome of the cost computations: the arrays encode a tree of at most 15
   levels, every leaf lists every asset whose box has a point inside the region of
   the leaf (away from the planes that bound it), and lists nothing but assets of
   the scene whose box reaches that region. *)
Theorem kd_leaves_cover : forall A (box : A -> aabb) sort cost l t,
  sorts sort -> (forall a, In a l -> valid (box a)) -> l <> [] ->
  built box sort cost l = Ok t ->
  exists T, encodes (kt_nodes t) (kt_assets t) 0 T /\ kheight T <= 15 /\
    forall planes ls, In (planes, ls) (leaves T) ->
      (forall a p, In a l -> contains (box a) p -> strictly_inside p planes -> In a ls) /\
      (forall a, In a ls -> In a l /\ reaches (box a) planes).
Proof.
  intros A box sort cost l t SORT V NE B; destruct l as [|a l]; [congruence |].
  assert (L : (Z.of_nat (length (a :: l)) <= max_assets)%Z).
  { destruct (Z_le_gt_dec (Z.of_nat (length (a :: l))) max_assets) as [L | G]; [exact L |].
    unfold built in B; rewrite addAssets_over in B; [discriminate | apply kd_empty_inv |].
    cbn [kb_assets kd_empty]; change (length (@nil A)) with 0; lia. }
  pose proof (built_spec box sort cost SORT a l V L) as H; cbv zeta in H; rewrite B in H.
  destruct H as (_ & E & _).
  pose proof (pbuild_grown box sort cost kd_max_depth (a :: l) (scene_box box a l)) as G.
  exists (pbuild box sort cost kd_max_depth (a :: l) (scene_box box a l)).
  split; [exact E | split; [apply (grown_height box sort _ _ _ G) |]].
  intros planes ls I; split.
  - intros b p IB C S; apply (grown_lists box sort SORT _ _ _ G V planes ls b p); assumption.
  - intros b IB; apply (grown_only box sort SORT _ _ _ G V planes ls b); assumption.
Qed.
Print Assumptions kd_leaves_cover.

(* C14.  No asset is lost when every box has an extent along every axis, or when
   the sort is stable (and no box is turned inside out).  Missing: std::sort is not
   stable, see below. *)
Theorem kd_assets_kept_partial : forall A (box : A -> aabb) sort cost l t,
  sorts sort -> (forall a, In a l -> valid (box a)) ->
  (forall a, In a l -> thick (box a)) \/
  (stable sort /\ forall a k, In a l -> xlt (projh k (box a)) (projl k (box a)) = false) ->
  built box sort cost l = Ok t ->
  forall a, In a l <-> In a (kt_assets t).
Proof.
  intros A box sort cost l t SORT V TH B; destruct l as [|a l].
  { cbn in B; injection B as <-; intro b; cbn; tauto. }
  assert (L : (Z.of_nat (length (a :: l)) <= max_assets)%Z).
  { destruct (Z_le_gt_dec (Z.of_nat (length (a :: l))) max_assets) as [L | G]; [exact L |].
    unfold built in B; rewrite addAssets_over in B; [discriminate | apply kd_empty_inv |].
    cbn [kb_assets kd_empty]; change (length (@nil A)) with 0; lia. }
  assert (O : opens_first box sort (a :: l)).
  { destruct TH as [TH | (ST & U)].
    - apply thick_opens_first; assumption.
    - apply stable_opens_first; try assumption; intros b I k; apply U, I. }
  pose proof (built_spec box sort cost SORT a l V L) as H; cbv zeta in H; rewrite B in H.
  destruct H as (_ & _ & -> & _).
  pose proof (pbuild_grown box sort cost kd_max_depth (a :: l) (scene_box box a l)) as G.
  intro b; split; intro I.
  - apply (grown_some box sort SORT _ _ _ G V O b I).
  - apply (flat_in box sort SORT _ _ _ G V b I).
Qed.
Print Assumptions kd_assets_kept_partial.

(* ----- sorting functions allowed by the standard ----- *)
Section Insertion.
Context {A : Type}.
(* [before x y]: x is put in front of y *)
Variable before : event A -> event A -> bool.
Hypothesis B1 : forall x y, before x y = true -> xlt (ev_pos y) (ev_pos x) = false.
Hypothesis B2 : forall x y, before x y = false -> xlt (ev_pos x) (ev_pos y) = false.

Fixpoint ev_insert (x : event A) (l : list (event A)) : list (event A) :=
  match l with
  | [] => [x]
  | y :: l => if before x y then x :: y :: l else y :: ev_insert x l
  end.
Definition ev_sort (l : list (event A)) : list (event A) := fold_right ev_insert [] l.

Lemma ev_insert_perm : forall x l, Permutation (x :: l) (ev_insert x l).
Proof using.
  induction l as [|y l IH]; cbn; [apply Permutation_refl |].
  destruct (before x y); [apply Permutation_refl |].
  eapply perm_trans; [apply perm_swap |]; constructor; exact IH.
Qed.

Lemma ev_sort_perm : forall l, Permutation l (ev_sort l).
Proof using.
  induction l as [|x l IH]; cbn; [constructor |].
  eapply perm_trans; [| apply ev_insert_perm]; constructor; exact IH.
Qed.

Lemma xlt_neg_trans : forall a b c, b <> NaN -> xlt b a = false -> xlt c b = false ->
  xlt c a = false.
Proof using.
  intros [a| | |] [b| | |] [c| | |]; cbn; try congruence; rewrite !qltb_ge; intros; lra.
Qed.

Lemma ev_insert_sorted : forall x l, (forall e, In e (x :: l) -> ev_pos e <> NaN) ->
  StronglySorted (fun a b => xlt (ev_pos b) (ev_pos a) = false) l ->
  StronglySorted (fun a b => xlt (ev_pos b) (ev_pos a) = false) (ev_insert x l).
Proof using B1 B2.
  intros x l N SS; induction SS as [|y l SS IH F]; cbn.
  { constructor; constructor. }
  destruct (before x y) eqn:E.
  - constructor; [constructor; assumption |]; constructor; [apply B1, E |].
    rewrite Forall_forall in F |- *; intros z Z.
    apply (xlt_neg_trans _ (ev_pos y)); [apply N; right; left; reflexivity | apply B1, E |].
    apply F, Z.
  - constructor.
    + apply IH; intros e [<- | I]; apply N; [left; reflexivity | right; right; exact I].
    + rewrite Forall_forall in F |- *; intros z Z.
      apply (Permutation_in _ (Permutation_sym (ev_insert_perm x l))) in Z.
      destruct Z as [<- | Z]; [apply B2, E | apply F, Z].
Qed.

Lemma ev_sort_sorts : sorts ev_sort.
Proof using B1 B2.
  intros l N; split; [apply ev_sort_perm |].
  induction l as [|x l IH]; cbn; [constructor |].
  apply ev_insert_sorted.
  - intros e [<- | I]; [apply N; left; reflexivity |].
    apply N; right; apply (Permutation_in _ (Permutation_sym (ev_sort_perm l))), I.
  - apply IH; intros e I; apply N; right; exact I.
Qed.
End Insertion.

(* insertion sort keeping the order of equal positions *)
Definition in_order {A} (x y : event A) : bool := negb (xlt (ev_pos y) (ev_pos x)).
Lemma in_order_sorts : forall A, sorts (ev_sort (@in_order A)).
Proof.
  intro A; apply ev_sort_sorts; intros x y; unfold in_order;
    [apply negb_true_iff |]; rewrite negb_false_iff; intro H.
  destruct (ev_pos x), (ev_pos y); cbn in *; try congruence.
  apply qltb_lt in H; apply qltb_ge; lra.
Qed.

Lemma in_order_stable : forall A, stable (ev_sort (@in_order A)).
Proof.
  intros A l x; induction l as [|e l IH]; [reflexivity |]; cbn [ev_sort fold_right filter].
  fold (ev_sort (@in_order A) l); rewrite <- IH; clear IH.
  generalize (ev_sort (@in_order A) l); intro s.
  induction s as [|y s IH]; cbn [ev_insert filter]; [reflexivity |].
  unfold in_order at 1; destruct (xlt (ev_pos y) (ev_pos e)) eqn:L; cbn [negb filter];
    [| reflexivity].
  rewrite IH; destruct (xeq (ev_pos e) x) eqn:E1, (xeq (ev_pos y) x) eqn:E2; try reflexivity.
  exfalso; clear - L E1 E2; destruct (ev_pos y), (ev_pos e), x; cbn in *; try congruence.
  apply qltb_lt in L; apply Qeq_bool_iff in E1, E2; lra.
Qed.

(* among equal positions, right sides in front of left sides *)
Definition right_first {A} (x y : event A) : bool :=
  xlt (ev_pos x) (ev_pos y) ||
  (negb (xlt (ev_pos y) (ev_pos x)) && (negb (ev_left x) || ev_left y)).
Lemma right_first_sorts : forall A, sorts (ev_sort (@right_first A)).
Proof.
  intro A; apply ev_sort_sorts; intros x y; unfold right_first.
  - rewrite orb_true_iff, andb_true_iff, negb_true_iff; intros [H | (H & _)]; [| exact H].
    destruct (ev_pos x), (ev_pos y); cbn in *; try congruence.
    apply qltb_lt in H; apply qltb_ge; lra.
  - rewrite orb_false_iff; tauto.
Qed.

(* five assets in a row: two boxes, a wall without thickness, two boxes *)
Definition row (i : nat) : aabb :=
  match i with
  | 0 | 1 => aabb_of (V 0 0 0)%Q (V 1 1 1)%Q
  | 2 => aabb_of (V 2 0 0)%Q (V 2 1 1)%Q
  | _ => aabb_of (V 3 0 0)%Q (V 4 1 1)%Q
  end.

(* the side of the box facing lower x, hit by rays towards higher x *)
Definition row_first (i : nat) (r : ray) : option Q :=
  match projl 0 (row i) with
  | Fin q =>
      let d := (q - vx (r_o r))%Q in
      if Qeq_bool (vx (r_d r)) 1 && Qeq_bool (vy (r_d r)) 0 && Qeq_bool (vz (r_d r)) 0 &&
         qltb 0 d && Qle_bool 0 (vy (r_o r)) && Qle_bool (vy (r_o r)) 1 &&
         Qle_bool 0 (vz (r_o r)) && Qle_bool (vz (r_o r)) 1
      then Some d else None
  | _ => None
  end.
Definition row_intersect (i : nat) (r : ray) (D : xq) : option Q :=
  match row_first i r with
  | Some d => if xlt (Fin d) D then Some d else None
  | None => None
  end.
Definition row_ray : ray := mk_ray (V (3 # 2) (1 # 2) (1 # 2))%Q (V 1 0 0)%Q (false, false, false).

Lemma row_valid : forall i, valid (row i).
Proof. intros [|[|[|i]]]; apply valid_of. Qed.

Lemma row_contract : intersects_first row_first row_intersect.
Proof.
  intros a r D; unfold row_intersect; destruct (row_first a r) as [d|]; [| reflexivity].
  destruct (xlt (Fin d) D) eqn:E; split; auto; split; try congruence.
  intro H; exfalso; destruct D; cbn in *; try congruence.
  apply qltb_lt in E, H; lra.
Qed.

Lemma row_boxed : hits_in_box row row_first.
Proof.
  intros a r d; unfold row_first; destruct (projl 0 (row a)) as [q| | |] eqn:EQ; try discriminate.
  destruct (_ && _) eqn:B; [| discriminate]; intro E; injection E as <-.
  rewrite !andb_true_iff, !Qeq_bool_iff, !Qle_bool_iff, qltb_lt in B.
  destruct B as (((((((X & Y) & Z) & D) & Y1) & Y2) & Z1) & Z2); split; [exact D |].
  exists (V q (vy (r_o r)) (vz (r_o r))); split.
  - unfold on_ray; cbn; rewrite X, Y, Z; repeat split; ring.
  - destruct a as [|[|[|a]]]; cbn in EQ; injection EQ as <-; unfold contains; cbn;
      repeat split; try lra; assumption.
Qed.

(* C14.  std::sort may put the two sides of a flat asset in either order.  When the
   right side comes first and the plane of the asset is chosen as the split, the
   asset is on neither side: the wall of this scene is in no leaf, and a ray that
   hits it at distance 1/2 is reported to hit the box behind it. *)
Theorem kd_flat_asset_lost_refuted :
  sorts (ev_sort (@right_first nat)) /\
  match built row (ev_sort right_first) sah_cost [0; 1; 2; 3; 4] with
  | Ok t =>
      ~ In 2 (kt_assets t) /\ row_first 2 row_ray = Some (1 # 2)%Q /\
      match kd_intersect row row_intersect t row_ray with
      | Ok (Some a, Fin d) => a = 3 /\ (d == 3 # 2)%Q
      | _ => False
      end
  | _ => False
  end.
Proof.
  split; [apply right_first_sorts |].
  assert (E : match built row (ev_sort right_first) sah_cost [0; 1; 2; 3; 4] with
              | Ok t => kt_assets t = [0; 1; 3; 4] /\
                  match kd_intersect row row_intersect t row_ray with
                  | Ok (Some a, Fin d) => a = 3 /\ Qeq_bool d (3 # 2) = true
                  | _ => False
                  end
              | _ => False end) by (vm_compute; auto).
  destruct (built _ _ _ _) as [t| |]; [| exact E | exact E].
  destruct E as (EA & EI); rewrite EA; split; [cbn; lia | split; [vm_compute; reflexivity |]].
  destruct (kd_intersect _ _ _ _) as [[[a|] [d| | |]]| |]; try exact EI.
  destruct EI as (-> & EI); split; [reflexivity | apply Qeq_bool_iff, EI].
Qed.
Print Assumptions kd_flat_asset_lost_refuted.

(* with a stable sort the same scene is complete *)
Example kd_assets_kept_ex :
  sorts (ev_sort (@in_order nat)) /\ stable (ev_sort (@in_order nat)) /\
  match built row (ev_sort in_order) sah_cost [0; 1; 2; 3; 4] with
  | Ok t => kt_assets t = [0; 1; 2; 3; 4] /\ length (kt_nodes t) = 3
  | _ => False
  end.
Proof.
  split; [apply in_order_sorts | split; [apply in_order_stable |]]; vm_compute; auto.
Qed.

(* C14.  A box that only touches the plane bounding a region is not listed there:
   the wall is on one side only, although its box meets the regions of both
   leaves. *)
Theorem kd_touching_refuted :
  match built row (ev_sort in_order) sah_cost [0; 1; 2; 3; 4] with
  | Ok t =>
      let T := TNode 0 (Fin 2) (TLeaf [0; 1]) (TLeaf [2; 3; 4]) in
      encodes (kt_nodes t) (kt_assets t) 0 T /\
      reaches (row 2) [(0, true, Fin 2)] /\ In ([(0, true, Fin 2)], [0; 1]) (leaves T)
  | _ => False
  end.
Proof.
  assert (E : match built row (ev_sort in_order) sah_cost [0; 1; 2; 3; 4] with
              | Ok t => kt_nodes t = [Some (kn_interior (Fin 2) 0 2); Some (kn_leaf 0 2);
                                      Some (kn_leaf 2 3)] /\ kt_assets t = [0; 1; 2; 3; 4]
              | _ => False end) by (vm_compute; auto).
  destruct (built _ _ _ _) as [t| |]; [| exact E | exact E]; destruct E as (-> & ->).
  split; [| split].
  - cbn [encodes]; exists 2; split; [reflexivity | split; eexists; split; reflexivity].
  - repeat constructor.
  - left; reflexivity.
Qed.
Print Assumptions kd_touching_refuted.

Example kd_leaves_cover_ex :
  match built row (ev_sort in_order) sah_cost [0; 1; 2; 3; 4] with
  | Ok t => exists T, encodes (kt_nodes t) (kt_assets t) 0 T /\ kheight T <= 15
  | _ => False
  end.
Proof.
  destruct (built row (ev_sort in_order) sah_cost [0; 1; 2; 3; 4]) as [t| |] eqn:E;
    [| vm_compute in E; discriminate | vm_compute in E; discriminate].
  destruct (kd_leaves_cover nat row (ev_sort in_order) sah_cost [0; 1; 2; 3; 4] t
              (in_order_sorts nat) (fun a _ => row_valid a) ltac:(discriminate) E)
    as (T & H1 & H2 & _); eauto.
Qed.

(* ----- intersection ----- *)

(* C15.  For any ray and any behaviour of the assets the traversal of a built tree
   terminates without leaving its stack of 15 jobs and without reading outside the
   arrays. *)
Theorem kd_intersect_safe : forall A (box : A -> aabb) sort cost l t asset_intersect r,
  sorts sort -> (forall a, In a l -> valid (box a)) -> built box sort cost l = Ok t ->
  exists answer, kd_intersect box asset_intersect t r = Ok answer.
Proof.
  intros A box sort cost l t ai r SORT V B; unfold kd_intersect; destruct l as [|a l].
  { cbn in B; injection B as <-; cbn [kt_box]; rewrite empty_never_hit; eauto. }
  assert (L : (Z.of_nat (length (a :: l)) <= max_assets)%Z).
  { destruct (Z_le_gt_dec (Z.of_nat (length (a :: l))) max_assets) as [L | G]; [exact L |].
    unfold built in B; rewrite addAssets_over in B; [discriminate | apply kd_empty_inv |].
    cbn [kb_assets kd_empty]; change (length (@nil A)) with 0; lia. }
  pose proof (built_spec box sort cost SORT a l V L) as H; cbv zeta in H; rewrite B in H.
  pose proof (pbuild_grown box sort cost kd_max_depth (a :: l) (scene_box box a l)) as G.
  set (T := pbuild _ _ _ _ _ _) in *; clearbody T.
  destruct H as (_ & E & EA & EN & R).
  pose proof (grown_height box sort _ _ _ G) as HT.
  destruct (intersect2 _ _ _) as [[mint maxt]|]; [| eauto].
  apply (walk_ok box ai t) with (T := T) (ts := []).
  - pose proof (size_height T _ HT) as SZ; rewrite EN; clear - SZ.
    change (kd_max_depth + 1) with 16 in SZ.
    assert (P : N.of_nat (2 ^ 16) = (2 ^ 16)%N) by (rewrite Nat2N.inj_pow; reflexivity). lia.
  - rewrite EA, flat_references; unfold max_assets in R; clear - R; lia.
  - exact E.
  - pose proof (grown_planes box sort SORT _ _ _ G V) as PL; clear - PL; unfold axes.
    induction T as [ls | k s tl IHl tr IHr]; cbn [planes_ok] in *; [exact I |].
    destruct PL as (K & (q & Q & _) & PL & PR); repeat split; auto; exists q; auto.
  - cbn [length]; exact HT.
  - exact I.
  - unfold work; cbn; rewrite EN; lia.
Qed.
Print Assumptions kd_intersect_safe.

(* C15.  For every scene whose tree can be built and whose assets report their own
   first hit, inside their box and in front of the origin, and every ray that does
   not run inside the plane of a face of the box of an asset: the tree reports the
   closest hit of the scene (closer than the largest float).  Missing: flat boxes
   with an unstable sort and rays inside face planes, see the refutations. *)
Theorem kd_intersect_closest_partial :
  forall A (box : A -> aabb) sort cost l t first asset_intersect r,
  sorts sort -> (forall a, In a l -> valid (box a)) ->
  (forall a, In a l -> thick (box a)) \/
  (stable sort /\ forall a k, In a l -> xlt (projh k (box a)) (projl k (box a)) = false) ->
  intersects_first first asset_intersect -> hits_in_box box first ->
  off_faces box l r ->
  built box sort cost l = Ok t ->
  exists answer, kd_intersect box asset_intersect t r = Ok answer /\
                 kd_closest first l r answer.
Proof.
  intros A box sort cost l t first ai r SORT V TH CT BX CL B.
  destruct (kd_intersect_safe A box sort cost l t ai r SORT V B) as (ans & EI).
  exists ans; split; [exact EI |]; unfold kd_intersect in EI; destruct l as [|a l].
  { cbn in B; injection B as <-; cbn [kt_box] in EI; rewrite empty_never_hit in EI.
    injection EI as <-; unfold kd_closest; cbn; split; [reflexivity |]; intros b d []. }
  assert (L : (Z.of_nat (length (a :: l)) <= max_assets)%Z).
  { destruct (Z_le_gt_dec (Z.of_nat (length (a :: l))) max_assets) as [L | G]; [exact L |].
    unfold built in B; rewrite addAssets_over in B; [discriminate | apply kd_empty_inv |].
    cbn [kb_assets kd_empty]; change (length (@nil A)) with 0; lia. }
  assert (O : opens_first box sort (a :: l)).
  { destruct TH as [TH | (ST & U)].
    - apply thick_opens_first; assumption.
    - apply stable_opens_first; try assumption; intros b I k; apply U, I. }
  pose proof (built_spec box sort cost SORT a l V L) as H; cbv zeta in H; rewrite B in H.
  pose proof (pbuild_grown box sort cost kd_max_depth (a :: l) (scene_box box a l)) as G.
  set (T := pbuild _ _ _ _ _ _) in *; clearbody T.
  destruct H as (EB & E & EA & EN & R).
  pose proof (grown_height box sort _ _ _ G) as HT.
  assert (SMALL : (N.of_nat (length (kt_nodes t)) <= 2 ^ 16)%N).
  { pose proof (size_height T _ HT) as SZ; rewrite EN; clear - SZ.
    change (kd_max_depth + 1) with 16 in SZ.
    assert (P : N.of_nat (2 ^ 16) = (2 ^ 16)%N) by (rewrite Nat2N.inj_pow; reflexivity). lia. }
  assert (FEW : (N.of_nat (length (kt_assets t)) <= 4096)%N).
  { rewrite EA, flat_references; unfold max_assets in R; clear - R; lia. }
  assert (GOOD : good r (a :: l) T).
  { split.
    - pose proof (grown_planes box sort SORT _ _ _ G V) as PL; clear - PL CL.
      induction T as [ls | k s tl IHl tr IHr]; cbn [planes_ok] in *; [exact I |].
      destruct PL as (K & (q & Q & b & IB & F) & PL & PR).
      split; [exact K | split; [| split; auto]].
      exists q; split; [exact Q |]; intro Z; apply (CL b k q IB Z F).
    - apply listed_flat; intros b IB; apply (flat_in box sort SORT _ _ _ G V b IB). }
  assert (HIT : forall b d, In b (a :: l) -> first b r = Some d ->
     exists i, intersect2 (kt_box t) r (ray_properties r) = Some i /\
               not_after (fst i) d /\ not_before (snd i) d).
  { intros b d IB F; destruct (pt_contains box r first BX b d F) as (C & _).
    apply (slab_never_misses (kt_box t) r d (pt r d)).
    - rewrite EB; apply (scene_box_clear box a l r V CL).
    - apply pt_on.
    - rewrite EB; apply (scene_box_contains box a l b); assumption. }
  destruct (intersect2 (kt_box t) r (ray_properties r)) as [[mint maxt]|] eqn:I2.
  - pose proof I2 as I2'; rewrite EB in I2'.
    destruct (clear_interval r _ _ (scene_box_clear box a l r V CL) I2') as (N1 & N2).
    apply (walk_closest box ai t SMALL FEW r first CT BX (a :: l) V CL
             (length (kt_nodes t) + 1) 0 T mint maxt [] [] None (Fin flt_max) ans);
      try assumption.
    + exact I.
    + intro H; congruence.
    + exact I.
    + reflexivity.
    + intros b d IB F _; exists (T, mint, maxt); split; [left; reflexivity |].
      destruct (HIT b d IB F) as (i & EQ & H1 & H2); injection EQ as <-; cbn in H1, H2.
      split; [| auto].
      destruct (pt_contains box r first BX b d F) as (C & _).
      apply (grown_reach box sort SORT _ _ _ G V O b (pt r d) IB C).
  - injection EI as <-; unfold kd_closest; cbn [fst snd]; split; [reflexivity |].
    intros b d IB F; destruct (HIT b d IB F) as (i & EQ & _); discriminate.
Qed.
Print Assumptions kd_intersect_closest_partial.

Example kd_intersect_closest_ex :
  match built row (ev_sort in_order) sah_cost [0; 1; 2; 3; 4] with
  | Ok t =>
      (forall r, off_faces row [0; 1; 2; 3; 4] r ->
         exists answer, kd_intersect row row_intersect t r = Ok answer /\
                        kd_closest row_first [0; 1; 2; 3; 4] r answer) /\
      off_faces row [0; 1; 2; 3; 4] row_ray /\
      match kd_intersect row row_intersect t row_ray with
      | Ok (Some a, Fin d) => a = 2 /\ Qeq_bool d (1 # 2) = true
      | _ => False
      end
  | _ => False
  end.
Proof.
  assert (X : match built row (ev_sort in_order) sah_cost [0; 1; 2; 3; 4] with
              | Ok t => match kd_intersect row row_intersect t row_ray with
                        | Ok (Some a, Fin d) => a = 2 /\ Qeq_bool d (1 # 2) = true
                        | _ => False
                        end
              | _ => False end) by (vm_compute; auto).
  destruct (built row (ev_sort in_order) sah_cost [0; 1; 2; 3; 4]) as [t| |] eqn:E;
    [| exact X | exact X].
  split; [| split; [| exact X]].
  - intros r CL; apply (kd_intersect_closest_partial nat row (ev_sort in_order) sah_cost
      [0; 1; 2; 3; 4] t row_first row_intersect r (in_order_sorts nat) (fun a _ => row_valid a));
      try assumption; [| exact row_contract | exact row_boxed].
    right; split; [apply in_order_stable |].
    intros [|[|[|a]]] [|[|k]] _; reflexivity.
  - intros a k q IN Z H EQ; cbn in Z.
    destruct k as [|[|k]]; cbn in Z; [discriminate | |]; cbn in EQ;
      destruct a as [|[|[|a]]]; cbn in H; destruct H as [H | H]; injection H as <-;
      vm_compute in EQ; discriminate.
Qed.

(* C15.  A ray whose direction has a positive zero along x, running inside the plane
   of the lower x face of the box of an asset, never reports that asset: the entry
   parameter is NaN and `res1<bestdistance` fails.  This holds for every tree, every
   scene and every asset, whatever the asset itself would report. *)
Theorem kd_face_plane_refuted :
  forall A (box : A -> aabb) asset_intersect (t : kdtree A) r a q b D,
  (vx (r_d r) == 0)%Q -> r_nzx r = false ->
  projl 0 (box a) = Fin q -> (q == vx (r_o r))%Q ->
  kd_intersect box asset_intersect t r = Ok (Some b, D) -> b <> a.
Proof.
  intros A box ai t r a q b D DZ NZ EL EO.
  assert (NAN : forall m M, intersect2 (box a) r (ray_properties r) = Some (m, M) -> m = NaN).
  { intros m M; unfold intersect2, ray_properties; cbn [neg_x neg_y neg_z inv_x inv_y inv_z].
    cbn [projl] in EL; rewrite NZ, EL.
    assert (RX : recip false (vx (r_d r)) = PInf).
    { unfold recip; destruct (Qeqb_spec (vx (r_d r)) 0); [reflexivity | contradiction]. }
    rewrite RX; cbn [xlt].
    set (sx := slab false (Fin q) _ _ _).
    assert (FX : fst sx = NaN).
    { unfold sx, slab; cbn [fst xsub xadd xopp xmul]; unfold inf_fin.
      destruct (Qeqb_spec (q + - vx (r_o r)) 0) as [_ | N]; [reflexivity | exfalso; lra]. }
    clearbody sx; destruct sx as (m0 & M0); cbn in FX; subst m0.
    unfold narrow at 1; cbn [fst snd].
    destruct (_ || _); [discriminate |].
    unfold narrow at 1; cbn [fst snd xlt].
    destruct (_ || _); [discriminate |]; intro H; injection H as <- _; reflexivity. }
  assert (LEAF : forall assets n off found best found' best', found <> Some a ->
    kd_leaf_loop box ai assets r (ray_properties r) off n found best = Ok (found', best') ->
    found' <> Some a).
  { intros assets; induction n as [|n IH]; intros off found best found' best' F;
      cbn [kd_leaf_loop]; [intro E; injection E as <- _; exact F |].
    destruct (nth_error assets off) as [c|]; [| discriminate].
    destruct (intersect2 (box c) r (ray_properties r)) as [[m M]|] eqn:E; [| apply IH, F].
    destruct (xlt m best) eqn:X; [| apply IH, F].
    destruct (ai c r best); [| apply IH, F].
    apply IH; intro EQ; injection EQ as ->.
    rewrite (NAN m M E) in X; discriminate X. }
  assert (WALK : forall fuel n mint maxt jobs found best found' best', found <> Some a ->
    kd_walk box ai fuel t r (ray_properties r) n mint maxt jobs found best = Ok (found', best') ->
    found' <> Some a).
  { induction fuel as [|fuel IH]; intros n mint maxt jobs found best found' best' F;
      cbn [kd_walk]; [discriminate |].
    destruct (xlt best mint); [intro E; injection E as <- _; exact F |].
    destruct (nth_error (kt_nodes t) n) as [[node|]|]; try discriminate.
    destruct (kd_isLeaf (kn_word node)); destruct (kn_union node) as [s | off]; try discriminate.
    - destruct (kd_leaf_loop _ _ _ _ _ _ _ _ _) as [[f1 b1]| |] eqn:EL1; cbn [bind];
        try discriminate.
      pose proof (LEAF _ _ _ _ _ _ _ F EL1) as F1.
      destruct jobs as [|[[n' m'] M'] jobs]; [intro E; injection E as <- _; exact F1 |].
      apply IH, F1.
    - destruct (_ || xge (Fin 0) _); [apply IH, F |].
      destruct (xlt _ mint); [apply IH, F |].
      destruct (_ <=? _); [discriminate | apply IH, F]. }
  unfold kd_intersect; destruct (intersect2 (kt_box t) r _) as [[mint maxt]|].
  - intros E EQ; apply (WALK _ _ _ _ _ None _ _ _ (fun H => match H with eq_refl => I end) E); congruence.
  - intro E; discriminate.
Qed.
Print Assumptions kd_face_plane_refuted.
