(* C17-C20: the bounding volume hierarchy. *)
From Coq Require Import Permutation Sorted Lqa.
From Verif Require Import Common GeomModel AabbModel AabbSpec AabbProofs TriModel TriSpec
  TriProofs TriProps BvhModel BvhSpec BvhCombine BvhBuild BvhWalk.
Local Open Scope nat_scope.

Lemma codes_of_length : forall lo ext cs codes, codes_of lo ext cs = Ok codes ->
  length codes = length cs.
Proof.
  intros lo ext cs; induction cs as [|c cs IH]; intros codes E; cbn [codes_of] in E.
  - injection E as <-; reflexivity.
  - destruct (mortonCode _) as [m | |]; try discriminate; cbn [bind] in E.
    destruct (codes_of lo ext cs) as [l | |] eqn:EL; try discriminate; cbn [bind] in E.
    injection E as <-; cbn; f_equal; apply IH; reflexivity.
Qed.

Lemma morton_codes_length : forall tris codes, morton_codes tris = Ok codes ->
  length codes = length tris.
Proof.
  intros tris codes E; apply codes_of_length in E; rewrite map_length in E; exact E.
Qed.

Lemma bind_ok : forall A B (a : A) (f : A -> res B), bind (Ok a) f = f a.
Proof. reflexivity. Qed.

(* what every construction leaves *)
Lemma buildTree_ok : forall sort aac tris b, sorts sort -> (forall x, 4 <= x -> 1 <= aac x) ->
  0 < length tris -> buildTree sort aac tris = Ok b ->
  exists root, layout (bv_nodes b) 0 root /\ length (bv_nodes b) = size root /\
    wf (bv_tris b) root /\ Permutation (members root) (seq 0 (length tris)) /\
    Permutation (bv_tris b) tris.
Proof.
  intros sort aac tris b SO A L E; unfold buildTree in E.
  destruct (Nat.ltb_spec (length tris) aac_delta) as [L4 | L4]; unfold aac_delta in L4.
  - injection E as <-; unfold build_small.
    set (box := fold_left engulf (map tri_aabb tris) aabb_empty).
    exists (BLeaf box 0 (length tris)).
    split; [reflexivity |]; split; [reflexivity |]; cbn [bv_tris].
    split; [| split; reflexivity].
    assert (H : forall l b0, (b0 = aabb_empty \/ fin_box b0) ->
      let bb := fold_left engulf (map tri_aabb l) b0 in
      (l <> [] \/ fin_box b0 -> fin_box bb) /\
      (forall p, contains b0 p -> contains bb p) /\
      forall T, In T l -> inside_of (tri_aabb T) bb).
    { induction l as [|T l IH]; intros b0 B; cbn [map fold_left]; cbn zeta.
      { split; [intros [X | X]; [contradiction | exact X] |]; split; [auto | contradiction]. }
      assert (FB : fin_box (engulf b0 (tri_aabb T))).
      { destruct B as [-> | B]; [| apply fin_engulf; [exact B | apply fin_tri]].
        destruct (fin_tri T) as (lo & hi & E & VL); rewrite E, engulf_empty.
        exists lo, hi; split; [reflexivity | exact VL]. }
      assert (VB : valid b0) by (destruct B as [-> | B]; [apply valid_empty | apply fin_valid, B]).
      destruct (IH _ (or_intror FB)) as (I1 & I2 & I3); cbn zeta in *.
      split; [intros _; apply I1; right; exact FB |]; split.
      - intros p P; apply I2, contains_l; [apply tri_aabb_valid | exact P].
      - intros T' [<- | I]; [intros p P; apply I2, contains_r; assumption | apply I3, I]. }
    destruct (H tris aabb_empty (or_introl eq_refl)) as (H1 & _ & H3); cbn zeta in *; fold box in H1, H3.
    assert (FB : fin_box box) by (apply H1; left; intros ->; cbn in L; lia).
    split; [exact FB |]; split; [cbn [full]; lia |].
    cbn [encloses bounding]; split; [apply fin_valid, FB |]; split; [| exact I].
    intros i T _ N; apply H3; apply nth_error_In with i; exact N.
  - destruct (morton_codes tris) as [codes | |] eqn:EM; try discriminate.
    rewrite bind_ok in E.
    assert (LC := morton_codes_length _ _ EM).
    destruct (build_sorted_ok aac tris codes (sort (prims_of codes)) A L LC
                (proj1 (SO (prims_of codes)))) as (arr & rt & root & E' & P & D & Y & SZ & W & M & _).
    rewrite E' in E; injection E as <-.
    exists root; do 4 (split; [assumption |]); exact P.
Qed.

Lemma wf_sound : forall tris root n, wf tris root -> Permutation (members root) (seq 0 n) ->
  length tris = n -> sound tris root.
Proof.
  intros tris root n (F & FU & E) P L; split; [exact FU |]; split; [exact E |].
  intros i I; rewrite P in I; apply in_seq in I; lia.
Qed.

(* C17.  Building keeps the triangles, only changing their order, and the leaves
   together hold every position exactly once. *)
Theorem bvh_build_permutes : forall sort aac tris b, sorts sort -> (forall x, 4 <= x -> 1 <= aac x) ->
  buildTree sort aac tris = Ok b ->
  Permutation (bv_tris b) tris /\ Permutation (leaf_positions b) (seq 0 (length tris)).
Proof.
  intros sort aac tris b SO A E.
  destruct (length tris) as [|n] eqn:L.
  { destruct tris; [| discriminate]; injection E as <-; split; constructor. }
  destruct (buildTree_ok sort aac tris b SO A ltac:(lia) E)
    as (root & Y & SZ & (_ & FU & _) & M & P).
  split; [exact P |].
  assert (H := layout_positions root (bv_nodes b) 0 FU Y).
  rewrite <- SZ in H; cbn [skipn] in H; rewrite firstn_all in H.
  unfold leaf_positions; change (fun o => _) with node_positions.
  rewrite H, <- L; exact M.
Qed.
Print Assumptions bvh_build_permutes.

(* C18.  The array is the preorder layout of a binary tree: every element is
   written, the children of an interior node are where the traversal looks for
   them, no leaf is empty, and every box contains the boxes of the triangles of
   the subtree. *)
Theorem bvh_array_is_tree : forall sort aac tris b, sorts sort -> (forall x, 4 <= x -> 1 <= aac x) ->
  tris <> [] -> buildTree sort aac tris = Ok b ->
  exists root, encodes (bv_nodes b) 0 root /\ length (bv_nodes b) = size root /\
    Forall (fun o => o <> None) (bv_nodes b) /\
    Permutation (members root) (seq 0 (length tris)) /\ full root /\ encloses (bv_tris b) root.
Proof.
  intros sort aac tris b SO A NE E.
  destruct (buildTree_ok sort aac tris b SO A ltac:(destruct tris; [contradiction | cbn; lia]) E)
    as (root & Y & SZ & (_ & FU & EN) & M & P).
  exists root; split; [apply layout_encodes, Y |]; split; [exact SZ |].
  split; [| split; [exact M | split; [exact FU | exact EN]]].
  assert (H : forall t nodes i, layout nodes i t ->
            forall j, i <= j < i + size t -> exists n, nth_error nodes j = Some (Some n)).
  { induction t as [bx o k | bx l IHl r IHr a]; intros nodes i Hy j J; cbn [layout size] in *.
    - assert (j = i) by lia; subst j; eexists; exact Hy.
    - destruct Hy as (H0 & Hl & Hr).
      destruct (Nat.eq_dec j i) as [-> | N]; [eexists; exact H0 |].
      destruct (Nat.lt_ge_cases j (S i + size l)) as [Q1 | Q1].
      + apply (IHl nodes (S i) Hl j); lia.
      + apply (IHr nodes (S i + size l) Hr j); lia. }
  apply Forall_forall; intros o I X.
  destruct (In_nth_error _ _ I) as (j & J).
  assert (LJ : j < length (bv_nodes b)) by (apply nth_error_Some; congruence).
  destruct (H root (bv_nodes b) 0 Y j ltac:(lia)) as (n & N); congruence.
Qed.
Print Assumptions bvh_array_is_tree.

(* the exact AAC_F is positive where it is used *)
Lemma aac_f_pos : forall x, 4 <= x -> 1 <= aac_f x.
Proof.
  intros x H; unfold aac_f; rewrite Nat.add_comm; cbn [Nat.add aac_search].
  assert (G : forall fuel k y, (k <= aac_search fuel k y)%N).
  { induction fuel as [|fuel IH]; intros k y; cbn [aac_search]; [apply N.le_refl |].
    destruct (_ <=? _)%N; [apply N.le_refl |]. specialize (IH (k + 1)%N y); lia. }
  destruct (N.leb_spec (16 * N.of_nat x ^ 3) (0 ^ 10)) as [L | _].
  - exfalso. change (0 ^ 10)%N with 0%N in L.
    assert (N.of_nat x ^ 3 <> 0)%N by (apply N.pow_nonzero; lia). lia.
  - assert (X := G (S x) (0 + 1)%N (N.of_nat x)); cbn [aac_search] in X.
    match goal with |- 1 <= N.to_nat ?e => set (y := e) in * end. clearbody y. lia.
Qed.

(* a sort for the examples *)
Fixpoint insert (p : prim) (l : list prim) : list prim :=
  match l with
  | [] => [p]
  | q :: l => if (pr_morton p <=? pr_morton q)%N then p :: q :: l else q :: insert p l
  end.
Definition isort (l : list prim) : list prim := fold_right insert [] l.

Lemma isort_sorts : sorts isort.
Proof.
  assert (IP : forall p l, Permutation (p :: l) (insert p l)).
  { intros p l; induction l as [|q l IH]; cbn [insert]; [reflexivity |].
    destruct (_ <=? _)%N; [reflexivity |].
    transitivity (q :: p :: l); [apply perm_swap | apply perm_skip, IH]. }
  assert (IS : forall p l, Sorted (fun a b => (pr_morton a <= pr_morton b)%N) l ->
                Sorted (fun a b => (pr_morton a <= pr_morton b)%N) (insert p l)).
  { intros p l; induction l as [|q l IH]; intro H; cbn [insert].
    - constructor; constructor.
    - destruct (N.leb_spec (pr_morton p) (pr_morton q)) as [L | L].
      + constructor; [exact H | constructor; exact L].
      + inversion H as [| ? ? H1 H2]; subst; constructor; [apply IH, H1 |].
        destruct l as [|x l]; cbn [insert]; [constructor; lia |].
        inversion H2; subst. destruct (_ <=? _)%N; constructor; lia. }
  intro l; split; induction l as [|p l IH]; cbn [isort fold_right].
  - reflexivity.
  - transitivity (p :: fold_right insert [] l); [apply perm_skip, IH | apply IP].
  - constructor.
  - apply IS, IH.
Qed.

(* five triangles, not in the order of their codes *)
Definition tri_at (x y z : Q) : triangle :=
  mk_tri (mk_vertex (V x y z) (V 0 0 1)%Q (0%Q, 0%Q)) (mk_vertex (V (x + 1) y z) (V 0 0 1) (1, 0))%Q
         (mk_vertex (V x (y + 1) z) (V 0 0 1) (0, 1))%Q.
Definition mesh5 : list triangle :=
  [tri_at 0 0 4; tri_at 3 1 1; tri_at 0 0 0; tri_at 7 2 3; tri_at 1 5 2]%Q.

Example bvh_case :
  sorts isort /\ (forall x, 4 <= x -> 1 <= aac_f x) /\
  match buildTree isort aac_f mesh5 with
  | Ok b =>
      length (bv_nodes b) = 3 /\ bv_tris b <> mesh5 /\
      match bvh_intersect no_mask b
              (mk_ray (V (1 # 4) (1 # 4) 10) (V 0 0 (-1)) (false, false, false))%Q PInf hit0 with
      | Ok s => rs_found s = true /\ h_index (rs_hit s) = 3 /\
                match rs_dist s with Fin d => (d == 6)%Q | _ => False end
      | _ => False
      end
  | _ => False
  end.
Proof.
  split; [exact isort_sorts |]; split; [exact aac_f_pos |].
  vm_compute. split; [reflexivity |]; split; [discriminate |].
  split; [reflexivity |]; split; reflexivity.
Qed.

(* what the answer means: `closest` over all the triangles *)
Definition answers (masked : hit -> bool) (b : bvh) (r : ray) (D : xq) (h : hit) (s : rstate) : Prop :=
  closest masked (bv_tris b) r D h (fun i => i < length (bv_tris b)) s.

(* C19.  When the tree is no deeper than the stack, the traversal never leaves an
   array and returns the hit of the closest triangle, among all of them, that is
   met no further than the distance given: no triangle is lost to the boxes or to
   the order of the visit.  Missing for the full claim: deeper trees. *)
Theorem bvh_intersect_closest_partial : forall sort aac tris b, sorts sort ->
  (forall x, 4 <= x -> 1 <= aac x) -> tris <> [] -> buildTree sort aac tris = Ok b ->
  exists root, encodes (bv_nodes b) 0 root /\ length (bv_nodes b) = size root /\
    (height root <= 32 -> forall masked r D h,
      exists s, bvh_intersect masked b r D h = Ok s /\ answers masked b r D h s).
Proof.
  intros sort aac tris b SO A NE E.
  destruct (buildTree_ok sort aac tris b SO A ltac:(destruct tris; [contradiction | cbn; lia]) E)
    as (root & Y & SZ & W & M & P).
  exists root; split; [apply layout_encodes, Y |]; split; [exact SZ |].
  intros H masked r D h.
  assert (LT := Permutation_length P).
  destruct (intersect_closest masked (bv_nodes b) (bv_tris b) root r D h Y SZ
              (wf_sound _ _ _ W M LT) H) as (s & E1 & C).
  exists s; split; [destruct b; exact E1 |].
  apply closest_ext with (2 := C); intro i.
  split; intro I.
  - rewrite M in I; apply in_seq in I; lia.
  - rewrite M; apply in_seq; lia.
Qed.
Print Assumptions bvh_intersect_closest_partial.

Lemma height_members : forall t, full t -> S (height t) <= length (members t).
Proof.
  induction t as [b o n | b l IHl r IHr a]; intro F; cbn [full members height] in *.
  - rewrite seq_length; lia.
  - destruct F as (Fl & Fr); rewrite app_length; specialize (IHl Fl); specialize (IHr Fr); lia.
Qed.

(* C19 and C20 for meshes of at most 33 triangles, with no condition on the tree. *)
Theorem bvh_intersect_closest_small : forall sort aac tris b, sorts sort ->
  (forall x, 4 <= x -> 1 <= aac x) -> 1 <= length tris <= 33 -> buildTree sort aac tris = Ok b ->
  forall masked r D h, exists s, bvh_intersect masked b r D h = Ok s /\ answers masked b r D h s.
Proof.
  intros sort aac tris b SO A L E masked r D h.
  destruct (buildTree_ok sort aac tris b SO A ltac:(lia) E) as (root & Y & SZ & W & M & P).
  assert (HM := height_members root (proj1 (proj2 W))).
  rewrite (Permutation_length M), seq_length in HM.
  assert (LT := Permutation_length P).
  destruct (intersect_closest masked (bv_nodes b) (bv_tris b) root r D h Y SZ
              (wf_sound _ _ _ W M LT) ltac:(unfold bvh_max_depth; lia)) as (s & E1 & C).
  exists s; split; [destruct b; exact E1 |].
  apply closest_ext with (2 := C); intro i.
  split; intro I.
  - rewrite M in I; apply in_seq in I; lia.
  - rewrite M; apply in_seq; lia.
Qed.
Print Assumptions bvh_intersect_closest_small.

(* C19, in geometric terms and without a mask: a miss means that no triangle of
   the mesh (whose plane the ray crosses) is met in the accepted range; a hit is
   met at the reported parameter and no triangle is met before it. *)
Theorem bvh_answer_geometric : forall b r D h s, answers no_mask b r D h s ->
  if rs_found s then
    exists d T w u v, rs_dist s = Fin d /\
      nth_error (bv_tris b) (h_index (rs_hit s)) = Some T /\
      meets T r d w u v /\ acceptable D d /\
      veq (h_point (rs_hit s)) (mix w u v (v_p (t_a T)) (v_p (t_b T)) (v_p (t_c T))) /\
      forall T' t w' u' v', In T' (bv_tris b) -> transversal T' r -> meets T' r t w' u' v' ->
        (self_err <= t)%Q -> (d <= t)%Q
  else
    rs_dist s = D /\ rs_hit s = h /\
    forall T' t w' u' v', In T' (bv_tris b) -> transversal T' r -> meets T' r t w' u' v' ->
      ~ acceptable D t.
Proof.
  intros b r D h s C; unfold answers, closest in C.
  assert (HIT : forall T' t w' u' v', transversal T' r -> meets T' r t w' u' v' ->
            (self_err <= t)%Q -> exists d, hit_at no_mask r h T' = Some d /\ (d == t)%Q).
  { intros T' t w' u' v' TR ME LE.
    destruct (tri_hit_complete no_mask T' r PInf h t w' u' v' TR ME (conj LE eq_refl)
                (fun _ => eq_refl)) as (d & h' & E & Q1).
    exists d; unfold hit_at; rewrite E; split; [reflexivity | exact Q1]. }
  destruct (rs_found s).
  - destruct C as (i & T & d & h' & I & N & TI & DI & LE & HI & M).
    destruct (tri_hit_sound _ _ _ _ _ _ _ TI) as (_ & w & u & v & ME & (A1 & _) & PT & _).
    exists d, T, w, u, v; split; [exact DI |]; rewrite HI; cbn [with_index h_index h_point].
    split; [exact N |]; split; [exact ME |]; split; [split; [exact A1 | exact LE] |].
    split; [exact PT |].
    intros T' t w' u' v' I' TR ME' LE'.
    destruct (HIT T' t w' u' v' TR ME' LE') as (d' & H' & Q1).
    destruct (In_nth_error _ _ I') as (j & J).
    assert (X := M j T' d' ltac:(apply nth_error_Some; congruence) J H'). lra.
  - destruct C as (D1 & H1 & M); split; [exact D1 |]; split; [exact H1 |].
    intros T' t w' u' v' I' TR ME' (A1 & A2).
    destruct (HIT T' t w' u' v' TR ME' A1) as (d' & H' & Q1).
    destruct (In_nth_error _ _ I') as (j & J).
    assert (X := M j T' d' ltac:(apply nth_error_Some; congruence) J H').
    destruct D as [D | | |]; cbn [xlt] in *; try discriminate.
    apply qltb_lt in X; apply qltb_ge in A2; lra.
Qed.
Print Assumptions bvh_answer_geometric.
