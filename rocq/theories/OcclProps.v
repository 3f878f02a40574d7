(* C48, C66: answers of the occlusion test and its cache. *)
From Coq Require Import Lqa.
From Verif Require Import Common GeomModel AabbModel AabbSpec AabbProofs AabbProps BitsModel
     KdAddModel KdAddProps KdModel KdSpec KdBuild KdWalk KdFacts KdProps KdCases.
From Verif Require Import OcclModel OcclSpec.
From Verif Require Import TriModel TriSpec TriProofs TriProps.
Local Open Scope nat_scope.

Lemma obind_ok : forall X Y (x : X) (f : X -> res Y), bind (Ok x) f = f x.
Proof. reflexivity. Qed.

(* ----- the traversal reports assets of the tree ----- *)

Lemma leaf_loop_listed : forall A (box : A -> aabb) ai assets r p n off found best found' best',
  (forall a, found = Some a -> In a assets) ->
  kd_leaf_loop box ai assets r p off n found best = Ok (found', best') ->
  forall a, found' = Some a -> In a assets.
Proof.
  intros A box ai assets r p; induction n as [|n IH]; intros off found best found' best' F;
    cbn [kd_leaf_loop]; [intro E; injection E as <- _; exact F |].
  destruct (nth_error assets off) as [c|] eqn:N; [| discriminate].
  destruct (intersect2 (box c) r p) as [[m M]|]; [| apply IH, F].
  destruct (xlt m best); [| apply IH, F].
  destruct (ai c r best); [| apply IH, F].
  apply IH; intros a EQ; injection EQ as <-; apply (nth_error_In _ _ N).
Qed.

Lemma walk_listed : forall A (box : A -> aabb) ai (t : kdtree A) r p fuel n mint maxt jobs found best
    found' best',
  (forall a, found = Some a -> In a (kt_assets t)) ->
  kd_walk box ai fuel t r p n mint maxt jobs found best = Ok (found', best') ->
  forall a, found' = Some a -> In a (kt_assets t).
Proof.
  intros A box ai t r p; induction fuel as [|fuel IH];
    intros n mint maxt jobs found best found' best' F; cbn [kd_walk]; [discriminate |].
  destruct (xlt best mint); [intro E; injection E as <- _; exact F |].
  destruct (nth_error (kt_nodes t) n) as [[node|]|]; try discriminate.
  destruct (kd_isLeaf (kn_word node)); destruct (kn_union node) as [s | off]; try discriminate.
  - destruct (kd_leaf_loop _ _ _ _ _ _ _ _ _) as [[f1 b1]| |] eqn:EL1; cbn [bind];
      try discriminate.
    pose proof (leaf_loop_listed _ _ _ _ _ _ _ _ _ _ _ _ F EL1) as F1.
    destruct jobs as [|[[n' m'] M'] jobs]; [intro E; injection E as <- _; exact F1 |].
    apply IH, F1.
  - destruct (_ || xge (Fin 0) _); [apply IH, F |].
    destruct (xlt _ mint); [apply IH, F |].
    destruct (_ <=? _); [discriminate | apply IH, F].
Qed.

Lemma kd_found_listed : forall A (box : A -> aabb) ai (t : kdtree A) r a d,
  kd_intersect box ai t r = Ok (Some a, d) -> In a (kt_assets t).
Proof.
  intros A box ai t r a d; unfold kd_intersect.
  destruct (intersect2 _ _ _) as [[m M]|]; [| discriminate].
  intro E; refine (walk_listed _ _ _ _ _ _ _ _ _ _ _ None _ (Some a) d _ E a eq_refl);
    discriminate.
Qed.

Lemma built_listed : forall A (box : A -> aabb) sort cost l t,
  sorts sort -> (forall a, In a l -> valid (box a)) -> built box sort cost l = Ok t ->
  forall a, In a (kt_assets t) -> In a l.
Proof.
  intros A box sort cost l t SORT V B; destruct l as [|a0 l].
  { cbn in B; injection B as <-; intros a []. }
  assert (L : (Z.of_nat (length (a0 :: l)) <= max_assets)%Z).
  { destruct (Z_le_gt_dec (Z.of_nat (length (a0 :: l))) max_assets) as [L | G]; [exact L |].
    unfold built in B; rewrite addAssets_over in B; [discriminate | apply kd_empty_inv |].
    cbn [kb_assets kd_empty]; change (length (@nil A)) with 0; lia. }
  pose proof (built_spec box sort cost SORT a0 l V L) as H; cbv zeta in H; rewrite B in H.
  destruct H as (_ & _ & -> & _); intros a I.
  exact (flat_in box sort SORT _ _ _ (pbuild_grown box sort cost kd_max_depth _ _) V a I).
Qed.

(* ----- the cache ----- *)

Definition cache_inv {A} (l : list A) (c : cache A) : Prop :=
  length c = default_bounces /\ forall a, In (Some a) c -> In a l.

Lemma cache_new_inv : forall A (l : list A), cache_inv l cache_new.
Proof.
  intros A l; split; [apply repeat_length |].
  intros a I; apply repeat_spec in I; discriminate.
Qed.

Lemma cache_put_inv : forall A (l : list A) c i a, cache_inv l c -> i < default_bounces -> In a l ->
  cache_inv l (cache_put c i a).
Proof.
  intros A l c i a (L & I) K IA; unfold cache_put; split.
  - rewrite app_length; cbn [length]; rewrite firstn_length, skipn_length; lia.
  - intros b H; apply in_app_or in H; destruct H as [H | [H | H]].
    + apply I; rewrite <- (firstn_skipn i c); apply in_or_app; left; exact H.
    + injection H as <-; exact IA.
    + apply I; rewrite <- (firstn_skipn (Datatypes.S i) c); apply in_or_app; right; exact H.
Qed.

Lemma cache_nth : forall A (l : list A) c i, cache_inv l c -> i < default_bounces ->
  exists o, nth_error c i = Some o /\ forall a, o = Some a -> In a l.
Proof.
  intros A l c i (L & I) K; destruct (nth_error c i) as [o|] eqn:N.
  - exists o; split; [reflexivity |]; intros a ->; apply I, (nth_error_In _ _ N).
  - apply nth_error_None in N; lia.
Qed.

Lemma occl_step : forall A (box : A -> aabb) sort cost l t ai len r k D c,
  sorts sort -> (forall a, In a l -> valid (box a)) -> built box sort cost l = Ok t ->
  cache_inv l c -> k < default_bounces ->
  exists b c', is_occluded box ai len t c r k D = Ok (b, c') /\ cache_inv l c'.
Proof.
  intros A box sort cost l t ai len r k D c SORT V B INV K; unfold is_occluded.
  destruct (cache_nth A l c k INV K) as (o & -> & _).
  set (hit := match o with None => false | Some _ => _ end); destruct hit; [eauto |].
  destruct (kd_intersect_safe A box sort cost l t ai r SORT V B) as ([found best] & E).
  rewrite E, obind_ok; destruct found as [a|]; [| eauto].
  eexists; eexists; split; [reflexivity |]; apply cache_put_inv; try assumption.
  apply (built_listed A box sort cost l t SORT V B a), (kd_found_listed A box ai t r a best E).
Qed.

Lemma occl_history : forall A (box : A -> aabb) sort cost l t ai len qs c,
  sorts sort -> (forall a, In a l -> valid (box a)) -> built box sort cost l = Ok t ->
  cache_inv l c -> Forall (fun q : query => snd (fst q) < default_bounces) qs ->
  exists c', after box ai len t c qs = Ok c' /\ cache_inv l c'.
Proof.
  intros A box sort cost l t ai len; induction qs as [|[[r k] D] qs IH]; intros c SORT V B INV F;
    cbn [after]; [eauto |].
  inversion F as [|x y K F']; subst; cbn [fst snd] in K.
  destruct (occl_step A box sort cost l t ai len r k D c SORT V B INV K) as (b & c' & -> & INV').
  rewrite obind_ok; apply IH; assumption.
Qed.

(* C48.  Whatever was asked before (any rays), the answer for a ray with a direction of
   length one that does not run inside the plane of a face of a bounding box says
   whether something is hit before the light; so it is the same after any other
   history.  Missing: other rays, see the refutations. *)
Theorem occlusion_history_partial :
  forall A (box : A -> aabb) sort cost l t first asset_intersect len qs r k D,
  sorts sort -> (forall a, In a l -> valid (box a)) ->
  (forall a, In a l -> thick (box a)) \/
  (stable sort /\ forall a k, In a l -> xlt (projh k (box a)) (projl k (box a)) = false) ->
  intersects_first first asset_intersect -> hits_in_box box first ->
  built box sort cost l = Ok t ->
  Forall (fun q : query => snd (fst q) < 5) qs -> k < 5 ->
  is_length (len (r_d r)) (r_d r) -> (len (r_d r) == 1)%Q -> off_faces box l r -> (D <= flt_max)%Q ->
  exists c b c', after box asset_intersect len t cache_new qs = Ok c /\
    is_occluded box asset_intersect len t c r k D = Ok (b, c') /\
    (b = true <-> occluded first l r D).
Proof.
  intros A box sort cost l t first ai len qs r k D SORT V TH CT BX B QS K _ LEN OFF DM.
  destruct (occl_history A box sort cost l t ai len qs cache_new SORT V B (cache_new_inv A l) QS)
    as (c & EC & INV).
  destruct (kd_intersect_closest_partial A box sort cost l t first ai r SORT V TH CT BX OFF B)
    as ([found best] & EI & CL).
  exists c; unfold is_occluded.
  destruct (cache_nth A l c k INV K) as (o & -> & OL).
  set (hit := match o with None => false | Some _ => _ end).
  destruct hit eqn:H.
  - exists true, c; split; [exact EC | split; [reflexivity |]].
    split; [intros _ | reflexivity]; unfold hit in H; destruct o as [a|]; [| discriminate].
    pose proof (CT a r (Fin flt_max)) as C.
    destruct (ai a r (Fin flt_max)) as [d|]; [| discriminate].
    destruct (first a r) as [d'|] eqn:F; [| discriminate].
    destruct C as ([C | C] & _); [injection C as ->| discriminate].
    exists a, d'; split; [apply OL; reflexivity | split; [exact F |]].
    apply qltb_lt in H; exact H.
  - rewrite EI, obind_ok; unfold kd_closest in CL; cbn [fst snd] in CL.
    destruct found as [a|].
    + destruct CL as (IA & d & F & -> & _ & MIN).
      eexists; eexists; split; [exact EC | split; [reflexivity |]].
      split.
      * intro L; apply qltb_lt in L; rewrite LEN, Qmult_1_r in L; exists a, d; auto.
      * intros (a' & d' & I' & F' & L'); apply qltb_lt; rewrite LEN, Qmult_1_r.
        pose proof (MIN a' d' I' F'); unfold occlusion_error; lra.
    + destruct CL as (_ & FAR); exists false, c; split; [exact EC | split; [reflexivity |]].
      split; [discriminate |]; intros (a & d & I & F & L).
      pose proof (FAR a d I F); exfalso; lra.
Qed.
Print Assumptions occlusion_history_partial.

(* C48.  Asking the same question twice gives two answers: when the direction is
   longer than one, the closest hit is measured as a distance the first time and as a
   parameter of the ray the second time. *)
Theorem occlusion_twice_refuted :
  forall A (box : A -> aabb) asset_intersect len (t : kdtree A) r k D a d,
  k < 5 -> kd_intersect box asset_intersect t r = Ok (Some a, Fin d) ->
  asset_intersect a r (Fin flt_max) = Some d ->
  (d + (1 # 1000) < D)%Q -> (D <= d * len (r_d r) + (1 # 1000))%Q ->
  exists c, is_occluded box asset_intersect len t cache_new r k D = Ok (false, c) /\
            is_occluded box asset_intersect len t c r k D = Ok (true, c).
Proof.
  intros A box ai len t r k D a d K E H L1 L2; exists (cache_put cache_new k a).
  assert (N : nth_error (@cache_new A) k = Some None).
  { do 5 (destruct k as [|k]; [reflexivity |]); lia. }
  assert (N' : nth_error (cache_put (@cache_new A) k a) k = Some (Some a)).
  { do 5 (destruct k as [|k]; [reflexivity |]); lia. }
  unfold is_occluded; rewrite N, N', H; split.
  - rewrite E, obind_ok; f_equal; f_equal; apply qltb_ge; exact L2.
  - replace (qltb (d + occlusion_error) D) with true; [reflexivity |].
    symmetry; apply qltb_lt; exact L1.
Qed.
Print Assumptions occlusion_twice_refuted.

Definition one_tri : res (kdtree triangle) := built tri_aabb (ev_sort in_order) sah_cost [floor_tri].
Definition len_z (v : vec) : Q := qmax (vz v) (- vz v).   (* for directions along z *)
Definition long_ray : ray := mk_ray (V (1 # 4) (1 # 4) 0) (V 0 0 2) (false, false, false).

Example occlusion_twice_ex :
  is_length (len_z (r_d long_ray)) (r_d long_ray) /\
  match one_tri with
  | Ok t =>
      match is_occluded tri_aabb tri_asset len_z t cache_new long_ray 0 (9 # 10) with
      | Ok (b, c) =>
          b = false /\
          match is_occluded tri_aabb tri_asset len_z t c long_ray 0 (9 # 10) with
          | Ok (b, _) => b = true
          | _ => False
          end
      | _ => False
      end
  | _ => False
  end.
Proof. split; [split; [discriminate | reflexivity] | vm_compute; auto]. Qed.

(* C48.  A direction of length one is not enough: the edge of a triangle in the face
   plane of its box is not found through the tree, and found through the cache once
   another ray has hit the triangle. *)
Theorem occlusion_face_plane_refuted :
  match one_tri with
  | Ok t =>
      exists c, after tri_aabb tri_asset len_z t cache_new [(up_ray (1 # 4), 0, 2%Q)] = Ok c /\
      (exists c1, is_occluded tri_aabb tri_asset len_z t cache_new (up_ray 0) 0 2%Q = Ok (false, c1)) /\
      (exists c2, is_occluded tri_aabb tri_asset len_z t c (up_ray 0) 0 2%Q = Ok (true, c2)) /\
      occluded tri_first [floor_tri] (up_ray 0) 2
  | _ => False
  end.
Proof.
  assert (X : match one_tri with
    | Ok t =>
        match after tri_aabb tri_asset len_z t cache_new [(up_ray (1 # 4), 0, 2%Q)] with
        | Ok c =>
            match is_occluded tri_aabb tri_asset len_z t cache_new (up_ray 0) 0 2%Q with
            | Ok (b, _) => b = false | _ => False end /\
            match is_occluded tri_aabb tri_asset len_z t c (up_ray 0) 0 2%Q with
            | Ok (b, _) => b = true | _ => False end
        | _ => False
        end
    | _ => False end) by (vm_compute; auto).
  destruct one_tri as [t| |]; [| exact X | exact X].
  destruct (after _ _ _ t cache_new _) as [c| |]; [| contradiction | contradiction].
  destruct X as (X1 & X2); exists c; split; [reflexivity |].
  destruct (is_occluded _ _ _ t cache_new _ _ _) as [[b c1]| |]; [| contradiction | contradiction].
  subst b; split; [eauto |].
  destruct (is_occluded _ _ _ t c _ _ _) as [[b c2]| |]; [| contradiction | contradiction].
  subst b; split; [eauto |].
  assert (Y : match tri_first floor_tri (up_ray 0) with Some d => Qeq_bool d 1 = true | None => False end)
    by (vm_compute; auto).
  destruct (tri_first floor_tri (up_ray 0)) as [d|] eqn:E; [| contradiction].
  apply Qeq_bool_iff in Y; exists floor_tri, d; split; [left; reflexivity | split; [exact E | lra]].
Qed.
Print Assumptions occlusion_face_plane_refuted.

(* C66.  A ray that bounced five times (the path tracer makes such rays) indexes the
   array of cached assets one past its end. *)
Theorem occlusion_bounces_refuted :
  forall A (box : A -> aabb) asset_intersect len (t : kdtree A) qs c r k D,
  after box asset_intersect len t cache_new qs = Ok c -> 5 <= k ->
  is_occluded box asset_intersect len t c r k D = UB.
Proof.
  intros A box ai len t qs c r k D E K.
  assert (L : forall qs c0 c1, after box ai len t c0 qs = Ok c1 -> length c0 = 5 -> length c1 = 5).
  { clear; induction qs as [|[[r k] D] qs IH]; intros c0 c1; cbn [after].
    - intros E L; injection E as <-; exact L.
    - intros E L; destruct (is_occluded box ai len t c0 r k D) as [[b c]| |] eqn:S;
        [rewrite obind_ok in E | discriminate E | discriminate E].
      apply (IH c c1 E); clear IH E; unfold is_occluded in S.
      destruct (nth_error c0 k) as [o|] eqn:N; [| discriminate].
      assert (K : k < length c0) by (apply nth_error_Some; congruence).
      destruct (match o with None => false | Some _ => _ end);
        [injection S as _ <-; exact L |].
      destruct (kd_intersect box ai t r) as [[[a|] best]| |]; try discriminate S;
        rewrite obind_ok in S; injection S as _ <-; [| exact L].
      unfold cache_put; rewrite app_length; cbn [length].
      rewrite firstn_length, skipn_length; clear - K L; lia. }
  unfold is_occluded; replace (nth_error c k) with (@None (option A)); [reflexivity |].
  symmetry; apply nth_error_None; rewrite (L qs _ c E eq_refl); exact K.
Qed.
Print Assumptions occlusion_bounces_refuted.

(* C66.  Below five bounces every query after every history is answered. *)
Theorem occlusion_safe : forall A (box : A -> aabb) sort cost l t asset_intersect len qs r k D,
  sorts sort -> (forall a, In a l -> valid (box a)) -> built box sort cost l = Ok t ->
  Forall (fun q : query => snd (fst q) < 5) qs -> k < 5 ->
  exists c b c', after box asset_intersect len t cache_new qs = Ok c /\
    is_occluded box asset_intersect len t c r k D = Ok (b, c').
Proof.
  intros A box sort cost l t ai len qs r k D SORT V B QS K.
  destruct (occl_history A box sort cost l t ai len qs cache_new SORT V B (cache_new_inv A l) QS)
    as (c & EC & INV).
  destruct (occl_step A box sort cost l t ai len r k D c SORT V B INV K) as (b & c' & E & _).
  exists c, b, c'; auto.
Qed.
Print Assumptions occlusion_safe.

(* the hypotheses of the positive theorems: triangles, a stable sort, a unit ray inside *)
Example occlusion_history_ex :
  match one_tri with
  | Ok t => forall qs D, Forall (fun q : query => snd (fst q) < 5) qs -> (D <= flt_max)%Q ->
      exists c b c', after tri_aabb tri_asset len_z t cache_new qs = Ok c /\
        is_occluded tri_aabb tri_asset len_z t c (up_ray (1 # 4)) 0 D = Ok (b, c') /\
        (b = true <-> occluded tri_first [floor_tri] (up_ray (1 # 4)) D)
  | _ => False
  end.
Proof.
  assert (X : match one_tri with Ok _ => True | _ => False end) by (vm_compute; exact I).
  destruct one_tri as [t| |] eqn:E; [| exact X | exact X]; intros qs D QS L.
  apply (occlusion_history_partial triangle tri_aabb (ev_sort in_order) sah_cost [floor_tri]); try assumption.
  - apply in_order_sorts.
  - intros a _; apply tri_aabb_valid.
  - right; split; [apply in_order_stable |].
    intros a k [<- | []]; destruct k as [|[|k]]; reflexivity.
  - apply tri_asset_contract.
  - apply tri_asset_boxed.
  - lia.
  - split; [discriminate | reflexivity].
  - reflexivity.
  - intros a k q [<- | []] Z H EQ; destruct k as [|[|k]]; cbn in Z; [| | discriminate];
      cbn in EQ; destruct H as [H | H]; vm_compute in H; injection H as <-;
      vm_compute in EQ; discriminate.
Qed.
