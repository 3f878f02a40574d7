(* C15, C62: the kd-tree over triangles, a missed edge, and scenes whose tree does
   not fit the asset buffer. *)
From Coq Require Import Permutation Sorted.
From Coq Require Import Lqa.
From Verif Require Import Common GeomModel AabbModel AabbSpec AabbProofs AabbProps BitsModel
     KdAddModel KdAddProps KdModel KdSpec KdBuild KdWalk KdFacts KdProps.
From Verif Require Import TriModel TriSpec TriProofs TriProps.
From Verif Require BvhSpec BvhWalk.
Local Open Scope nat_scope.

(* a triangle as an asset *)
Definition tri_first (T : triangle) (r : ray) : option Q := BvhSpec.hit_at no_mask r hit0 T.
Definition tri_asset (T : triangle) (r : ray) (D : xq) : option Q :=
  match tri_intersect no_mask T r D hit0 with Some (d, _) => Some d | None => None end.

Lemma tri_asset_contract : intersects_first tri_first tri_asset.
Proof.
  intros T r D; unfold tri_first, BvhSpec.hit_at, tri_asset.
  pose proof (BvhWalk.tri_intersect_alone no_mask T r D hit0 hit0 (conj eq_refl (conj eq_refl eq_refl))) as H.
  destruct (tri_intersect no_mask T r PInf hit0) as [[d h']|]; [| rewrite H; reflexivity].
  destruct (xlt D (Fin d)) eqn:L.
  - rewrite H; split; [auto | split; [| auto]].
    intro C; exfalso; destruct D; cbn in *; try congruence; apply qltb_lt in L, C; lra.
  - destruct H as (h2 & E & _); rewrite E; split; [auto | split; [auto | congruence]].
Qed.

Lemma tri_asset_boxed : hits_in_box tri_aabb tri_first.
Proof.
  intros T r d; unfold tri_first, BvhSpec.hit_at.
  destruct (tri_intersect no_mask T r PInf hit0) as [[d' h']|] eqn:E; [| discriminate].
  intro H; injection H as ->; apply tri_hit_sound in E.
  destruct E as (_ & w & u & v & (W & M) & (A & _) & _).
  split; [unfold self_err in A; lra |].
  exists (mix w u v (v_p (t_a T)) (v_p (t_b T)) (v_p (t_c T))); split.
  - destruct M as (X & Y & Z); unfold on_ray; cbn in *; repeat split; lra.
  - apply tri_box_contains, W.
Qed.

(* C15.  The hypotheses on assets are those of real shapes: for triangles the tree
   answers like testing every triangle. *)
Theorem kd_triangles_closest : forall sort cost l t r,
  sorts sort -> stable sort -> built tri_aabb sort cost l = Ok t -> off_faces tri_aabb l r ->
  exists answer, kd_intersect tri_aabb tri_asset t r = Ok answer /\
                 kd_closest tri_first l r answer.
Proof.
  intros sort cost l t r SORT ST B CL.
  apply (kd_intersect_closest_partial triangle tri_aabb sort cost l t tri_first tri_asset r);
    try assumption.
  - intros a _; apply tri_aabb_valid.
  - right; split; [exact ST |]; intros T k _.
    destruct (tri_box_contains T 1 0 0 ltac:(unfold weights; repeat split; lra)) as (X & Y & Z).
    destruct k as [|[|k]]; cbn in *; apply qltb_ge; lra.
  - apply tri_asset_contract.
  - apply tri_asset_boxed.
Qed.
Print Assumptions kd_triangles_closest.

Definition floor_tri : triangle :=
  mk_tri (mk_vertex (V 0 0 1) (V 0 0 1) (0, 0)%Q) (mk_vertex (V 1 0 1) (V 0 0 1) (1, 0)%Q)
         (mk_vertex (V 0 1 1) (V 0 0 1) (0, 1)%Q).
Definition up_ray (x : Q) : ray := mk_ray (V x (1 # 4) 0) (V 0 0 1) (false, false, false).

Example kd_triangles_case :
  match built tri_aabb (ev_sort in_order) sah_cost [floor_tri] with
  | Ok t =>
      (* inside the triangle the hit is found *)
      match kd_intersect tri_aabb tri_asset t (up_ray (1 # 4)) with
      | Ok (Some _, Fin d) => Qeq_bool d 1 = true
      | _ => False
      end /\
      (* on its edge in the face x = 0 of the box the triangle is hit and not reported *)
      match tri_first floor_tri (up_ray 0) with
      | Some d => Qeq_bool d 1 = true
      | None => False
      end /\
      match kd_intersect tri_aabb tri_asset t (up_ray 0) with
      | Ok (None, _) => True
      | _ => False
      end
  | _ => False
  end.
Proof. vm_compute; auto. Qed.

(* ----- capacity ----- *)

(* C62.  The construction stores every leaf's list in the buffer of 4096 assets; it
   succeeds exactly when the leaves of the tree built with an unlimited buffer
   ([pbuild], the same splits without the buffer) have at most that many references. *)
Theorem kd_build_capacity : forall A (box : A -> aabb) sort cost a l,
  sorts sort -> (forall b, In b (a :: l) -> valid (box b)) ->
  (Z.of_nat (length (a :: l)) <= max_assets)%Z ->
  let T := pbuild box sort cost kd_max_depth (a :: l) (scene_box box a l) in
  ((max_assets < Z.of_nat (references T))%Z -> built box sort cost (a :: l) = UB) /\
  ((Z.of_nat (references T) <= max_assets)%Z ->
     exists t, built box sort cost (a :: l) = Ok t /\
               encodes (kt_nodes t) (kt_assets t) 0 T /\
               length (kt_assets t) = references T).
Proof.
  intros A box sort cost a l SORT V L T.
  pose proof (built_spec box sort cost SORT a l V L) as H; cbv zeta in H; fold T in H.
  destruct (built box sort cost (a :: l)) as [t| |].
  - destruct H as (_ & E & EA & _ & R); split; [lia |]; intros _; exists t.
    split; [reflexivity | split; [exact E |]]. rewrite EA, flat_references; reflexivity.
  - split; [reflexivity | lia].
  - contradiction.
Qed.
Print Assumptions kd_build_capacity.
Example kd_build_capacity_ex :
  references (pbuild (fun n => if n =? 0 then aabb_of (V 1 1 1)%Q (V 2 2 2)%Q
                               else aabb_of (V 0 0 0)%Q (V 3 3 3)%Q)
    (ev_sort in_order) sah_cost 2 (seq 0 5)
    (aabb_of (V 0 0 0)%Q (V 3 3 3)%Q)) = 13.
Proof. vm_compute; reflexivity. Qed.

(* a step of the construction with more than 15 assets *)
Lemma pbuild_split : forall A (box : A -> aabb) sort cost n l area,
  16 <= length l ->
  match search box sort cost 3 area l (longest_axis area) with
  | None => pbuild box sort cost (S n) l area = TLeaf l
  | Some (_, axis, evs, split) =>
      match nth_error evs split with
      | None => pbuild box sort cost (S n) l area = TLeaf l
      | Some e => pbuild box sort cost (S n) l area =
          TNode axis (ev_pos e)
            (pbuild box sort cost n (as_left evs split) (with_hi axis (ev_pos e) area))
            (pbuild box sort cost n (as_right evs split) (with_lo axis (ev_pos e) area))
      end
  end.
Proof.
  intros A box sort cost n l area L; cbn [pbuild].
  destruct (Nat.leb_spec (length l) leaf_assets) as [LL | _]; [unfold leaf_assets in LL; lia |].
  destruct (search box sort cost 3 area l (longest_axis area)) as [[[[c ax] evs] j]|];
    [| reflexivity].
  destruct (Nat.ltb_spec (length l) 16) as [LL | _]; [lia |]; rewrite andb_false_r.
  destruct (nth_error evs j); reflexivity.
Qed.

Lemma xlt_eq_l : forall p q x, (p == q)%Q -> xlt (Fin p) x = true -> xlt (Fin q) x = true.
Proof.
  intros p q [s| | |] E H; cbn in *; try discriminate; try reflexivity.
  apply qltb_lt in H; apply qltb_lt; lra.
Qed.
Lemma xlt_eq_r : forall p q x, (p == q)%Q -> xlt x (Fin p) = true -> xlt x (Fin q) = true.
Proof.
  intros p q [s| | |] E H; cbn in *; try discriminate; try reflexivity.
  apply qltb_lt in H; apply qltb_lt; lra.
Qed.

Lemma engulf_same : forall (bs : list aabb) k lo hi b,
  projl k b = Fin lo -> projh k b = Fin hi ->
  (forall c, In c bs -> exists p q, projl k c = Fin p /\ projh k c = Fin q /\
                                    (lo <= p)%Q /\ (q <= hi)%Q) ->
  exists p q, projl k (fold_left engulf bs b) = Fin p /\ projh k (fold_left engulf bs b) = Fin q /\
              (p == lo)%Q /\ (q == hi)%Q.
Proof.
  intros bs k lo hi b.
  assert (G : forall bs b lo' hi', projl k b = Fin lo' -> projh k b = Fin hi' ->
    (lo' == lo)%Q -> (hi' == hi)%Q ->
    (forall c, In c bs -> exists p q, projl k c = Fin p /\ projh k c = Fin q /\
                                    (lo <= p)%Q /\ (q <= hi)%Q) ->
    exists p q, projl k (fold_left engulf bs b) = Fin p /\
                projh k (fold_left engulf bs b) = Fin q /\ (p == lo)%Q /\ (q == hi)%Q).
  { clear bs b; induction bs as [|c bs IH]; intros b lo' hi' EL EH L H IN; cbn [fold_left].
    - exists lo', hi'; auto.
    - destruct (IN c (or_introl eq_refl)) as (p & q & EP & EQ & LP & LQ).
      assert (NEW : exists p' q', projl k (engulf b c) = Fin p' /\ projh k (engulf b c) = Fin q' /\
                      (p' == lo)%Q /\ (q' == hi)%Q).
      { rewrite projl_engulf, projh_engulf, EL, EH, EP, EQ; unfold xmin, xmax; cbn [xlt].
        destruct (qltb_spec lo' p), (qltb_spec q hi'); eexists; eexists;
          (split; [reflexivity | split; [reflexivity |]]); split; lra. }
      destruct NEW as (p' & q' & E1 & E2 & E3 & E4).
      apply (IH (engulf b c) p' q'); try assumption.
      intros d I; apply IN; right; exact I. }
  intros EL EH IN; apply (G bs b lo hi); try assumption; reflexivity.
Qed.

(* C62.  The construction of an accepted scene can overflow the buffer: it does
   whenever more than 2048 assets share one box, everything else lies inside that
   box, and some asset has a face strictly inside it.  This holds for every order
   std::sort chooses among equal positions. *)
Theorem kd_build_overflow_refuted :
  forall A (box : A -> aabb) sort (big rest : list A) lo hi c k q,
  sorts sort -> NoDup (big ++ rest) ->
  (Z.of_nat (length (big ++ rest)) <= max_assets)%Z -> 2048 < length big ->
  (vx lo < vx hi)%Q -> (vy lo < vy hi)%Q -> (vz lo < vz hi)%Q ->
  (forall a, In a big -> box a = aabb_of lo hi) ->
  (forall a, In a rest -> exists l h, box a = aabb_of l h /\
     forall k, (coord k lo <= coord k l)%Q /\ (coord k l < coord k h)%Q /\
               (coord k h <= coord k hi)%Q) ->
  In c rest -> k < 3 ->
  projl k (box c) = Fin q \/ projh k (box c) = Fin q ->
  (coord k lo < q)%Q -> (q < coord k hi)%Q ->
  built box sort sah_cost (big ++ rest) = UB.
Proof.
  intros A box sort big rest lo hi c k q SORT D L N LX LY LZ BIG REST IC K FACE Q1 Q2.
  assert (LK : forall k, (coord k lo < coord k hi)%Q) by (intros [|[|j]]; assumption).
  assert (PB : forall k, projl k (aabb_of lo hi) = Fin (coord k lo) /\
                         projh k (aabb_of lo hi) = Fin (coord k hi))
    by (intros [|[|j]]; split; reflexivity).
  assert (PR : forall l h k, projl k (aabb_of l h) = Fin (coord k l) /\
                         projh k (aabb_of l h) = Fin (coord k h))
    by (intros l h [|[|j]]; split; reflexivity).
  set (l := big ++ rest) in *.
  assert (V : numbers box l).
  { intros a I; apply in_app_or in I; destruct I as [I | I].
    - rewrite (BIG a I); apply valid_of.
    - destruct (REST a I) as (l1 & h1 & -> & _); apply valid_of. }
  assert (TH : forall a, In a l -> thick (box a)).
  { intros a I j; apply in_app_or in I; destruct I as [I | I].
    - rewrite (BIG a I), (proj1 (PB j)), (proj2 (PB j)); apply qltb_lt, LK.
    - destruct (REST a I) as (l1 & h1 & -> & H); destruct (PR l1 h1 j) as (-> & ->).
      apply qltb_lt; apply H. }
  assert (O : opens_first box sort l) by (apply thick_opens_first; assumption).
  destruct big as [|b0 big']; [cbn in N; lia |].
  set (l1 := big' ++ rest); assert (EL : l = b0 :: l1) by reflexivity.
  clearbody l; subst l.
  pose proof (built_spec box sort sah_cost SORT b0 l1 V L) as H; cbv zeta in H.
  assert (AREA : forall j, exists p h, projl j (scene_box box b0 l1) = Fin p /\
                   projh j (scene_box box b0 l1) = Fin h /\ (p == coord j lo)%Q /\ (h == coord j hi)%Q).
  { intro j; unfold scene_box; apply engulf_same.
    - rewrite (BIG b0 (or_introl eq_refl)); apply PB.
    - rewrite (BIG b0 (or_introl eq_refl)); apply PB.
    - intros x X; apply in_map_iff in X; destruct X as (a & <- & X).
      apply in_app_or in X; destruct X as [X | X].
      + rewrite (BIG a (or_intror X)); exists (coord j lo), (coord j hi).
        destruct (PB j) as (-> & ->); repeat split; apply Qle_refl.
      + destruct (REST a X) as (l2 & h2 & -> & HR); exists (coord j l2), (coord j h2).
        destruct (PR l2 h2 j) as (-> & ->); destruct (HR j) as (R1 & R2 & R3); auto. }
  pose proof (pbuild_grown box sort sah_cost kd_max_depth (b0 :: l1) (scene_box box b0 l1)) as G.
  set (area := scene_box box b0 l1) in *; clearbody area.
  assert (LEN : length (b0 :: big') <= length (b0 :: l1)).
  { unfold l1; cbn [length]; rewrite app_length; lia. }
  (* the root is split *)
  assert (ROOT : exists ax e tl tr j,
    pbuild box sort sah_cost kd_max_depth (b0 :: l1) area = TNode ax (ev_pos e) tl tr /\
    ax < 3 /\ nth_error (sort (events box ax (b0 :: l1))) j = Some e /\
    xlt (projl ax area) (ev_pos e) = true /\ xlt (ev_pos e) (projh ax area) = true /\
    grown box sort 14 (as_left (sort (events box ax (b0 :: l1))) j) tl /\
    grown box sort 14 (as_right (sort (events box ax (b0 :: l1))) j) tr).
  { assert (LL : 16 <= length (b0 :: l1)) by (clear - LEN N; lia).
    pose proof (pbuild_split A box sort sah_cost 14 (b0 :: l1) area LL) as PS.
    change kd_max_depth with (S 14).
    destruct (search box sort sah_cost 3 area (b0 :: l1) (longest_axis area))
      as [[[[cc ax] evs] j]|] eqn:S.
    - apply search_some in S; [| apply longest_axis_lt].
      destruct S as (AX & -> & e & NE & B1 & B2); rewrite NE in PS.
      exists ax, e; eexists; eexists; exists j; split; [exact PS |].
      repeat split; try assumption; apply pbuild_grown.
    - exfalso; revert S.
      destruct (AREA k) as (p & h & E1 & E2 & E3 & E4).
      assert (CE : exists e, In e (events box k (b0 :: l1)) /\ ev_pos e = Fin q).
      { assert (IC' : In c (b0 :: l1)) by (right; apply in_or_app; right; exact IC).
        destruct FACE as [F | F].
        - exists (mk_event (projl k (box c)) true c); split; [| exact F].
          apply events_in; exists c; auto.
        - exists (mk_event (projh k (box c)) false c); split; [| exact F].
          apply events_in; exists c; auto. }
      destruct CE as (e & IE & PE).
      apply (search_found box sort sah_cost SORT area (b0 :: l1) (longest_axis area) k e V);
        try assumption.
      + apply longest_axis_lt.
      + apply sah_cost_fin; intro j; destruct (AREA j) as (p' & h' & F1 & F2 & F3 & F4).
        exists p', h'; repeat split; try assumption; rewrite F3, F4; apply LK.
      + rewrite E1, PE; apply qltb_lt; lra.
      + rewrite E2, PE; apply qltb_lt; lra. }
  destruct ROOT as (ax & e & tl & tr & j & EQ & AX & NE & B1 & B2 & GL & GR).
  rewrite EQ in H; cbn [references] in H.
  destruct (numbers_side box sort SORT ax (b0 :: l1) j V) as (V1 & V2).
  destruct (opens_first_side box sort SORT ax (b0 :: l1) j V O) as (O1 & O2).
  destruct (sides_nodup box sort SORT ax (b0 :: l1) j V D) as (D1 & D2).
  pose proof (grown_count box sort SORT _ _ _ GL V1 O1 D1) as C1.
  pose proof (grown_count box sort SORT _ _ _ GR V2 O2 D2) as C2.
  assert (DB : NoDup (b0 :: big')).
  { exact (proj1 (NoDup_app_l _ (b0 :: big') rest D)). }
  destruct (AREA ax) as (p & h & E1 & E2 & E3 & E4).
  rewrite E1 in B1; rewrite E2 in B2.
  assert (IL : forall a, In a (b0 :: big') -> In a (as_left (sort (events box ax (b0 :: l1))) j)).
  { intros a I; apply (side_left box sort SORT ax (b0 :: l1) j e a lo V NE).
    - destruct I as [<- | I]; [left; reflexivity | right; apply in_or_app; left; exact I].
    - rewrite (BIG a I); unfold contains; cbn; repeat split; lra.
    - exact (xlt_eq_l _ _ _ E3 B1). }
  assert (IR : forall a, In a (b0 :: big') -> In a (as_right (sort (events box ax (b0 :: l1))) j)).
  { intros a I; apply (side_right box sort SORT ax (b0 :: l1) j e a hi V NE).
    - destruct I as [<- | I]; [left; reflexivity | right; apply in_or_app; left; exact I].
    - rewrite (BIG a I); unfold contains; cbn; repeat split; lra.
    - exact (xlt_eq_r _ _ _ E4 B2). }
  pose proof (NoDup_incl_length DB IL) as M1; pose proof (NoDup_incl_length DB IR) as M2.
  destruct (built box sort sah_cost (b0 :: l1)) as [t| |];
    [exfalso | reflexivity | contradiction].
  destruct H as (_ & _ & _ & _ & R); unfold max_assets in R; clear - R C1 C2 M1 M2 N.
  lia.
Qed.
Print Assumptions kd_build_overflow_refuted.

(* 2049 copies of a model in one place and a small object inside *)
Example kd_build_overflow_ex : forall sort, sorts sort ->
  built (fun n => if n =? 0 then aabb_of (V 1 1 1)%Q (V 2 2 2)%Q else aabb_of (V 0 0 0)%Q (V 3 3 3)%Q)
        sort sah_cost (seq 1 (Z.to_nat 2049) ++ [0]) = UB.
Proof.
  intros sort SORT.
  assert (LEN : length (seq 1 (Z.to_nat 2049)) = Z.to_nat 2049) by apply seq_length.
  apply (kd_build_overflow_refuted nat _ sort (seq 1 (Z.to_nat 2049)) [0] (V 0 0 0)%Q (V 3 3 3)%Q
           0 0 1%Q SORT).
  - apply (Permutation_NoDup (l := 0 :: seq 1 (Z.to_nat 2049))).
    + apply Permutation_cons_append.
    + change (0 :: seq 1 (Z.to_nat 2049)) with (seq 0 (S (Z.to_nat 2049))); apply seq_NoDup.
  - rewrite app_length, LEN; cbn [length]; unfold max_assets; lia.
  - rewrite LEN; lia.
  - reflexivity.
  - reflexivity.
  - reflexivity.
  - intros a I; apply in_seq in I; destruct a; [lia | reflexivity].
  - intros a [<- | []]; exists (V 1 1 1)%Q, (V 2 2 2)%Q; split; [reflexivity |].
    intros [|[|k]]; cbn; repeat split; discriminate.
  - left; reflexivity.
  - lia.
  - left; reflexivity.
  - reflexivity.
  - reflexivity.
Qed.
