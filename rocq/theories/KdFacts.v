(* The construction and the traversal of the kd-tree put together. *)
From Coq Require Import Permutation Sorted.
From Coq Require Import Lqa.
From Verif Require Import Common GeomModel AabbModel AabbSpec AabbProofs AabbProps BitsModel
     BitsProofs KdAddModel KdAddProps KdModel KdSpec KdBuild KdWalk.
Local Open Scope nat_scope.

Lemma kbind_ok : forall X Y (x : X) (f : X -> res Y), bind (Ok x) f = f x.
Proof. reflexivity. Qed.

(* the tree built from assets added one by one *)
Definition built {A} (box : A -> aabb) sort cost (l : list A) : res (kdtree A) :=
  let! k := addAssets kd_empty l in buildTree box sort cost k.

Section Facts.
Context {A : Type} (box : A -> aabb).
Variable sort : list (event A) -> list (event A).
Variable cost : aabb -> nat -> xq -> nat -> nat -> xq.
Hypothesis SORT : sorts sort.

Lemma addAssets_ok_len : forall (l : list A) k, addAssets kd_empty l = Ok k ->
  kb_inv k /\ kb_assets k = l.
Proof using.
  intros l k E.
  destruct (Z_le_gt_dec (Z.of_nat (length l)) max_assets) as [L | G].
  - destruct (addAssets_inv A l kd_empty) as (k' & E' & L' & I'); [apply kd_empty_inv | |].
    + cbn [kb_assets kd_empty length]; lia.
    + rewrite E in E'; injection E' as <-; auto.
  - rewrite addAssets_over in E; [discriminate | apply kd_empty_inv |].
    cbn [kb_assets kd_empty length]; lia.
Qed.

(* the outcome of the construction, in terms of the pure tree *)
Lemma built_spec : forall a l, numbers box (a :: l) ->
  (Z.of_nat (length (a :: l)) <= max_assets)%Z ->
  let area := scene_box box a l in
  let T := pbuild box sort cost kd_max_depth (a :: l) area in
  match built box sort cost (a :: l) with
  | Ok t =>
      kt_box t = area /\ encodes (kt_nodes t) (kt_assets t) 0 T /\
      kt_assets t = flat T /\ length (kt_nodes t) = tsize T /\
      (Z.of_nat (references T) <= max_assets)%Z
  | UB => (max_assets < Z.of_nat (references T))%Z
  | OutOfFuel => False
  end.
Proof using SORT.
  intros a l V L area T; unfold built.
  destruct (addAssets_inv A (a :: l) kd_empty) as (k & E & EL & I); [apply kd_empty_inv | |].
  { cbn [kb_assets kd_empty]; change (length (@nil A)) with 0; lia. }
  cbn [kb_assets kd_empty app] in EL; rewrite E, kbind_ok; unfold buildTree; rewrite EL.
  assert (I0 : kb_inv (mk_kdbuf (@nil A) (kb_alloc k))).
  { destruct I as (I1 & I2); unfold kb_inv; cbn [kb_assets kb_alloc]; change (length (@nil A)) with 0; lia. }
  pose proof (build_pure box sort SORT cost kd_max_depth (length (a :: l)) (a :: l) area _ I0 V
                (Nat.le_refl _)) as B.
  fold area T in B; fold area; cbv zeta; clearbody T; clearbody area.
  destruct (build _ _ _ _ _ _ _ _) as [[bt k']| |]; [rewrite kbind_ok | change (bind UB _) with (@UB (kdtree A)) | exact B].
  - destruct B as (-> & EA & _ & R).
    cbn [kb_assets app] in EA, R |- *; change (length (@nil A)) with 0 in *.
    cbn [kt_box kt_nodes kt_assets]; rewrite EA.
    split; [reflexivity | split; [| split; [reflexivity | split]]].
    + apply ranged_encodes; change 0 with (@length (option knode) []) at 2.
      apply finalize_ranged; cbn [skipn]; rewrite <- flat_references; apply firstn_all.
    + destruct (finalize_keeps (place 0 T) []) as (K & _); rewrite K, ksize_place; reflexivity.
    + cbn [Z.of_nat] in R; lia.
  - cbn [kb_assets] in B; change (length (@nil A)) with 0 in B; cbv iota; clear - B; lia.
Qed.

Lemma leaves_flat : forall (t : ktree A) planes ls a, In (planes, ls) (leaves t) -> In a ls ->
  In a (flat t).
Proof using.
  induction t as [l | k s l IHl r IHr]; intros planes ls a I IA; cbn [leaves flat] in *.
  - destruct I as [E | []]; injection E as <- <-; exact IA.
  - apply in_or_app; apply in_app_or in I; destruct I as [I | I]; apply in_map_iff in I;
      destruct I as ((pl & ls') & E & I); cbn in E; injection E as <- <-; eauto.
Qed.

Lemma flat_leaves : forall (t : ktree A) a, In a (flat t) ->
  exists planes ls, In (planes, ls) (leaves t) /\ In a ls.
Proof using.
  induction t as [l | k s l IHl r IHr]; intros a I; cbn [leaves flat] in *.
  - exists [], l; split; [left; reflexivity | exact I].
  - apply in_app_or in I; destruct I as [I | I].
    + destruct (IHl a I) as (p & ls & IL & IA); exists ((k, true, s) :: p), ls; split; [| exact IA].
      apply in_or_app; left; apply in_map_iff; exists (p, ls); auto.
    + destruct (IHr a I) as (p & ls & IL & IA); exists ((k, false, s) :: p), ls; split; [| exact IA].
      apply in_or_app; right; apply in_map_iff; exists (p, ls); auto.
Qed.

Lemma listed_flat : forall scene (t : ktree A), (forall a, In a (flat t) -> In a scene) ->
  listed_in_scene scene t.
Proof using.
  induction t as [l | k s l IHl r IHr]; intro H; cbn [listed_in_scene flat] in *; [exact H |].
  split; [apply IHl | apply IHr]; intros a I; apply H, in_or_app; auto.
Qed.

Lemma flat_in : forall n l t, grown box sort n l t -> numbers box l ->
  forall a, In a (flat t) -> In a l.
Proof using SORT.
  intros n l t G V a I; apply flat_leaves in I; destruct I as (p & ls & IL & IA).
  apply (grown_only box sort SORT n l t G V p ls a IL IA).
Qed.

Lemma scene_box_face : forall bs b k,
  (In (projl k (fold_left engulf bs b)) (projl k b :: map (projl k) bs)) /\
  (In (projh k (fold_left engulf bs b)) (projh k b :: map (projh k) bs)).
Proof using.
  induction bs as [|c bs IH]; intros b k; cbn [fold_left map]; [cbn; auto |].
  destruct (IH (engulf b c) k) as (L & H); rewrite projl_engulf in L; rewrite projh_engulf in H.
  unfold xmin in L; unfold xmax in H; cbn [In] in *; split.
  - destruct L as [L | L]; [destruct (xlt _ _) in L | ]; auto.
  - destruct H as [H | H]; [destruct (xlt _ _) in H | ]; auto.
Qed.

Lemma scene_box_clear : forall a l r, numbers box (a :: l) -> off_faces box (a :: l) r ->
  clear_box r (scene_box box a l).
Proof using.
  intros a l r V C; unfold scene_box; split.
  - apply engulf_all_valid; [apply V; left; reflexivity |]; apply Forall_forall.
    intros b I; apply in_map_iff in I; destruct I as (x & <- & I); apply V; right; exact I.
  - intros k q Z H; destruct (scene_box_face (map box l) (box a) k) as (L & R).
    destruct H as [H | H].
    + rewrite H in L; cbn [In] in L; destruct L as [L | L].
      * apply (C a k q); [left; reflexivity | exact Z | auto].
      * rewrite map_map in L; apply in_map_iff in L; destruct L as (b & E & I).
        apply (C b k q); [right; exact I | exact Z | auto].
    + rewrite H in R; cbn [In] in R; destruct R as [R | R].
      * apply (C a k q); [left; reflexivity | exact Z | auto].
      * rewrite map_map in R; apply in_map_iff in R; destruct R as (b & E & I).
        apply (C b k q); [right; exact I | exact Z | auto].
Qed.

Lemma scene_box_contains : forall a l b p, numbers box (a :: l) -> In b (a :: l) ->
  contains (box b) p -> contains (scene_box box a l) p.
Proof using.
  intros a l b p V I C; unfold scene_box.
  assert (VL : Forall valid (map box l)).
  { apply Forall_forall; intros x X; apply in_map_iff in X; destruct X as (y & <- & Y).
    apply V; right; exact Y. }
  destruct I as [<- | I].
  - apply engulf_all_init; [apply V; left; reflexivity | exact VL | exact C].
  - apply engulf_all_contains with (box b); [apply V; left; reflexivity | exact VL | | exact C].
    apply in_map; exact I.
Qed.

Lemma empty_never_hit : forall r, intersect2 aabb_empty r (ray_properties r) = None.
Proof using.
  assert (S : forall nz o d, let inv := recip nz d in
              slab (xlt inv (Fin 0)) PInf NInf o inv = (PInf, NInf)).
  { intros nz o d; unfold recip; destruct (Qeqb_spec d 0) as [Z | NZ].
    - destruct nz; reflexivity.
    - cbn; unfold inf_fin; destruct (Qeqb_spec (/ d) 0) as [Q | _].
      + exfalso; apply NZ; rewrite <- (Qinv_involutive d), Q; reflexivity.
      + destruct (qltb (/ d) 0) eqn:E; unfold slab; cbn; unfold inf_fin; 
          (destruct (Qeqb_spec (/ d) 0) as [Q | _];
           [exfalso; apply NZ; rewrite <- (Qinv_involutive d), Q; reflexivity |]);
          rewrite E; reflexivity. }
  intro r; unfold intersect2, ray_properties; cbn [neg_x neg_y neg_z inv_x inv_y inv_z].
  cbn [aabb_empty b_lo b_hi xx xy xz].
  rewrite !S; reflexivity.
Qed.
End Facts.

(* ----- nothing is lost when references are counted ----- *)
Section Count.
Context {A : Type} (box : A -> aabb).
Variable sort : list (event A) -> list (event A).
Hypothesis SORT : sorts sort.

Lemma who_perm : forall k l,
  map ev_who (filter ev_left (events box k l)) = l /\
  map ev_who (filter (fun e => negb (ev_left e)) (events box k l)) = l.
Proof using.
  induction l as [|a l (IH1 & IH2)]; cbn; [auto |]; split; f_equal; assumption.
Qed.

Lemma NoDup_app_l : forall B (u v : list B), NoDup (u ++ v) -> NoDup u /\ NoDup v.
Proof using.
  induction u as [|b u IH]; intros v D; [split; [constructor | exact D] |].
  inversion D; subst; destruct (IH v H2) as (D1 & D2); split; [constructor |]; try assumption.
  intro I; apply H1, in_or_app; left; exact I.
Qed.

Lemma sides_nodup : forall k l j, numbers box l -> NoDup l ->
  NoDup (as_left (sort (events box k l)) j) /\ NoDup (as_right (sort (events box k l)) j).
Proof using SORT.
  intros k l j V D; destruct (SORT (events box k l)) as (P & _).
  { intros e I; apply (events_no_nan box k l); assumption. }
  destruct (who_perm k l) as (W1 & W2).
  set (s := sort (events box k l)) in *.
  assert (D1 : NoDup (map ev_who (filter ev_left s))).
  { apply (Permutation_NoDup (l := l)); [| exact D]; rewrite <- W1.
    apply Permutation_map, filter_perm, P. }
  assert (D2 : NoDup (map ev_who (filter (fun e => negb (ev_left e)) s))).
  { apply (Permutation_NoDup (l := l)); [| exact D]; rewrite <- W2.
    apply Permutation_map, filter_perm, P. }
  rewrite <- (firstn_skipn j s), filter_app, map_app in D1.
  rewrite <- (firstn_skipn (S j) s), filter_app, map_app in D2.
  split; [apply (NoDup_app_l _ _ _ D1) | apply (NoDup_app_l _ _ _ D2)].
Qed.

Lemma grown_count : forall n l t, grown box sort n l t -> numbers box l ->
  opens_first box sort l -> NoDup l -> length l <= references t.
Proof using SORT.
  intros n l t G; induction G as [n l | n l k j e tl tr K N F1 F2 GL IHL GR IHR];
    intros V O D; cbn [references]; [lia |].
  destruct (numbers_side box sort SORT k l j V) as (V1 & V2).
  destruct (opens_first_side box sort SORT k l j V O) as (O1 & O2).
  destruct (sides_nodup k l j V D) as (D1 & D2).
  pose proof (as_left_right_count box sort k l j V O D).
  specialize (IHL V1 O1 D1); specialize (IHR V2 O2 D2); lia.
Qed.
End Count.

(* ----- a candidate with a finite cost is found ----- *)
Section Found.
Context {A : Type} (box : A -> aabb).
Variable sort : list (event A) -> list (event A).
Variable cost : aabb -> nat -> xq -> nat -> nat -> xq.
Hypothesis SORT : sorts sort.

Lemma scan_found : forall (evs : list (event A)) area axis i la ra b o,
  (forall pos la ra, xlt (projl axis area) pos = true -> xlt pos (projh axis area) = true ->
     xlt (cost area axis pos la ra) PInf = true) ->
  (o <> None \/
   (b = PInf /\
    exists e, In e evs /\ xlt (projl axis area) (ev_pos e) = true /\
              xlt (ev_pos e) (projh axis area) = true)) ->
  snd (scan cost area axis evs i la ra (b, o)) <> None.
Proof using.
  induction evs as [|e evs IH]; intros area axis i la ra b o FC H; cbn [scan].
  { destruct H as [H | (_ & e & [] & _)]; exact H. }
  destruct (xlt (projl axis area) (ev_pos e)) eqn:B1; cbn [andb];
    [destruct (xlt (ev_pos e) (projh axis area)) eqn:B2 |]; cbn [fst].
  - destruct (xlt (cost _ _ _ _ _) b) eqn:LT.
    + apply IH; [exact FC | left; discriminate].
    + apply IH; [exact FC |].
      destruct H as [H | (-> & _)]; [left; exact H |].
      rewrite FC in LT by assumption; discriminate.
  - apply IH; [exact FC |]; destruct H as [H | (EB & e' & [<- | I] & C1 & C2)];
      [left; exact H | congruence | right; split; [exact EB |]; exists e'; auto].
  - apply IH; [exact FC |]; destruct H as [H | (EB & e' & [<- | I] & C1 & C2)];
      [left; exact H | congruence | right; split; [exact EB |]; exists e'; auto].
Qed.

(* one of the three axes has a candidate *)
Lemma search_found : forall area l axis k e, numbers box l -> axis < 3 -> k < 3 ->
  (forall ax pos la ra, xlt (projl ax area) pos = true -> xlt pos (projh ax area) = true ->
     xlt (cost area ax pos la ra) PInf = true) ->
  In e (events box k l) -> xlt (projl k area) (ev_pos e) = true ->
  xlt (ev_pos e) (projh k area) = true ->
  search box sort cost 3 area l axis <> None.
Proof using SORT.
  intros area l axis k e V AX K FC I B1 B2.
  assert (HK : snd (scan cost area k (sort (events box k l)) 0 0 (length l) (PInf, None)) <> None).
  { apply scan_found; [intros; apply FC; assumption |]; right; split; [reflexivity |].
    exists e; split; [| auto].
    destruct (SORT (events box k l)) as (P & _).
    { intros x X; apply (events_no_nan box k l); assumption. }
    apply (Permutation_in _ P), I. }
  cbn [search].
  destruct (scan cost area axis _ _ _ _ _) as (c0 & [j0|]) eqn:E0; [discriminate |].
  destruct (scan cost area ((axis + 1) mod 3) _ _ _ _ _) as (c1 & [j1|]) eqn:E1; [discriminate |].
  destruct (scan cost area (((axis + 1) mod 3 + 1) mod 3) _ _ _ _ _) as (c2 & [j2|]) eqn:E2;
    [discriminate |].
  exfalso.
  assert (KE : k = axis \/ k = (axis + 1) mod 3 \/ k = ((axis + 1) mod 3 + 1) mod 3).
  { clear - AX K; destruct axis as [|[|[|axis]]], k as [|[|[|k]]]; cbn; lia. }
  destruct KE as [-> | [-> | ->]]; [rewrite E0 in HK | rewrite E1 in HK | rewrite E2 in HK];
    apply HK; reflexivity.
Qed.
End Found.

Lemma xadd_fin : forall a b, (exists p, a = Fin p) -> (exists p, b = Fin p) ->
  exists p, xadd a b = Fin p.
Proof. intros a b (p & ->) (q & ->); cbn; eauto. Qed.
Lemma xmul_fin : forall a b, (exists p, a = Fin p) -> (exists p, b = Fin p) ->
  exists p, xmul a b = Fin p.
Proof. intros a b (p & ->) (q & ->); cbn; eauto. Qed.
Lemma xsub_fin : forall a b, (exists p, a = Fin p) -> (exists p, b = Fin p) ->
  exists p, xsub a b = Fin p.
Proof. intros a b (p & ->) (q & ->); cbn; eauto. Qed.

(* the cost is a number when the box has an extent along every axis *)
Lemma sah_cost_fin : forall area,
  (forall k, exists p q, projl k area = Fin p /\ projh k area = Fin q /\ (p < q)%Q) ->
  forall ax pos la ra, xlt (projl ax area) pos = true -> xlt pos (projh ax area) = true ->
  xlt (sah_cost area ax pos la ra) PInf = true.
Proof.
  intros area FIN ax pos la ra B1 B2.
  assert (FP : exists p, pos = Fin p).
  { destruct (strict_between _ _ _ B1 B2) as (C1 & C2).
    destruct pos; cbn in *; try discriminate; eauto. }
  assert (FL : forall k, exists p, projl k area = Fin p).
  { intro k; destruct (FIN k) as (p & q & E & _); eauto. }
  assert (FH : forall k, exists p, projh k area = Fin p).
  { intro k; destruct (FIN k) as (p & q & _ & E & _); eauto. }
  assert (FI : exists p, xrecip1 (surface area) = Fin p).
  { unfold surface.
    destruct (FIN 0) as (px & qx & EX1 & EX2 & LX), (FIN 1) as (py & qy & EY1 & EY2 & LY),
             (FIN 2) as (pz & qz & EZ1 & EZ2 & LZ); cbn in EX1, EX2, EY1, EY2, EZ1, EZ2.
    cbn [xvsub xx xy xz]; rewrite EX1, EX2, EY1, EY2, EZ1, EZ2; cbn [xsub xadd xopp xmul xrecip1].
    unfold recip; destruct (Qeqb_spec (2 * ((qx + - px) * (qy + - py) + (qx + - px) * (qz + - pz) +
       (qy + - py) * (qz + - pz))) 0) as [E | _]; [| eauto].
    exfalso.
    assert (0 < (qx + - px) * (qy + - py))%Q by (apply Qmult_lt_0_compat; lra).
    assert (0 < (qx + - px) * (qz + - pz))%Q by (apply Qmult_lt_0_compat; lra).
    assert (0 < (qy + - py) * (qz + - pz))%Q by (apply Qmult_lt_0_compat; lra).
    lra. }
  assert (G : exists p, sah_cost area ax pos la ra = Fin p).
  { unfold sah_cost; cbn zeta.
    assert (FC : forall q, exists p, Fin q = Fin p) by eauto.
    repeat first [apply xsub_fin | apply xadd_fin | apply xmul_fin | assumption
                 | apply FC | apply FL | apply FH]. }
  destruct G as (p & ->); reflexivity.
Qed.
