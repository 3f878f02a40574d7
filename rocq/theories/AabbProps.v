(* C44, C60: bounding boxes. *)
From Coq Require Import Lqa Permutation.
From Verif Require Import Common GeomModel AabbModel AabbSpec AabbProofs.
Local Open Scope Q_scope.

(* C44.  Engulfing points one after the other, from the default box, gives a box
   that contains all of them and is contained in every box that does. *)
Theorem engulf_points_smallest : forall pts,
  let b := fold_left engulf_point pts aabb_empty in
  (forall p, In p pts -> contains b p) /\
  (forall c, (forall p, In p pts -> contains c p) ->
   forall q, contains b q -> contains c q).
Proof.
  intros pts; cbn zeta.
  assert (E : forall b, fold_left engulf_point pts b =
                        fold_left engulf (map aabb_point pts) b).
  { induction pts as [|p pts IH]; intro b; [reflexivity |]; cbn [fold_left map].
    rewrite IH, engulf_point_box; reflexivity. }
  rewrite E; clear E.
  assert (V : Forall valid (map aabb_point pts)).
  { apply Forall_forall; intros c I; apply in_map_iff in I; destruct I as (p & <- & _).
    apply valid_point. }
  split.
  - intros p I; apply engulf_all_contains with (aabb_point p);
      [apply valid_empty | exact V | apply in_map; exact I | apply contains_point].
  - intros c C q Q; rewrite contains_coord in Q |- *; intro k.
    destruct (Q k) as (L & H); split.
    + apply engulf_all_below in L; destruct L as [L | (d & I & L)].
      * destruct k as [|[|k]]; destruct L.
      * apply in_map_iff in I; destruct I as (p & <- & I).
        assert (A := C p I); rewrite contains_coord in A; destruct (A k) as (B & _).
        apply (below_le _ _ _ B); destruct k as [|[|k]]; exact L.
    + apply engulf_all_above in H; destruct H as [H | (d & I & H)].
      * destruct k as [|[|k]]; destruct H.
      * apply in_map_iff in I; destruct I as (p & <- & I).
        assert (A := C p I); rewrite contains_coord in A; destruct (A k) as (_ & B).
        apply (above_le _ _ _ B); destruct k as [|[|k]]; exact H.
Qed.
Print Assumptions engulf_points_smallest.

Example engulf_points_case :
  let b := fold_left engulf_point [V 1 2 3; V (-1) 5 0; V 0 0 0] aabb_empty in
  b = mk_aabb (XV (Fin (-1)) (Fin 0) (Fin 0)) (XV (Fin 1) (Fin 5) (Fin 3)).
Proof. reflexivity. Qed.

Definition with_coord (k : nat) (p : vec) (q : Q) : vec :=
  match k with 0%nat => V q (vy p) (vz p) | 1%nat => V (vx p) q (vz p) | _ => V (vx p) (vy p) q end.

Lemma contains_with : forall b p k q,
  contains b p -> below (projl k b) q -> above (projh k b) q -> contains b (with_coord k p q).
Proof.
  intros b p k q (X & Y & Z) L H; destruct k as [|[|k]]; unfold contains; cbn in *; tauto.
Qed.
Lemma coord_with : forall k p q, coord k (with_coord k p q) = q.
Proof. intros [|[|k]] p q; reflexivity. Qed.

(* C44.  The same for boxes (each with at least one point). *)
Theorem engulf_boxes_smallest : forall boxes,
  Forall valid boxes -> (forall c, In c boxes -> exists p, contains c p) ->
  let b := fold_left engulf boxes aabb_empty in
  (forall c p, In c boxes -> contains c p -> contains b p) /\
  (forall d, (forall c p, In c boxes -> contains c p -> contains d p) ->
   forall q, contains b q -> contains d q).
Proof.
  intros boxes V NE; cbn zeta; split.
  - intros c p I C; apply engulf_all_contains with c; [apply valid_empty | | |]; assumption.
  - intros d D q Q; rewrite contains_coord in Q |- *; intro k.
    destruct (Q k) as (L & H); split.
    + apply engulf_all_below in L; destruct L as [L | (c & I & L)].
      * destruct k as [|[|k]]; destruct L.
      * destruct (NE c I) as (p & P).
        assert (P' := P); rewrite contains_coord in P'; destruct (P' k) as (PL & PH).
        assert (A : contains d (with_coord k p (qmin (coord k q) (coord k p)))).
        { apply (D c); [exact I | apply contains_with; [exact P | |]];
            unfold qmin; destruct (qltb_spec (coord k q) (coord k p)); try assumption.
          apply (above_lt _ _ _ PH); assumption. }
        rewrite contains_coord in A; destruct (A k) as (A1 & _); rewrite coord_with in A1.
        apply (below_le _ _ _ A1); unfold qmin; destruct (qltb_spec (coord k q) (coord k p)); lra.
    + apply engulf_all_above in H; destruct H as [H | (c & I & H)].
      * destruct k as [|[|k]]; destruct H.
      * destruct (NE c I) as (p & P).
        assert (P' := P); rewrite contains_coord in P'; destruct (P' k) as (PL & PH).
        assert (A : contains d (with_coord k p (qmax (coord k q) (coord k p)))).
        { apply (D c); [exact I | apply contains_with; [exact P | |]];
            unfold qmax; destruct (qltb_spec (coord k p) (coord k q)); try assumption.
          apply (below_lt _ _ _ PL); assumption. }
        rewrite contains_coord in A; destruct (A k) as (_ & A1); rewrite coord_with in A1.
        apply (above_le _ _ _ A1); unfold qmax; destruct (qltb_spec (coord k p) (coord k q)); lra.
Qed.
Print Assumptions engulf_boxes_smallest.

(* C44.  The order of the operations does not matter. *)
Theorem engulf_order_independent : forall l l',
  Permutation l l' -> Forall valid l -> (forall c, In c l -> exists p, contains c p) ->
  forall p, contains (fold_left engulf l aabb_empty) p <->
            contains (fold_left engulf l' aabb_empty) p.
Proof.
  intros l l' P V NE p.
  assert (V' : Forall valid l') by (rewrite <- P; exact V).
  assert (NE' : forall c, In c l' -> exists p, contains c p).
  { intros c I; apply NE; rewrite P; exact I. }
  destruct (engulf_boxes_smallest l V NE) as (A & B).
  destruct (engulf_boxes_smallest l' V' NE') as (A' & B'); cbn zeta in *.
  split; [apply B | apply B']; intros c q I C; [apply (A' c) | apply (A c)]; try exact C;
    [rewrite <- P | rewrite P]; exact I.
Qed.
Print Assumptions engulf_order_independent.

Example engulf_boxes_case :
  let l := [aabb_of (V 0 0 0) (V 1 1 1); aabb_point (V 3 (-2) 0); aabb_of (V 2 2 2) (V 3 4 5)] in
  Forall valid l /\ (forall c, In c l -> exists p, contains c p) /\
  fold_left engulf l aabb_empty = aabb_of (V 0 (-2) 0) (V 3 4 5).
Proof.
  split; [| split; [| reflexivity]].
  - repeat apply Forall_cons; try apply Forall_nil; first [apply valid_of | apply valid_point].
  - intros c [<- | [<- | [<- | []]]].
    + exists (V 0 0 0); unfold contains; cbn; repeat split; lra.
    + exists (V 3 (-2) 0); apply contains_point.
    + exists (V 2 2 2); unfold contains; cbn; repeat split; lra.
Qed.

(* C44.  inside decides membership. *)
Theorem inside_contains : forall b p, inside b p = true <-> contains b p.
Proof.
  assert (L : forall x q, xge (Fin q) x = true <-> below x q).
  { intros [x| | |] q; cbn; try (split; [congruence | tauto]); try tauto.
    unfold qltb; rewrite negb_involutive; apply Qle_bool_iff. }
  assert (H : forall x q, xge x (Fin q) = true <-> above x q).
  { intros [x| | |] q; cbn; try (split; [congruence | tauto]); try tauto.
    unfold qltb; rewrite negb_involutive; apply Qle_bool_iff. }
  intros b p; unfold inside, contains; rewrite !andb_true_iff, !L, !H; tauto.
Qed.
Print Assumptions inside_contains.

(* C44.  The slab test used by both acceleration structures reports a hit for
   every ray whose line meets the box at some parameter t, whatever components of
   the direction are zero, and the reported interval does not exclude t. *)
Theorem slab_never_misses : forall b r t p,
  valid b -> on_ray r t p -> contains b p ->
  exists i, intersect2 b r (ray_properties r) = Some i /\
            not_after (fst i) t /\ not_before (snd i) t.
Proof.
  intros b r t p ((L1 & L2 & L3) & H1 & H2 & H3) (RX & RY & RZ)
         ((BX & AX) & (BY & AY) & BZ & AZ).
  unfold intersect2, ray_properties; cbn [neg_x neg_y neg_z inv_x inv_y inv_z].
  destruct (slab_sound (r_nzx r) _ _ (vx (r_o r)) (vx (r_d r)) t L1 H1
              (below_ext _ _ _ RX BX) (above_ext _ _ _ RX AX)) as (X1 & X2).
  destruct (slab_sound (r_nzy r) _ _ (vy (r_o r)) (vy (r_d r)) t L2 H2
              (below_ext _ _ _ RY BY) (above_ext _ _ _ RY AY)) as (Y1 & Y2).
  destruct (slab_sound (r_nzz r) _ _ (vz (r_o r)) (vz (r_d r)) t L3 H3
              (below_ext _ _ _ RZ BZ) (above_ext _ _ _ RZ AZ)) as (Z1 & Z2).
  destruct (narrow_sound _ _ t X1 X2 Y1 Y2) as (j & -> & J1 & J2).
  destruct (narrow_sound _ _ t J1 J2 Z1 Z2) as (k & -> & K1 & K2).
  exists k; repeat split; assumption.
Qed.
Print Assumptions slab_never_misses.

(* a ray along z, inside the face x = 1 of the box *)
Example slab_case :
  let b := aabb_of (V 0 0 0) (V 1 1 1) in
  let r := mk_ray (V 1 (1 # 2) (-3)) (V 0 0 2) (true, false, false) in
  valid b /\ on_ray r (7 # 4) (V 1 (1 # 2) (1 # 2)) /\ contains b (V 1 (1 # 2) (1 # 2)) /\
  exists i, intersect2 b r (ray_properties r) = Some i.
Proof.
  cbn zeta; split; [apply valid_of |]; split; [| split].
  - unfold on_ray; cbn; repeat split; reflexivity.
  - unfold contains; cbn; repeat split; lra.
  - eexists; reflexivity.
Qed.

Lemma narrow_fin : forall a b c d,
  (narrow (Fin a, Fin b) (Fin c, Fin d) = None /\
   forall t, ~ ((a <= t /\ t <= b) /\ (c <= t /\ t <= d))) \/
  (exists p q, narrow (Fin a, Fin b) (Fin c, Fin d) = Some (Fin p, Fin q) /\
   forall t, p <= t /\ t <= q <-> (a <= t /\ t <= b) /\ (c <= t /\ t <= d)).
Proof.
  intros a b c d; unfold narrow; cbn.
  destruct (qltb_spec d a), (qltb_spec b c); cbn;
    try (left; split; [reflexivity | intros t H; lra]).
  destruct (qltb_spec a c), (qltb_spec d b); right; do 2 eexists;
    (split; [reflexivity |]); intro t; lra.
Qed.

(* C60.  When no component of the direction is zero the test is exact: a hit is
   reported exactly when the line meets the box, and the reported interval is the
   set of parameters inside of it. *)
Theorem slab_exact_partial : forall lo hi r,
  ~ vx (r_d r) == 0 -> ~ vy (r_d r) == 0 -> ~ vz (r_d r) == 0 ->
  match intersect2 (aabb_of lo hi) r (ray_properties r) with
  | None => forall t p, on_ray r t p -> ~ contains (aabb_of lo hi) p
  | Some (p1, p2) =>
      exists a b, p1 = Fin a /\ p2 = Fin b /\
      forall t p, on_ray r t p -> (a <= t /\ t <= b <-> contains (aabb_of lo hi) p)
  end.
Proof.
  intros lo hi r DX DY DZ.
  unfold intersect2, ray_properties; cbn [neg_x neg_y neg_z inv_x inv_y inv_z].
  cbn [aabb_of b_lo b_hi xvec_of xx xy xz].
  destruct (slab_exact (r_nzx r) (vx lo) (vx hi) (vx (r_o r)) _ 0 DX) as (xa & xb & EX & _).
  destruct (slab_exact (r_nzy r) (vy lo) (vy hi) (vy (r_o r)) _ 0 DY) as (ya & yb & EY & _).
  destruct (slab_exact (r_nzz r) (vz lo) (vz hi) (vz (r_o r)) _ 0 DZ) as (za & zb & EZ & _).
  assert (C : forall t p, on_ray r t p ->
            ((xa <= t /\ t <= xb) /\ (ya <= t /\ t <= yb) /\ (za <= t /\ t <= zb) <->
             contains (aabb_of lo hi) p)).
  { intros t p (RX & RY & RZ).
    destruct (slab_exact (r_nzx r) (vx lo) (vx hi) (vx (r_o r)) _ t DX) as (xa' & xb' & EX' & IX).
    destruct (slab_exact (r_nzy r) (vy lo) (vy hi) (vy (r_o r)) _ t DY) as (ya' & yb' & EY' & IY).
    destruct (slab_exact (r_nzz r) (vz lo) (vz hi) (vz (r_o r)) _ t DZ) as (za' & zb' & EZ' & IZ).
    rewrite EX in EX'; rewrite EY in EY'; rewrite EZ in EZ'.
    inversion EX'; inversion EY'; inversion EZ'; subst.
    unfold contains; cbn; rewrite IX, IY, IZ, RX, RY, RZ; tauto. }
  rewrite EX, EY, EZ; clear EX EY EZ.
  destruct (narrow_fin xa xb ya yb) as [(-> & N) | (p & q & -> & N)];
    [intros t v R I; apply (C t v R) in I; apply (N t); tauto |].
  destruct (narrow_fin p q za zb) as [(-> & M) | (p' & q' & -> & M)];
    [intros t v R I; apply (C t v R) in I; apply (M t); rewrite N; tauto |].
  exists p', q'; split; [reflexivity | split; [reflexivity |]].
  intros t v R; rewrite <- (C t v R), M, N; tauto.
Qed.
Print Assumptions slab_exact_partial.

Example slab_exact_case :
  let r := mk_ray (V 2 2 (-1)) (V (-1) (-1) 1) (false, false, false) in
  intersect2 (aabb_of (V 0 0 0) (V 1 1 1)) r (ray_properties r) = Some (Fin 1, Fin 2).
Proof. reflexivity. Qed.

(* C60 is false when a component of the direction is zero: a ray that runs in the
   plane of the face x = lo.x and passes beside the box is reported as a hit. *)
Theorem slab_exact_refuted : forall lo hi oy oz,
  vx lo < vx hi -> vy lo <= vy hi -> oy < vy lo ->
  let r := mk_ray (V (vx lo) oy oz) (V 0 0 1) (false, false, false) in
  (forall t p, on_ray r t p -> ~ contains (aabb_of lo hi) p) /\
  exists i, intersect2 (aabb_of lo hi) r (ray_properties r) = Some i.
Proof.
  intros lo hi oy oz XX YY OY r; split.
  - intros t p (RX & RY & RZ) (_ & (Y & _) & _); cbn in *; lra.
  - subst r; unfold intersect2, ray_properties, recip, slab; cbn.
    unfold inf_fin.
    destruct (Qeqb_spec (vx lo + - vx lo) 0) as [_ | N]; [| exfalso; lra].
    destruct (Qeqb_spec (vx hi + - vx lo) 0) as [N | _]; [exfalso; lra |].
    destruct (qltb_spec (vx hi + - vx lo) 0) as [N | _]; [exfalso; lra |].
    destruct (Qeqb_spec (vy lo + - oy) 0) as [N | _]; [exfalso; lra |].
    destruct (qltb_spec (vy lo + - oy) 0) as [N | _]; [exfalso; lra |].
    destruct (Qeqb_spec (vy hi + - oy) 0) as [N | _]; [exfalso; lra |].
    destruct (qltb_spec (vy hi + - oy) 0) as [N | _]; [exfalso; lra |].
    eexists; reflexivity.
Qed.
Print Assumptions slab_exact_refuted.

Example slab_exact_refuted_case :
  let r := mk_ray (V 0 (-1) (-5)) (V 0 0 1) (false, false, false) in
  intersect2 (aabb_of (V 0 0 0) (V 1 1 1)) r (ray_properties r) = Some (NaN, Fin 6).
Proof. reflexivity. Qed.

(* The variant of the test without precomputed reciprocals misses nothing as long
   as no component is a negative zero ... *)
Theorem slab1_never_misses_partial : forall b r t p,
  (vx (r_d r) == 0 -> r_nzx r = false) -> (vy (r_d r) == 0 -> r_nzy r = false) ->
  (vz (r_d r) == 0 -> r_nzz r = false) ->
  valid b -> on_ray r t p -> contains b p ->
  exists i, intersect1 b r = Some i /\ not_after (fst i) t /\ not_before (snd i) t.
Proof.
  intros b r t p NX NY NZ VB R C.
  assert (E : forall nz d, (d == 0 -> nz = false) -> qltb d 0 = xlt (recip nz d) (Fin 0)).
  { intros nz d N; destruct (Q_dec 0 d) as [[D | D] | D].
    - rewrite recip_pos by exact D; assert (P := Qinv_lt_0_compat _ D); cbn.
      destruct (qltb_spec d 0), (qltb_spec (/ d) 0); try reflexivity; exfalso; lra.
    - rewrite recip_neg by exact D; assert (P := inv_neg _ D); cbn.
      destruct (qltb_spec d 0), (qltb_spec (/ d) 0); try reflexivity; exfalso; lra.
    - rewrite recip_zero by lra; rewrite N by lra; cbn.
      destruct (qltb_spec d 0); [exfalso; lra | reflexivity]. }
  destruct (slab_never_misses b r t p VB R C) as (i & I & A & B).
  exists i; split; [| split; assumption].
  rewrite <- I; unfold intersect1, intersect2, ray_properties.
  cbn [neg_x neg_y neg_z inv_x inv_y inv_z].
  rewrite (E _ _ NX), (E _ _ NY), (E _ _ NZ); reflexivity.
Qed.
Print Assumptions slab1_never_misses_partial.

(* ... but with a negative zero it misses every box around the origin of the ray. *)
Theorem slab1_negative_zero_refuted : forall lo hi r,
  vx (r_d r) == 0 -> r_nzx r = true ->
  vx lo < vx (r_o r) -> vx (r_o r) < vx hi ->
  ~ vy (r_d r) == 0 ->
  intersect1 (aabb_of lo hi) r = None.
Proof.
  intros lo hi r D NZ L H DY.
  unfold intersect1; cbn [aabb_of b_lo b_hi xvec_of xx xy xz].
  rewrite NZ, (recip_zero true (vx (r_d r)) D).
  destruct (qltb_spec (vx (r_d r)) 0); [exfalso; lra |].
  unfold slab at 1; cbn [xsub xadd xopp xmul]; unfold inf_fin.
  destruct (Qeqb_spec (vx lo + - vx (r_o r)) 0); [exfalso; lra |].
  destruct (qltb_spec (vx lo + - vx (r_o r)) 0); [| exfalso; lra].
  destruct (Qeqb_spec (vx hi + - vx (r_o r)) 0); [exfalso; lra |].
  destruct (qltb_spec (vx hi + - vx (r_o r)) 0); [exfalso; lra |].
  cbn [xorb]; unfold recip at 1.
  destruct (Qeqb_spec (vy (r_d r)) 0); [contradiction |].
  unfold slab at 1; cbn [xsub xadd xopp xmul].
  unfold narrow at 2; cbn [fst snd].
  destruct (qltb (vy (r_d r)) 0); cbn [xadd xmul xlt orb]; reflexivity.
Qed.
Print Assumptions slab1_negative_zero_refuted.

Example slab1_negative_zero_case :
  let b := aabb_of (V (-1) (-1) (-1)) (V 1 1 1) in
  let r := mk_ray (V 0 0 0) (V 0 1 1) (true, false, false) in
  inside b (r_o r) = true /\ intersect1 b r = None /\
  intersect2 b r (ray_properties r) = Some (Fin (-1), Fin 1).
Proof. split; [| split]; reflexivity. Qed.
