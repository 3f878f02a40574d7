(* C61 and C21: Morton codes of flat meshes; materials after the reordering. *)
From Coq Require Import Permutation Sorted Lqa.
From Verif Require Import Common GeomModel AabbModel AabbSpec AabbProofs TriModel TriSpec
  TriProofs TriProps BvhModel BvhSpec BvhCombine BvhBuild BvhWalk BvhProps.
Local Open Scope Q_scope.

(* coordinate k of a point *)
Definition co (k : nat) (v : vec) : Q := match k with 0%nat => vx v | 1%nat => vy v | _ => vz v end.

(* coordinate k of the middle of the smallest box around a triangle *)
Definition middle (k : nat) (T : triangle) : Q :=
  let a := co k (v_p (t_a T)) in let b := co k (v_p (t_b T)) in let c := co k (v_p (t_c T)) in
  (qmin (qmin a b) c + qmax (qmax a b) c) * (1 # 2).

Definition centre (T : triangle) : vec := V (middle 0 T) (middle 1 T) (middle 2 T).

Lemma center_centre : forall T, center (tri_aabb T) = xvec_of (centre T).
Proof. reflexivity. Qed.

Lemma engulf_xpoint_of : forall l h c, engulf_xpoint (aabb_of l h) (xvec_of c) = aabb_of (pmin l c) (pmax h c).
Proof.
  intros l h c; unfold engulf_xpoint, aabb_of, xpmin, xpmax, xvec_of; cbn [b_lo b_hi xx xy xz].
  rewrite !xmin_fin, !xmax_fin; reflexivity.
Qed.

Lemma fold_points : forall cs l h, (forall k, co k l <= co k h) ->
  exists l' h', fold_left engulf_xpoint (map xvec_of cs) (aabb_of l h) = aabb_of l' h' /\
    forall k, co k l' <= co k l /\ co k h <= co k h' /\
      (forall c, In c cs -> co k l' <= co k c <= co k h') /\
      (co k l' == co k l \/ exists c, In c cs /\ co k l' == co k c) /\
      (co k h' == co k h \/ exists c, In c cs /\ co k h' == co k c).
Proof.
  assert (CM : forall k a b, co k (pmin a b) = qmin (co k a) (co k b))
    by (intros [|[|k]] a b; reflexivity).
  assert (CX : forall k a b, co k (pmax a b) = qmax (co k a) (co k b))
    by (intros [|[|k]] a b; reflexivity).
  induction cs as [|c cs IH]; intros l h LH; cbn [map fold_left].
  { exists l, h; split; [reflexivity |]; intro k; split; [lra |]; split; [lra |].
    split; [contradiction |]; split; left; reflexivity. }
  rewrite engulf_xpoint_of.
  destruct (IH (pmin l c) (pmax h c)) as (l' & h' & E & H).
  { intro k; rewrite CM, CX.
    apply Qle_trans with (co k l); [apply qmin_l |].
    apply Qle_trans with (co k h); [apply LH | apply qmax_l]. }
  exists l', h'; split; [exact E |]; intro k; destruct (H k) as (A & B & C & D1 & D2).
  rewrite CM in A, D1; rewrite CX in B, D2.
  assert (M1 := qmin_l (co k l) (co k c)); assert (M2 := qmin_r (co k l) (co k c)).
  assert (M3 := qmax_l (co k h) (co k c)); assert (M4 := qmax_r (co k h) (co k c)).
  split; [lra |]; split; [lra |]; split; [| split].
  - intros x [<- | I]; [split; lra | apply C, I].
  - destruct D1 as [D | (x & I & D)]; [| right; exists x; split; [right; exact I | exact D]].
    unfold qmin in D; destruct (qltb_spec (co k l) (co k c)).
    + left; exact D.
    + right; exists c; split; [left; reflexivity | exact D].
  - destruct D2 as [D | (x & I & D)]; [| right; exists x; split; [right; exact I | exact D]].
    unfold qmax in D; destruct (qltb_spec (co k c) (co k h)).
    + left; exact D.
    + right; exists c; split; [left; reflexivity | exact D].
Qed.

Lemma centre_box : forall tris, tris <> [] ->
  exists l h, fold_left engulf_xpoint (map (fun t => center (tri_aabb t)) tris) aabb_empty = aabb_of l h /\
    forall k, (forall T, In T tris -> co k l <= co k (centre T) <= co k h) /\
      (exists T, In T tris /\ co k l == co k (centre T)) /\
      (exists T, In T tris /\ co k h == co k (centre T)).
Proof.
  intros [|T tris] NE; [contradiction |]; cbn [map fold_left].
  rewrite center_centre.
  change (engulf_xpoint aabb_empty (xvec_of (centre T))) with (aabb_of (centre T) (centre T)).
  replace (map (fun t => center (tri_aabb t)) tris) with (map xvec_of (map centre tris))
    by (rewrite map_map; reflexivity).
  destruct (fold_points (map centre tris) (centre T) (centre T) ltac:(intro; lra)) as (l & h & E & H).
  exists l, h; split; [exact E |]; intro k; destruct (H k) as (A & B & C & D1 & D2).
  assert (IM : forall c, In c (map centre tris) -> exists T', In T' tris /\ c = centre T').
  { intros c I; apply in_map_iff in I; destruct I as (T' & <- & I); exists T'; split; [exact I | reflexivity]. }
  split; [| split].
  - intros T' [<- | I]; [split; assumption |]. apply C, in_map, I.
  - destruct D1 as [D | (c & I & D)]; [exists T; split; [left; reflexivity | exact D] |].
    destruct (IM c I) as (T' & I' & ->); exists T'; split; [right; exact I' | exact D].
  - destruct D2 as [D | (c & I & D)]; [exists T; split; [left; reflexivity | exact D] |].
    destruct (IM c I) as (T' & I' & ->); exists T'; split; [right; exact I' | exact D].
Qed.

Lemma co_middle : forall k T, (k < 3)%nat -> co k (centre T) = middle k T.
Proof. intros [|[|[|k]]] T H; try reflexivity; lia. Qed.

Lemma coord_code_fuel : forall x, coord_code x <> OutOfFuel.
Proof.
  intro x; unfold coord_code, to_u64; destruct (xmul x _); try discriminate.
  destruct (_ && _); discriminate.
Qed.

(* one coordinate *)
Lemma coord_flat : forall c l h, c == l -> h == l ->
  coord_code (xmul (Fin (c + - l)) (xrecip (Fin (h + - l)))) = UB.
Proof.
  intros c l h C H; unfold coord_code; cbn [xrecip]; unfold recip.
  destruct (Qeqb_spec (h + - l) 0) as [_ | N]; [| exfalso; lra].
  cbn [xmul]; unfold inf_fin.
  destruct (Qeqb_spec (c + - l) 0) as [_ | N]; [reflexivity | exfalso; lra].
Qed.

Lemma coord_spread : forall c l h, l <= c <= h -> l < h ->
  exists m, coord_code (xmul (Fin (c + - l)) (xrecip (Fin (h + - l)))) = Ok m.
Proof.
  intros c l h (LC & CH) LH; unfold coord_code; cbn [xrecip]; unfold recip.
  destruct (Qeqb_spec (h + - l) 0) as [N | _]; [exfalso; lra |].
  cbn [xmul to_u64].
  set (q := (c + - l) * / (h + - l) * 2097151).
  assert (P : 0 < h + - l) by lra.
  assert (PI := Qinv_lt_0_compat _ P).
  assert (F0 : 0 <= (c + - l) * / (h + - l)) by (apply Qmult_le_0_compat; lra).
  assert (F1 : (c + - l) * / (h + - l) <= 1).
  { apply Qle_trans with ((h + - l) * / (h + - l)).
    - apply Qmult_le_compat_r; lra.
    - rewrite Qmult_inv_r; [lra | lra]. }
  assert (Q0 : 0 <= q) by (unfold q; apply Qmult_le_0_compat; [exact F0 | lra]).
  assert (Q1 : q <= 2097151).
  { unfold q; apply Qle_trans with (1 * 2097151); [apply Qmult_le_compat_r; lra | lra]. }
  clearbody q; unfold Qle in Q0, Q1; cbn [Qnum Qden inject_Z] in Q0, Q1.
  assert (Z0 : (0 <= Z.quot (Qnum q) (Z.pos (Qden q)))%Z) by (apply Z.quot_pos; lia).
  assert (Z1 : (Z.quot (Qnum q) (Z.pos (Qden q)) <= 2097151)%Z).
  { rewrite Z.quot_div_nonneg by lia. apply Z.div_le_upper_bound; lia. }
  rewrite (proj2 (Z.leb_le _ _) Z0).
  assert (Z2 : (Z.quot (Qnum q) (Z.pos (Qden q)) < 2 ^ 64)%Z) by lia.
  rewrite (proj2 (Z.ltb_lt _ _) Z2).
  eexists; reflexivity.
Qed.

(* C61 is false for every mesh of four or more triangles whose boxes have the same
   middle on some axis (in particular every mesh flat in an axis plane): a NaN is
   converted to an integer. *)
Theorem bvh_flat_conversion_refuted : forall sort aac tris k x, (k < 3)%nat ->
  (4 <= length tris)%nat -> (forall T, In T tris -> middle k T == x) ->
  buildTree sort aac tris = UB.
Proof.
  intros sort aac tris k x K L H.
  assert (M : morton_codes tris = UB).
  { unfold morton_codes.
    destruct (centre_box tris ltac:(intros ->; cbn in L; lia)) as (l & h & -> & B).
    destruct (B k) as (_ & (T1 & I1 & E1) & (T2 & I2 & E2)).
    rewrite co_middle in E1, E2 by exact K.
    assert (EL : co k l == x) by (rewrite E1; apply H, I1).
    assert (EH : co k h == x) by (rewrite E2; apply H, I2).
    destruct tris as [|T tris]; [cbn in L; lia |]; cbn [map codes_of].
    assert (EC : co k (centre T) == x) by (rewrite co_middle by exact K; apply H; left; reflexivity).
    rewrite center_centre; unfold mortonCode.
    cbn [aabb_of b_lo b_hi xvsub xvec_of xx xy xz xvmul xsub xadd xopp].
    destruct k as [|[|[|k]]]; [| | | lia]; cbn [co] in EL, EH, EC.
    - rewrite (coord_flat (vx (centre T)) (vx l) (vx h)) by lra; reflexivity.
    - destruct (coord_code (xmul (Fin (vx (centre T) + - vx l)) _)) as [m | |] eqn:EX.
      + cbn [bind]. rewrite (coord_flat (vy (centre T)) (vy l) (vy h)) by lra; reflexivity.
      + reflexivity.
      + destruct (coord_code_fuel _ EX).
    - destruct (coord_code (xmul (Fin (vx (centre T) + - vx l)) _)) as [m | |] eqn:EX.
      + cbn [bind]. destruct (coord_code (xmul (Fin (vy (centre T) + - vy l)) _)) as [m2 | |] eqn:EY.
        * cbn [bind]. rewrite (coord_flat (vz (centre T)) (vz l) (vz h)) by lra; reflexivity.
        * reflexivity.
        * destruct (coord_code_fuel _ EY).
      + reflexivity.
      + destruct (coord_code_fuel _ EX). }
  unfold buildTree; destruct (Nat.ltb_spec (length tris) aac_delta) as [X | _];
    [unfold aac_delta in X; lia |].
  rewrite M; reflexivity.
Qed.
Print Assumptions bvh_flat_conversion_refuted.

Definition floor4 : list triangle := [tri_at 0 0 0; tri_at 1 0 0; tri_at 0 1 0; tri_at 1 1 0].
Example bvh_flat_case : (4 <= length floor4)%nat /\ forall T, In T floor4 -> middle 2 T == 0.
Proof. split; [cbn; lia |]; intros T [<- | [<- | [<- | [<- | []]]]]; reflexivity. Qed.

(* C61, the true part: with two different middles on each axis (or less than four
   triangles) every conversion is defined and the construction ends normally. *)
Theorem bvh_build_total_partial : forall sort aac tris, sorts sort ->
  (forall x, (4 <= x)%nat -> (1 <= aac x)%nat) ->
  (forall k, (k < 3)%nat -> exists T T', In T tris /\ In T' tris /\ ~ middle k T == middle k T') ->
  exists b, buildTree sort aac tris = Ok b.
Proof.
  intros sort aac tris SO A H; unfold buildTree.
  destruct (Nat.ltb_spec (length tris) aac_delta) as [L | L]; unfold aac_delta in L;
    [eexists; reflexivity |].
  assert (M : exists codes, morton_codes tris = Ok codes).
  { unfold morton_codes.
    destruct (centre_box tris ltac:(intros ->; cbn in L; lia)) as (l & h & -> & B).
    assert (S1 : forall k, (k < 3)%nat -> co k l < co k h).
    { intros k K; destruct (H k K) as (T & T' & I & I' & N).
      destruct (B k) as (R & _). assert (R1 := R T I); assert (R2 := R T' I').
      rewrite co_middle in R1, R2 by exact K.
      destruct (Q_dec (middle k T) (middle k T')) as [[X | X] | X]; [lra | lra |].
      exfalso; apply N; exact X. }
    assert (R : forall k T, In T tris -> co k l <= co k (centre T) <= co k h)
      by (intros k T I; apply (proj1 (B k)), I).
    clear - S1 R.
    cbn [aabb_of b_lo b_hi xvsub xvec_of xx xy xz xsub xadd xopp].
    induction tris as [|T tris IH]; cbn [map codes_of]; [eexists; reflexivity |].
    destruct IH as (codes & E); [intros k T' I; apply R; right; exact I |].
    rewrite E, center_centre; unfold mortonCode; cbn [xvec_of xx xy xz xvmul xvsub xsub xadd xopp].
    destruct (coord_spread (vx (centre T)) (vx l) (vx h)
                (R 0%nat T (or_introl eq_refl)) (S1 0%nat ltac:(lia))) as (m1 & ->).
    destruct (coord_spread (vy (centre T)) (vy l) (vy h)
                (R 1%nat T (or_introl eq_refl)) (S1 1%nat ltac:(lia))) as (m2 & ->).
    destruct (coord_spread (vz (centre T)) (vz l) (vz h)
                (R 2%nat T (or_introl eq_refl)) (S1 2%nat ltac:(lia))) as (m3 & ->).
    cbn [bind]; eexists; reflexivity. }
  destruct M as (codes & E); rewrite E, bind_ok.
  destruct (build_sorted_ok aac tris codes (sort (prims_of codes)) A ltac:(lia)
              (morton_codes_length _ _ E) (proj1 (SO (prims_of codes))))
    as (arr & rt & root & E' & _).
  exists (mk_bvh arr rt); exact E'.
Qed.
Print Assumptions bvh_build_total_partial.

Example bvh_total_case : forall k, (k < 3)%nat ->
  exists T T', In T mesh5 /\ In T' mesh5 /\ ~ middle k T == middle k T'.
Proof.
  intros k K; exists (tri_at 0 0 4), (tri_at 3 1 1).
  split; [left; reflexivity |]; split; [right; left; reflexivity |].
  destruct k as [|[|[|k]]]; [| | | lia]; intro X; vm_compute in X; discriminate.
Qed.
