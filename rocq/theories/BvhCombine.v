(* combineCluster always merges a pair of nodes with the smallest union. *)
From Coq Require Import Lqa Permutation.
From Verif Require Import Common GeomModel AabbModel AabbSpec AabbProofs TriModel TriProofs
  BvhModel BvhSpec.
Local Open Scope nat_scope.

(* ----- finite boxes ----- *)
Definition vle (a b : vec) : Prop := (vx a <= vx b /\ vy a <= vy b /\ vz a <= vz b)%Q.
Definition fin_box (b : aabb) : Prop := exists lo hi, b = aabb_of lo hi /\ vle lo hi.
Definition fin_node (n : bnode) : Prop := fin_box (bounding n).

Lemma xmin_fin : forall a b, xmin (Fin a) (Fin b) = Fin (qmin a b).
Proof. intros a b; unfold xmin, qmin; cbn; destruct (qltb a b); reflexivity. Qed.
Lemma xmax_fin : forall a b, xmax (Fin a) (Fin b) = Fin (qmax a b).
Proof. intros a b; unfold xmax, qmax; cbn; destruct (qltb b a); reflexivity. Qed.

Lemma engulf_of : forall a b c d,
  engulf (aabb_of a b) (aabb_of c d) = aabb_of (pmin a c) (pmax b d).
Proof.
  intros a b c d; unfold engulf, aabb_of, xpmin, xpmax, xvec_of; cbn [b_lo b_hi xx xy xz].
  rewrite !xmin_fin, !xmax_fin; reflexivity.
Qed.

Lemma engulf_empty : forall a b, engulf aabb_empty (aabb_of a b) = aabb_of a b.
Proof. reflexivity. Qed.

Lemma vle_pmin_pmax : forall a b c d, vle a b -> vle c d -> vle (pmin a c) (pmax b d).
Proof.
  intros a b c d (A & B & C) (D & E & F); unfold vle, pmin, pmax; cbn.
  repeat split; eapply Qle_trans; try apply qmin_l;
    (eapply Qle_trans; [| apply qmax_l]); assumption.
Qed.

Lemma fin_engulf : forall a b, fin_box a -> fin_box b -> fin_box (engulf a b).
Proof.
  intros a b (l & h & -> & L) (l' & h' & -> & L').
  exists (pmin l l'), (pmax h h'); split; [apply engulf_of | apply vle_pmin_pmax; assumption].
Qed.

Lemma fin_valid : forall b, fin_box b -> valid b.
Proof. intros b (l & h & -> & _); apply valid_of. Qed.

Lemma fin_tri : forall T, fin_box (tri_aabb T).
Proof.
  intros T; unfold tri_aabb; eexists; eexists; split; [reflexivity |].
  unfold vle, pmin, pmax; cbn.
  repeat split; (eapply Qle_trans; [apply qmin_l |]); (eapply Qle_trans; [apply qmin_l |]);
    (eapply Qle_trans; [apply qmax_l |]); apply qmax_l.
Qed.

Lemma fin_interior : forall a b axis, fin_node a -> fin_node b -> fin_node (interior a b axis).
Proof.
  intros a b axis (l & h & E & L) B; unfold fin_node, interior; cbn [bounding].
  rewrite E, engulf_empty; apply fin_engulf; [exists l, h; split; [reflexivity | exact L] | exact B].
Qed.

(* ----- areas ----- *)
Definition area (b : aabb) : Q := match surface b with Fin q => q | _ => 0%Q end.
Definition J (a b : bnode) : Q := area (engulf (bounding a) (bounding b)).

Definition area_of (lo hi : vec) : Q :=
  (2 * ((vx hi + - vx lo) * (vy hi + - vy lo) + (vx hi + - vx lo) * (vz hi + - vz lo) +
        (vy hi + - vy lo) * (vz hi + - vz lo)))%Q.

Lemma surface_of : forall lo hi, surface (aabb_of lo hi) = Fin (area_of lo hi).
Proof. reflexivity. Qed.

Lemma join_J : forall a b, fin_node a -> fin_node b -> join a b = Fin (J a b).
Proof.
  intros a b (l & h & E & L) (l' & h' & E' & L').
  unfold join, J, area; rewrite E, E', engulf_of, surface_of; reflexivity.
Qed.

Lemma qmin_sym : forall a b, (qmin a b == qmin b a)%Q.
Proof. intros a b; unfold qmin; destruct (qltb_spec a b), (qltb_spec b a); lra. Qed.
Lemma qmax_sym : forall a b, (qmax a b == qmax b a)%Q.
Proof. intros a b; unfold qmax; destruct (qltb_spec a b), (qltb_spec b a); lra. Qed.

Lemma J_sym : forall a b, fin_node a -> fin_node b -> (J a b == J b a)%Q.
Proof.
  intros a b (l & h & E & L) (l' & h' & E' & L').
  unfold J, area; rewrite E, E', !engulf_of, !surface_of.
  unfold area_of, pmin, pmax; cbn [vx vy vz].
  rewrite (qmin_sym (vx l')), (qmin_sym (vy l')), (qmin_sym (vz l')).
  rewrite (qmax_sym (vx h')), (qmax_sym (vy h')), (qmax_sym (vz h')).
  reflexivity.
Qed.

Lemma mul_mono : forall a b c d : Q, (0 <= a -> a <= c -> 0 <= b -> b <= d -> a * b <= c * d)%Q.
Proof.
  intros a b c d A AC B BD.
  apply Qle_trans with (c * b)%Q; [apply Qmult_le_compat_r; assumption |].
  rewrite (Qmult_comm c b), (Qmult_comm c d); apply Qmult_le_compat_r; [assumption | lra].
Qed.

Lemma area_of_mono : forall lo hi lo' hi', vle lo hi -> vle lo' lo -> vle hi hi' ->
  (area_of lo hi <= area_of lo' hi')%Q.
Proof.
  intros lo hi lo' hi' (A & B & C) (A1 & B1 & C1) (A2 & B2 & C2); unfold area_of.
  assert (H1 := mul_mono (vx hi + - vx lo) (vy hi + - vy lo) (vx hi' + - vx lo') (vy hi' + - vy lo')
            ltac:(lra) ltac:(lra) ltac:(lra) ltac:(lra)).
  assert (H2 := mul_mono (vx hi + - vx lo) (vz hi + - vz lo) (vx hi' + - vx lo') (vz hi' + - vz lo')
            ltac:(lra) ltac:(lra) ltac:(lra) ltac:(lra)).
  assert (H3 := mul_mono (vy hi + - vy lo) (vz hi + - vz lo) (vy hi' + - vy lo') (vz hi' + - vz lo')
            ltac:(lra) ltac:(lra) ltac:(lra) ltac:(lra)).
  lra.
Qed.

Lemma qmin_mono : forall a b c, (b <= c -> qmin a b <= qmin a c)%Q.
Proof. intros a b c H; unfold qmin; destruct (qltb_spec a b), (qltb_spec a c); lra. Qed.
Lemma qmax_mono : forall a b c, (b <= c -> qmax a b <= qmax a c)%Q.
Proof. intros a b c H; unfold qmax; destruct (qltb_spec b a), (qltb_spec c a); lra. Qed.

(* joining with a merged node costs at least as much as with its first part *)
Lemma J_interior : forall x a b axis, fin_node x -> fin_node a -> fin_node b ->
  (J x a <= J x (interior a b axis))%Q.
Proof.
  intros x a b axis (l & h & E & L) (l' & h' & E' & L') (l2 & h2 & E2 & L2).
  unfold J, area, interior; cbn [bounding].
  rewrite E, E', E2, engulf_empty, !engulf_of, !surface_of.
  apply area_of_mono; [apply vle_pmin_pmax; assumption | |];
    unfold vle, pmin, pmax; cbn [vx vy vz]; repeat split;
    first [apply qmin_mono, qmin_l | apply qmax_mono, qmax_l].
Qed.

(* ----- lists ----- *)
Lemma upd_length : forall A (l : list A) i a, length (upd l i a) = length l.
Proof.
  intros A l; induction l as [|x l IH]; intros [|i] a; try reflexivity.
  unfold upd in *; cbn in *; rewrite IH; reflexivity.
Qed.

Lemma nth_upd : forall A (l : list A) i j a d, i < length l ->
  nth j (upd l i a) d = if j =? i then a else nth j l d.
Proof.
  intros A l; induction l as [|x l IH]; intros i j a d H; [cbn in H; lia |].
  destruct i as [|i]; [destruct j; reflexivity |].
  destruct j as [|j]; [reflexivity |]. apply (IH i j a d); cbn in H; lia.
Qed.

Lemma nth_removelast : forall A (l : list A) j d, j < length l - 1 ->
  nth j (removelast l) d = nth j l d.
Proof.
  intros A l; induction l as [|x l IH]; intros j d H; [cbn in H; lia |].
  destruct l as [|y l]; [cbn in H; lia |].
  destruct j as [|j]; [reflexivity |].
  change (removelast (x :: y :: l)) with (x :: removelast (y :: l)); cbn [nth].
  apply IH; cbn in *; lia.
Qed.

Lemma removelast_length : forall A (l : list A), length (removelast l) = length l - 1.
Proof.
  intros A l; induction l as [|x l IH]; [reflexivity |].
  destruct l as [|y l]; [reflexivity |].
  change (removelast (x :: y :: l)) with (x :: removelast (y :: l)); cbn [length] in *; lia.
Qed.

Lemma at_nth : forall A (l : list A) i d, i < length l -> at_ l i = Ok (nth i l d).
Proof.
  intros A l i d H; unfold at_; destruct (nth_error l i) eqn:E.
  - rewrite (nth_error_nth l i d E); reflexivity.
  - apply nth_error_None in E; lia.
Qed.

Definition dnode : bnode := BLeaf aabb_empty 0 0.

Definition all_fin (c : list bnode) : Prop := Forall fin_node c.
Lemma all_fin_nth : forall c i, all_fin c -> i < length c -> fin_node (nth i c dnode).
Proof. intros c i A H; unfold all_fin in A; rewrite Forall_forall in A; apply A, nth_In, H. Qed.

(* ----- findBestMatch ----- *)
Lemma match_from_spec : forall l j i b best ret,
  all_fin l -> fin_node b ->
  let k := match_from l j i b best ret in
  (k = ret /\ forall m, m < length l -> j + m <> i ->
                        xlt (Fin (J (nth m l dnode) b)) best = false) \/
  (exists m, k = j + m /\ m < length l /\ j + m <> i /\
     xlt (Fin (J (nth m l dnode) b)) best = true /\
     forall m', m' < length l -> j + m' <> i ->
                (J (nth m l dnode) b <= J (nth m' l dnode) b)%Q).
Proof.
  induction l as [|n l IH]; intros j i b best ret F B k; subst k; cbn [match_from].
  { left; split; [reflexivity | cbn; lia]. }
  apply Forall_cons_iff in F; destruct F as (Fn & F).
  destruct (Nat.eqb_spec j i) as [E | E].
  { destruct (IH (S j) i b best ret F B) as [(K & N) | (m & K & M & MI & X & N)].
    - left; split; [exact K |]; intros [|m] H D; [lia |]; apply (N m); cbn in H; lia.
    - right; exists (S m); repeat split; [lia | cbn; lia | lia | exact X |].
      intros [|m'] H D; [lia |]; apply (N m'); cbn in H; lia. }
  rewrite (join_J n b Fn B).
  destruct (xlt (Fin (J n b)) best) eqn:X.
  - destruct (IH (S j) i b (Fin (J n b)) j F B) as [(K & N) | (m & K & M & MI & X' & N)].
    + right; exists 0; repeat split; [lia | cbn; lia | lia | exact X |].
      intros [|m'] H D; [apply Qle_refl |].
      assert (A := N m' ltac:(cbn in H; lia) ltac:(lia)).
      cbn in A; apply qltb_ge in A; exact A.
    + right; exists (S m); cbn in X'; apply qltb_lt in X'.
      repeat split; [lia | cbn; lia | lia | |].
      * destruct best as [q | | |]; cbn in X |- *; try congruence.
        apply qltb_lt; apply qltb_lt in X; lra.
      * intros [|m'] H D; [cbn [nth]; lra |]; apply (N m'); cbn in H; lia.
  - destruct (IH (S j) i b best ret F B) as [(K & N) | (m & K & M & MI & X' & N)].
    + left; split; [exact K |]; intros [|m'] H D; [exact X |]; apply (N m'); cbn in H; lia.
    + right; exists (S m); repeat split; [lia | cbn; lia | lia | exact X' |].
      intros [|m'] H D; [| apply (N m'); cbn in H; lia].
      destruct best as [q | | |]; cbn in X, X' |- *; try congruence.
      apply qltb_ge in X; apply qltb_lt in X'; lra.
Qed.

Definition nearest (c : list bnode) (i k : nat) : Prop :=
  k < length c /\ k <> i /\
  forall j, j < length c -> j <> i -> (J (nth i c dnode) (nth k c dnode) <=
                                       J (nth i c dnode) (nth j c dnode))%Q.

Lemma findBestMatch_nearest : forall c i, all_fin c -> 2 <= length c -> i < length c ->
  nearest c i (findBestMatch c i (nth i c dnode)).
Proof.
  intros c i F L I; unfold findBestMatch.
  assert (B := all_fin_nth c i F I).
  destruct (match_from_spec c 0 i (nth i c dnode) PInf 0 F B)
    as [(K & N) | (m & K & M & MI & X & N)].
  - exfalso; destruct i as [|i].
    + assert (A := N 1 ltac:(lia) ltac:(lia)); cbn in A; discriminate.
    + assert (A := N 0 ltac:(lia) ltac:(lia)); cbn in A; discriminate.
  - rewrite K; cbn [plus]; split; [exact M |]; split; [lia |].
    intros j H D; assert (A := N j H ltac:(lia)).
    rewrite (J_sym _ _ B (all_fin_nth c m F M)), (J_sym _ _ B (all_fin_nth c j F H)); exact A.
Qed.

(* ----- the choice of the pair ----- *)
Definition good (c : list bnode) (cl : list nat) : Prop :=
  length c <= length cl /\ forall i, i < length c -> nearest c i (nth i cl 0).

Definition best_pair (c : list bnode) (il ir : nat) : Prop :=
  il < ir /\ ir < length c /\
  (forall i j, i < length c -> j < length c -> i <> j ->
     (J (nth il c dnode) (nth ir c dnode) <= J (nth i c dnode) (nth j c dnode))%Q) /\
  (forall i j, i < il -> j < length c -> i <> j ->
     (J (nth il c dnode) (nth ir c dnode) < J (nth i c dnode) (nth j c dnode))%Q).

Definition pairval (c : list bnode) (cl : list nat) (i : nat) : Q :=
  J (nth i c dnode) (nth (nth i cl 0) c dnode).

Lemma best_from_spec : forall c cl l i best lr,
  all_fin c -> good c cl -> i + length l = length c -> l = skipn i c ->
  exists o, best_from c l cl i best lr = Ok o /\
  ((o = lr /\ forall m, i <= m -> m < length c -> xlt (Fin (pairval c cl m)) best = false) \/
   (exists m, o = Some (m, nth m cl 0) /\ i <= m /\ m < length c /\
      xlt (Fin (pairval c cl m)) best = true /\
      (forall m', i <= m' -> m' < length c -> (pairval c cl m <= pairval c cl m')%Q) /\
      (forall m', i <= m' -> m' < m -> (pairval c cl m < pairval c cl m')%Q))).
Proof.
  intros c cl l; induction l as [|n l IH]; intros i best lr F G E S1; cbn [best_from].
  { eexists; split; [reflexivity |]; left; split; [reflexivity |]; cbn in E; intros; lia. }
  destruct G as (GL & G).
  assert (Hi : i < length c) by (cbn in E; lia).
  assert (NI : nth i c dnode = n).
  { rewrite <- (firstn_skipn i c), <- S1.
    rewrite app_nth2; rewrite firstn_length, Nat.min_l by lia; [| lia].
    rewrite Nat.sub_diag; reflexivity. }
  assert (SI : l = skipn (S i) c).
  { change (skipn (S i) c) with (skipn (1 + i) c).
    clear - S1. revert i S1; induction c as [|x c IHc]; intros [|i] S1; cbn in *; try congruence.
    - apply IHc; exact S1. }
  rewrite (at_nth _ cl i 0) by lia; cbn [bind].
  destruct (G i Hi) as (K1 & K2 & K3).
  rewrite (at_nth _ c _ dnode K1); cbn [bind].
  rewrite join_J; [| rewrite <- NI; apply all_fin_nth; assumption
                   | apply all_fin_nth; assumption].
  assert (P : J n (nth (nth i cl 0) c dnode) = pairval c cl i) by (unfold pairval; rewrite NI; reflexivity).
  rewrite P.
  destruct (xlt (Fin (pairval c cl i)) best) eqn:X.
  - destruct (IH (S i) (Fin (pairval c cl i)) (Some (i, nth i cl 0)) F (conj GL G)
                 ltac:(cbn in E; lia) SI) as (o & -> & [(-> & N) | (m & -> & M1 & M2 & X' & N1 & N2)]).
    + eexists; split; [reflexivity |]; right; exists i.
      repeat split; try assumption; try lia.
      intros m' H1 H2; destruct (Nat.eq_dec m' i) as [-> | D]; [apply Qle_refl |].
      assert (A := N m' ltac:(lia) H2); cbn in A; apply qltb_ge in A; exact A.
    + eexists; split; [reflexivity |]; right; exists m; cbn in X'; apply qltb_lt in X'.
      repeat split; try assumption; try lia.
      * destruct best as [q | | |]; cbn in X |- *; try congruence.
        apply qltb_lt; apply qltb_lt in X; lra.
      * intros m' H1 H2; destruct (Nat.eq_dec m' i) as [-> | D]; [lra |].
        apply N1; lia.
      * intros m' H1 H2; destruct (Nat.eq_dec m' i) as [-> | D]; [lra |].
        apply N2; lia.
  - destruct (IH (S i) best lr F (conj GL G) ltac:(cbn in E; lia) SI)
      as (o & -> & [(-> & N) | (m & -> & M1 & M2 & X' & N1 & N2)]).
    + eexists; split; [reflexivity |]; left; split; [reflexivity |].
      intros m H1 H2; destruct (Nat.eq_dec m i) as [-> | D]; [exact X | apply N; lia].
    + assert (LT : (pairval c cl m < pairval c cl i)%Q).
      { destruct best as [q | | |]; cbn in X, X'; try congruence.
        apply qltb_ge in X; apply qltb_lt in X'; lra. }
      eexists; split; [reflexivity |]; right; exists m.
      repeat split; try assumption; try lia.
      * intros m' H1 H2; destruct (Nat.eq_dec m' i) as [-> | D]; [lra | apply N1; lia].
      * intros m' H1 H2; destruct (Nat.eq_dec m' i) as [-> | D]; [lra | apply N2; lia].
Qed.

Lemma best_from_best : forall c cl lr, all_fin c -> good c cl -> 2 <= length c ->
  exists il ir, best_from c c cl 0 PInf lr = Ok (Some (il, ir)) /\ ir = nth il cl 0 /\
                best_pair c il ir.
Proof.
  intros c cl lr F G L.
  destruct (best_from_spec c cl c 0 PInf lr F G eq_refl eq_refl)
    as (o & -> & [(-> & N) | (m & -> & _ & M & _ & N1 & N2)]).
  { exfalso; assert (A := N 0 ltac:(lia) ltac:(lia)); cbn in A; discriminate. }
  destruct G as (GL & G). destruct (G m M) as (K1 & K2 & K3).
  exists m, (nth m cl 0); split; [reflexivity | split; [reflexivity |]].
  assert (V : forall i, i < length c -> forall j, j < length c -> j <> i ->
              (pairval c cl i <= J (nth i c dnode) (nth j c dnode))%Q).
  { intros i Hi; destruct (G i Hi) as (_ & _ & A); exact A. }
  assert (LT : m < nth m cl 0).
  { destruct (Nat.lt_ge_cases m (nth m cl 0)) as [H | H]; [exact H | exfalso].
    assert (A := N2 (nth m cl 0) ltac:(lia) ltac:(lia)).
    assert (B := V _ K1 m M ltac:(lia)).
    rewrite (J_sym _ _ (all_fin_nth c _ F K1) (all_fin_nth c m F M)) in B.
    unfold pairval in A at 1; lra. }
  split; [exact LT |]; split; [exact K1 |]; split.
  - intros i j Hi Hj D; apply Qle_trans with (pairval c cl i); [apply N1; lia | apply V; lia].
  - intros i j Hi Hj D; apply Qlt_le_trans with (pairval c cl i); [apply N2; lia | apply V; lia].
Qed.

(* ----- one round ----- *)
Definition merged (c : list bnode) (il ir axis : nat) : list bnode :=
  let c1 := upd c il (interior (nth il c dnode) (nth ir c dnode) axis) in
  removelast (upd c1 ir (nth (length c1 - 1) c1 dnode)).

Lemma merged_length : forall c il ir axis, length (merged c il ir axis) = length c - 1.
Proof. intros; unfold merged; rewrite removelast_length, !upd_length; reflexivity. Qed.

Lemma merged_nth : forall c il ir axis j, il < ir -> ir < length c -> j < length c - 1 ->
  nth j (merged c il ir axis) dnode =
  if j =? il then interior (nth il c dnode) (nth ir c dnode) axis
  else nth (if j =? ir then length c - 1 else j) c dnode.
Proof.
  intros c il ir axis j L R H; unfold merged.
  rewrite nth_removelast by (rewrite !upd_length; exact H).
  rewrite nth_upd by (rewrite upd_length; lia).
  rewrite upd_length, !nth_upd by lia.
  destruct (Nat.eqb_spec j ir) as [-> | D].
  - destruct (Nat.eqb_spec ir il); [lia |].
    destruct (Nat.eqb_spec (length c - 1) il); [lia | reflexivity].
  - destruct (Nat.eqb_spec j il); reflexivity.
Qed.

Lemma Forall_nth_fin : forall l, (forall i, i < length l -> fin_node (nth i l dnode)) -> all_fin l.
Proof.
  intros l H; apply Forall_forall; intros x I.
  destruct (In_nth l x dnode I) as (n & N & <-); apply H, N.
Qed.

Lemma merged_fin : forall c il ir axis, all_fin c -> il < ir -> ir < length c ->
  all_fin (merged c il ir axis).
Proof.
  intros c il ir axis F L R; apply Forall_nth_fin; intros i Hi; rewrite merged_length in Hi.
  rewrite merged_nth by assumption.
  destruct (Nat.eqb_spec i il) as [E | E].
  - apply fin_interior; apply all_fin_nth; try assumption; lia.
  - destruct (Nat.eqb_spec i ir); apply all_fin_nth; try assumption; lia.
Qed.

Lemma refresh_length : forall c l cl i il ir, length (refresh_from c l cl i il ir) = length cl.
Proof.
  intros c l; induction l as [|n l IH]; intros [|k cl] i il ir; cbn; try reflexivity.
  rewrite IH; reflexivity.
Qed.

Lemma refresh_nth : forall c l cl i il ir m, m < length l -> length l <= length cl ->
  nth m (refresh_from c l cl i il ir) 0 =
  let k := nth m cl 0 in
  let k := if (k =? il) || (k =? ir) then findBestMatch c (i + m) (nth m l dnode) else k in
  if k =? length c then ir else k.
Proof.
  intros c l; induction l as [|n l IH]; intros [|k cl] i il ir m H L; try (cbn in *; lia).
  cbn [refresh_from].
  destruct m as [|m]; [rewrite Nat.add_0_r; reflexivity |].
  cbn [nth]; rewrite IH by (cbn in *; lia).
  replace (S i + m) with (i + S m) by lia; reflexivity.
Qed.

(* the table of nearest nodes after a merge *)
Definition next_table (c : list bnode) (cl : list nat) (il ir axis : nat) : list nat :=
  let c2 := merged c il ir axis in
  let cl1 := upd cl ir (nth (length c2) cl 0) in
  let cl2 := upd cl1 il (findBestMatch c2 il (nth il c2 dnode)) in
  refresh_from c2 c2 cl2 0 il ir.

Lemma next_good : forall c cl il ir axis,
  all_fin c -> good c cl -> il < ir -> ir < length c -> 3 <= length c ->
  good (merged c il ir axis) (next_table c cl il ir axis).
Proof.
  intros c cl il ir axis F (GL & G) L R L3.
  assert (F2 := merged_fin c il ir axis F L R).
  assert (L2 := merged_length c il ir axis).
  assert (M := fun j H => merged_nth c il ir axis j L R H).
  unfold next_table; cbv zeta.
  set (c2 := merged c il ir axis) in *.
  set (cl1 := upd cl ir (nth (length c2) cl 0)).
  set (cl2 := upd cl1 il (findBestMatch c2 il (nth il c2 dnode))).
  assert (LCL : length cl2 = length cl) by (unfold cl2, cl1; rewrite !upd_length; reflexivity).
  split; [rewrite refresh_length; lia |].
  intros i Hi.
  assert (FB := findBestMatch_nearest c2 i F2 ltac:(lia) Hi).
  rewrite refresh_nth by lia; cbv zeta; cbn [plus].
  assert (K0 : nth i cl2 0 =
               if i =? il then findBestMatch c2 il (nth il c2 dnode)
               else nth (if i =? ir then length c - 1 else i) cl 0).
  { unfold cl2, cl1; rewrite nth_upd by (rewrite upd_length; lia).
    destruct (Nat.eqb_spec i il); [reflexivity |].
    rewrite nth_upd by lia; rewrite L2; destruct (Nat.eqb_spec i ir); reflexivity. }
  rewrite K0; clear K0.
  destruct (Nat.eqb_spec i il) as [-> | Dl].
  { set (k := findBestMatch c2 il (nth il c2 dnode)) in *.
    destruct FB as (B1 & B2 & B3).
    replace (if (k =? il) || (k =? ir) then k else k) with k
      by (destruct ((k =? il) || (k =? ir)); reflexivity).
    destruct (Nat.eqb_spec k (length c2)); [lia |]. split; [exact B1 | split; [exact B2 | exact B3]]. }
  set (o := if i =? ir then length c - 1 else i) in *.
  assert (O1 : o < length c) by (unfold o; destruct (i =? ir); lia).
  assert (O2 : o <> il) by (unfold o; destruct (Nat.eqb_spec i ir); lia).
  assert (CI : nth i c2 dnode = nth o c dnode).
  { rewrite M by lia; destruct (Nat.eqb_spec i il); [lia | reflexivity]. }
  destruct (G o O1) as (K1 & K2 & K3).
  set (k := nth o cl 0) in *.
  destruct ((k =? il) || (k =? ir)) eqn:KB.
  { destruct FB as (B1 & B2 & B3).
    destruct (Nat.eqb_spec (findBestMatch c2 i (nth i c2 dnode)) (length c2)); [lia |].
    split; [exact B1 | split; [exact B2 | exact B3]]. }
  apply orb_false_iff in KB; destruct KB as (KB1 & KB2).
  apply Nat.eqb_neq in KB1; apply Nat.eqb_neq in KB2.
  (* the new position of the old nearest node *)
  set (k2 := if k =? length c2 then ir else k).
  assert (CK : nth k2 c2 dnode = nth k c dnode /\ k2 < length c2 /\ k2 <> i).
  { unfold k2; destruct (Nat.eqb_spec k (length c2)) as [E | E].
    - assert (ir <> length c - 1) by lia.
      rewrite M by lia. destruct (Nat.eqb_spec ir il); [lia |]; rewrite Nat.eqb_refl.
      split; [f_equal; lia |]. split; [lia |].
      intros E2; subst i; unfold o in K2; rewrite Nat.eqb_refl in K2; lia.
    - rewrite M by lia. destruct (Nat.eqb_spec k il); [lia |].
      destruct (Nat.eqb_spec k ir); [lia |]. split; [reflexivity |]. split; [lia |].
      intros E2; unfold o in K2; destruct (Nat.eqb_spec i ir); lia. }
  destruct CK as (CK1 & CK2 & CK3).
  split; [exact CK2 |]; split; [exact CK3 |].
  intros j Hj Dj; rewrite CI, CK1.
  rewrite M by lia; destruct (Nat.eqb_spec j il) as [-> | Djl].
  - apply Qle_trans with (J (nth o c dnode) (nth il c dnode)); [apply K3; lia |].
    apply J_interior; apply all_fin_nth; try assumption; lia.
  - apply K3; [destruct (Nat.eqb_spec j ir); lia |].
    unfold o; destruct (Nat.eqb_spec j ir), (Nat.eqb_spec i ir); lia.
Qed.

(* ----- all the rounds ----- *)
Inductive runs (axis n : nat) : list bnode -> list bnode -> Prop :=
| runs_done : forall c, length c <= n -> runs axis n c c
| runs_step : forall c il ir c',
    n < length c -> best_pair c il ir -> runs axis n (merged c il ir axis) c' -> runs axis n c c'.

Lemma combine_loop_runs : forall axis n, 1 <= n -> forall fuel c cl lr created,
  length c < fuel -> all_fin c -> (n < length c -> good c cl) ->
  exists c' k, combine_loop fuel c cl lr n axis created = Ok (c', created + k) /\
               k + length c' = length c /\ runs axis n c c'.
Proof.
  intros axis n N fuel; induction fuel as [|fuel IH]; intros c cl lr created LF F G; [lia |].
  cbn [combine_loop].
  destruct (Nat.ltb_spec n (length c)) as [LN | LN].
  2: { exists c, 0; rewrite Nat.add_0_r; split; [reflexivity |]; split; [reflexivity |].
       apply runs_done; exact LN. }
  specialize (G LN).
  destruct (best_from_best c cl lr F G ltac:(lia)) as (il & ir & -> & E & B).
  cbn [bind].
  assert (B' := B); destruct B' as (L & R & _).
  rewrite (at_nth _ c il dnode) by lia; rewrite (at_nth _ c ir dnode) by lia; cbn [bind].
  rewrite (at_nth _ (upd c il (interior (nth il c dnode) (nth ir c dnode) axis))
             (length (upd c il (interior (nth il c dnode) (nth ir c dnode) axis)) - 1) dnode)
    by (rewrite upd_length; lia).
  cbn [bind].
  change (removelast (upd (upd c il (interior (nth il c dnode) (nth ir c dnode) axis)) ir
            (nth (length (upd c il (interior (nth il c dnode) (nth ir c dnode) axis)) - 1)
               (upd c il (interior (nth il c dnode) (nth ir c dnode) axis)) dnode)))
    with (merged c il ir axis).
  assert (F2 := merged_fin c il ir axis F L R).
  assert (L2 := merged_length c il ir axis).
  destruct G as (GL & G).
  destruct (Nat.ltb_spec n (length (merged c il ir axis))) as [LN2 | LN2].
  - rewrite (at_nth _ cl _ 0) by lia; cbn [bind].
    rewrite (at_nth _ (merged c il ir axis) il dnode) by lia; cbn [bind].
    destruct (IH (merged c il ir axis) (next_table c cl il ir axis) (Some (il, ir)) (S created)
                ltac:(lia) F2
                (fun _ => next_good c cl il ir axis F (conj GL G) L R ltac:(lia)))
      as (c' & k & E' & K & Rn).
    exists c', (S k); split; [| split].
    + unfold next_table in E'; cbv zeta in E'; rewrite E'; do 2 f_equal; lia.
    + lia.
    + apply runs_step with il ir; assumption.
  - cbn [bind].
    destruct (IH (merged c il ir axis) cl (Some (il, ir)) (S created) ltac:(lia) F2
                ltac:(intro; lia)) as (c' & k & E' & K & Rn).
    exists c', (S k); split; [| split].
    + rewrite E'; do 2 f_equal; lia.
    + lia.
    + apply runs_step with il ir; assumption.
Qed.

Lemma initial_good : forall c, all_fin c -> 2 <= length c ->
  good c (map (fun ib => findBestMatch c (fst ib) (snd ib)) (combine (seq 0 (length c)) c)).
Proof.
  intros c F L.
  assert (LL : length (combine (seq 0 (length c)) c) = length c)
    by (rewrite combine_length, seq_length; lia).
  split; [rewrite map_length; lia |].
  intros i Hi.
  rewrite (nth_indep _ 0 (findBestMatch c (fst (0, dnode)) (snd (0, dnode))))
    by (rewrite map_length; lia).
  rewrite (map_nth (fun ib => findBestMatch c (fst ib) (snd ib))).
  rewrite combine_nth by (rewrite seq_length; reflexivity).
  rewrite seq_nth by exact Hi; cbn [fst snd plus].
  apply findBestMatch_nearest; assumption.
Qed.

Lemma combineCluster_runs : forall c n axis, 1 <= n -> all_fin c ->
  exists c' k, combineCluster c n axis = Ok (c', k) /\ k + length c' = length c /\ runs axis n c c'.
Proof.
  intros c n axis N F; unfold combineCluster; cbv zeta.
  set (cl := if n <? length c then _ else _).
  destruct (combine_loop_runs axis n N (S (length c)) c cl None 0 ltac:(lia) F) as (c' & k & E & K).
  - intro LN; unfold cl; destruct (Nat.ltb_spec n (length c)); [| lia].
    apply initial_good; [exact F | lia].
  - exists c', k; split; [exact E | exact K].
Qed.
