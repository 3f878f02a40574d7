(* The tree built over the triangles: what its leaves hold, what its boxes
   contain, and the array it is stored in. *)
From Coq Require Import Permutation Sorted.
From Verif Require Import Common GeomModel AabbModel AabbSpec AabbProofs TriModel TriProofs
  BvhModel BvhSpec BvhCombine.
Local Open Scope nat_scope.

(* ----- merging two nodes of a cluster ----- *)
Lemma upd_mid : forall A (l : list A) x r a, upd (l ++ x :: r) (length l) a = l ++ a :: r.
Proof.
  intros A l x r a; unfold upd.
  rewrite firstn_app, firstn_all, Nat.sub_diag; cbn [firstn]; rewrite app_nil_r.
  rewrite skipn_app, skipn_all, Nat.sub_diag; reflexivity.
Qed.

Lemma merged_shape : forall c il ir axis, il < ir -> ir < length c ->
  exists rest, Permutation c (nth il c dnode :: nth ir c dnode :: rest) /\
    Permutation (merged c il ir axis)
                (interior (nth il c dnode) (nth ir c dnode) axis :: rest).
Proof.
  intros c il ir axis L R.
  destruct (nth_split c dnode (n := il) ltac:(lia)) as (A & T & E & LA).
  set (x := nth il c dnode) in *.
  assert (Hy : ir - S il < length T).
  { rewrite E, app_length in R; cbn in R; lia. }
  destruct (nth_split T dnode (n := ir - S il) Hy) as (B & D & E2 & LB).
  assert (Ny : nth ir c dnode = nth (ir - S il) T dnode).
  { rewrite E, app_nth2 by lia. replace (ir - length A) with (S (ir - S il)) by lia. reflexivity. }
  rewrite Ny; set (y := nth (ir - S il) T dnode) in *.
  unfold merged; rewrite Ny; fold x; fold y.
  set (node := interior x y axis).
  clearbody x y. subst T. subst c.
  assert (U1 : upd (A ++ x :: B ++ y :: D) il node = A ++ node :: B ++ y :: D)
    by (rewrite <- LA; apply upd_mid).
  rewrite U1.
  assert (U2 : forall z, upd (A ++ node :: B ++ y :: D) ir z = A ++ node :: B ++ z :: D).
  { intro z. replace (A ++ node :: B ++ y :: D) with ((A ++ node :: B) ++ y :: D)
      by (rewrite <- app_assoc; reflexivity).
    replace ir with (length (A ++ node :: B)) by (rewrite app_length; cbn; lia).
    rewrite upd_mid, <- app_assoc; reflexivity. }
  rewrite U2.
  assert (PC : forall D', Permutation (A ++ node :: B ++ D') (node :: A ++ B ++ D'))
    by (intro; symmetry; apply Permutation_middle).
  destruct (rev D) as [|z Dr] eqn:RD.
  - assert (D = []) by (rewrite <- (rev_involutive D), RD; reflexivity); subst D.
    exists (A ++ B); split.
    + transitivity (x :: A ++ B ++ [y]); [symmetry; apply Permutation_middle |].
      apply perm_skip. rewrite app_assoc. symmetry. apply Permutation_cons_append.
    + set (w := nth _ _ _).
      replace (A ++ node :: B ++ [w]) with ((A ++ node :: B) ++ [w])
        by (rewrite <- app_assoc; reflexivity).
      rewrite removelast_last. symmetry; apply Permutation_middle.
  - assert (ED : D = rev Dr ++ [z]) by (rewrite <- (rev_involutive D), RD; reflexivity).
    set (D' := rev Dr) in *; clearbody D'; subst D.
    exists (A ++ B ++ D' ++ [z]); split.
    + transitivity (x :: A ++ B ++ y :: D' ++ [z]); [symmetry; apply Permutation_middle |].
      apply perm_skip.
      rewrite (app_assoc A B (y :: D' ++ [z])), (app_assoc A B (D' ++ [z])).
      symmetry; apply Permutation_middle.
    + assert (W : nth (length (A ++ node :: B ++ y :: D' ++ [z]) - 1)
                      (A ++ node :: B ++ y :: D' ++ [z]) dnode = z).
      { replace (A ++ node :: B ++ y :: D' ++ [z]) with ((A ++ node :: B ++ y :: D') ++ [z])
          by (rewrite <- app_assoc; cbn; rewrite <- app_assoc; reflexivity).
        rewrite app_length, app_nth2 by (cbn; lia).
        replace (_ - _) with 0 by (cbn [length]; lia). reflexivity. }
      rewrite W.
      replace (A ++ node :: B ++ z :: D' ++ [z]) with ((A ++ node :: B ++ z :: D') ++ [z])
        by (rewrite <- app_assoc; cbn; rewrite <- app_assoc; reflexivity).
      rewrite removelast_last.
      transitivity (node :: A ++ B ++ z :: D'); [symmetry; apply Permutation_middle |].
      apply perm_skip, Permutation_app_head, Permutation_app_head, Permutation_cons_append.
Qed.

(* ----- properties of clusters preserved by merging ----- *)
Definition sizes (c : list bnode) : nat := list_sum (map size c).
Definition mem (c : list bnode) : list nat := flat_map members c.

Definition wf (rt : list triangle) (t : bnode) : Prop :=
  fin_node t /\ full t /\ encloses rt t.

Lemma encloses_tris : forall rt t, encloses rt t ->
  forall i T, In i (members t) -> nth_error rt i = Some T -> inside_of (tri_aabb T) (bounding t).
Proof. intros rt [b o n | b l r a] (_ & H & _); exact H. Qed.

Lemma wf_interior : forall rt a b axis, wf rt a -> wf rt b -> wf rt (interior a b axis).
Proof.
  intros rt a b axis (Fa & Ua & Ea) (Fb & Ub & Eb).
  split; [apply fin_interior; assumption |]; split; [split; assumption |].
  assert (Va := fin_valid _ Fa); assert (Vb := fin_valid _ Fb).
  assert (VE : valid (engulf aabb_empty (bounding a)))
    by (apply valid_engulf; [apply valid_empty | exact Va]).
  cbn [encloses interior bounding members].
  split; [apply valid_engulf; assumption |]; split; [| split; assumption].
  intros i T I N p P; apply in_app_or in I; destruct I as [I | I].
  - apply contains_l; [exact Vb |]. apply contains_r; [apply valid_empty |].
    apply (encloses_tris rt a Ea i T I N p P).
  - apply contains_r; [exact VE |]. apply (encloses_tris rt b Eb i T I N p P).
Qed.

Lemma list_sum_perm : forall l l', Permutation l l' -> list_sum l = list_sum l'.
Proof. intros l l' P; unfold list_sum; induction P; cbn [fold_right]; lia. Qed.

Lemma merged_keeps : forall rt c il ir axis, il < ir -> ir < length c ->
  Forall (wf rt) c ->
  Forall (wf rt) (merged c il ir axis) /\ Permutation (mem (merged c il ir axis)) (mem c) /\
  sizes (merged c il ir axis) = S (sizes c).
Proof.
  intros rt c il ir axis L R W.
  destruct (merged_shape c il ir axis L R) as (rest & P & Q1).
  set (x := nth il c dnode) in *; set (y := nth ir c dnode) in *.
  assert (W' : Forall (wf rt) (x :: y :: rest)) by (rewrite <- P; exact W).
  apply Forall_cons_iff in W'; destruct W' as (Wx & W').
  apply Forall_cons_iff in W'; destruct W' as (Wy & Wr).
  split; [| split].
  - rewrite Q1; apply Forall_cons; [apply wf_interior; assumption | exact Wr].
  - unfold mem; transitivity (flat_map members (interior x y axis :: rest));
      [apply Permutation_flat_map; exact Q1 |].
    transitivity (flat_map members (x :: y :: rest));
      [| apply Permutation_flat_map; symmetry; exact P].
    cbn; rewrite app_assoc; reflexivity.
  - unfold sizes.
    rewrite (list_sum_perm _ _ (Permutation_map size Q1)).
    rewrite (list_sum_perm _ _ (Permutation_map size P)); cbn; lia.
Qed.

Lemma runs_keeps : forall rt axis n c c', runs axis n c c' -> Forall (wf rt) c ->
  Forall (wf rt) c' /\ Permutation (mem c') (mem c) /\
  sizes c' + length c' = sizes c + length c.
Proof.
  intros rt axis n c c' R; induction R as [c L | c il ir c' L B R IH]; intro W.
  - split; [exact W | split; reflexivity].
  - destruct B as (B1 & B2 & _).
    destruct (merged_keeps rt c il ir axis B1 B2 W) as (W' & P & S1).
    destruct (IH W') as (W2 & P2 & S2).
    split; [exact W2 |]; split; [transitivity (mem (merged c il ir axis)); assumption |].
    rewrite S2, S1, merged_length; lia.
Qed.

Lemma runs_length : forall axis n c c', runs axis n c c' -> 1 <= n ->
  length c' = Nat.min n (length c).
Proof.
  intros axis n c c' R N; induction R as [c L | c il ir c' L B R IH]; [lia |].
  rewrite IH, merged_length; lia.
Qed.

Lemma wf_fin : forall rt c, Forall (wf rt) c -> all_fin c.
Proof. intros rt c W; apply Forall_impl with (2 := W); intros t (F & _); exact F. Qed.

Lemma combineCluster_keeps : forall rt c n axis, 1 <= n -> Forall (wf rt) c ->
  exists c' k, combineCluster c n axis = Ok (c', k) /\
    Forall (wf rt) c' /\ Permutation (mem c') (mem c) /\ sizes c' = sizes c + k /\
    length c' = Nat.min n (length c) /\ runs axis n c c'.
Proof.
  intros rt c n axis N W.
  destruct (combineCluster_runs c n axis N (wf_fin rt c W)) as (c' & k & E & K & R).
  exists c', k; split; [exact E |].
  destruct (runs_keeps rt axis n c c' R W) as (W' & P & S1).
  split; [exact W' |]; split; [exact P |]; split; [lia |].
  split; [apply runs_length with axis; assumption | exact R].
Qed.

(* ----- partition ----- *)
Lemma part_loop_range : forall fuel mc m a b, a < b -> b < length mc -> b - a < fuel ->
  exists k, part_loop fuel mc m a b = Ok k /\ a <= k < b.
Proof.
  induction fuel as [|fuel IH]; intros mc m a b AB BL F; [lia |]; cbn [part_loop].
  assert (D : (a + b) / 2 < b /\ a <= (a + b) / 2) by (split; dlia).
  set (cur := (a + b) / 2) in *; clearbody cur; destruct D as (D1 & D2).
  destruct (Nat.ltb_spec a cur) as [L | L].
  - rewrite (at_nth _ mc cur (mk_prim 0 0)) by lia; cbn [bind].
    destruct (N.land _ m =? 0)%N.
    + destruct (IH mc m cur b ltac:(lia) BL ltac:(lia)) as (k & E & K).
      exists k; split; [exact E | lia].
    + destruct (IH mc m a cur L ltac:(lia) ltac:(lia)) as (k & E & K).
      exists k; split; [exact E | lia].
  - exists a; split; [reflexivity | lia].
Qed.

Lemma makePartition_range : forall mc s e m, s < e -> e < length mc ->
  exists k, makePartition mc s e m = Ok k /\ s <= k < e /\
            (m = 0%N -> k = s + (e - s) / 2).
Proof.
  intros mc s e m SE EL; unfold makePartition.
  rewrite (at_nth _ mc s (mk_prim 0 0)) by lia; rewrite (at_nth _ mc e (mk_prim 0 0)) by lia.
  cbn [bind].
  destruct (N.eqb_spec m 0) as [-> | M].
  - rewrite orb_true_r; eexists; split; [reflexivity |].
    split; [| intros; reflexivity]. assert ((e - s) / 2 < e - s) by dlia. lia.
  - rewrite orb_false_r.
    destruct (_ =? _)%N.
    + eexists; split; [reflexivity |].
      assert ((e - s) / 2 < e - s) by dlia. split; [lia | intros; contradiction].
    + destruct (part_loop_range (S (e - s)) mc m s e SE EL ltac:(lia)) as (k & E & K).
      exists k; split; [exact E |]; split; [exact K | intros; contradiction].
Qed.

(* ----- leaves ----- *)
Lemma reorder_spec : forall tris p, Forall (fun q => pr_index q < length tris) p ->
  exists rt, reorder tris p = Ok rt /\ length rt = length p /\
    forall i d dt, i < length p -> nth_error rt i = Some (nth (pr_index (nth i p d)) tris dt).
Proof.
  intros tris p; induction p as [|q p IH]; intro F.
  { exists []; split; [reflexivity |]; split; [reflexivity |]; cbn; intros; lia. }
  apply Forall_cons_iff in F; destruct F as (Fq & F).
  destruct (IH F) as (rt & E & L & N).
  destruct (nth_error tris (pr_index q)) as [T |] eqn:ET;
    [| apply nth_error_None in ET; lia].
  exists (T :: rt); cbn [reorder]; unfold at_; rewrite ET, E; cbn [bind].
  split; [reflexivity |]; split; [cbn; lia |].
  intros [|i] d dt H; cbn [nth nth_error].
  - f_equal; symmetry; apply nth_error_nth; exact ET.
  - apply N; cbn in H; lia.
Qed.

(* p and tris describe the list rt *)
Definition describes (tris : list triangle) (p : list prim) (rt : list triangle) : Prop :=
  length rt = length p /\
  forall i, i < length p -> exists q T,
    nth_error p i = Some q /\ nth_error tris (pr_index q) = Some T /\ nth_error rt i = Some T.

Lemma reorder_describes : forall tris p, Forall (fun q => pr_index q < length tris) p ->
  exists rt, reorder tris p = Ok rt /\ describes tris p rt.
Proof.
  intros tris p F; destruct (reorder_spec tris p F) as (rt & E & L & N).
  exists rt; split; [exact E |]; split; [exact L |]; intros i Hi.
  destruct (nth_error p i) as [q |] eqn:EP; [| apply nth_error_None in EP; lia].
  destruct (nth_error tris (pr_index q)) as [T |] eqn:ET.
  - exists q, T; split; [reflexivity |]; split; [exact ET |].
    rewrite (N i q T Hi), (nth_error_nth p i q EP), (nth_error_nth tris _ T ET); reflexivity.
  - apply nth_error_None in ET. rewrite Forall_forall in F.
    assert (A := F q (nth_error_In _ _ EP)); cbv beta in A; lia.
Qed.

Lemma leaf_box_spec : forall tris p rt, describes tris p rt ->
  forall len offs box, offs + len <= length p -> (box = aabb_empty \/ fin_box box) ->
  exists b, leaf_box tris p offs len box = Ok b /\ (0 < len \/ fin_box box -> fin_box b) /\
    (forall q, contains box q -> contains b q) /\
    forall i T, offs <= i < offs + len -> nth_error rt i = Some T -> inside_of (tri_aabb T) b.
Proof.
  intros tris p rt (L & D) len; induction len as [|len IH]; intros offs box H B; cbn [leaf_box].
  { exists box; split; [reflexivity |]; split; [intros [A | A]; [lia | exact A] |].
    split; [auto | intros; lia]. }
  destruct (D offs ltac:(lia)) as (q & T & EQ & ET & ER).
  unfold at_; rewrite EQ; cbn [bind]; rewrite ET; cbn [bind].
  assert (VB : valid box) by (destruct B as [-> | B]; [apply valid_empty | apply fin_valid, B]).
  assert (FB : fin_box (engulf box (tri_aabb T))).
  { destruct B as [-> | B]; [| apply fin_engulf; [exact B | apply fin_tri]].
    destruct (fin_tri T) as (lo & hi & E & VL); rewrite E, engulf_empty.
    exists lo, hi; split; [reflexivity | exact VL]. }
  destruct (IH (S offs) (engulf box (tri_aabb T)) ltac:(lia) (or_intror FB))
    as (b & E & F1 & F2 & F3).
  exists b; split; [exact E |]; split; [intros _; apply F1; right; exact FB |]; split.
  - intros x X; apply F2, contains_l; [apply tri_aabb_valid | exact X].
  - intros i T' I N.
    destruct (Nat.eq_dec i offs) as [-> | NE].
    + rewrite ER in N; injection N as <-; intros x X; apply F2, contains_r; assumption.
    + apply (F3 i T'); [lia | exact N].
Qed.

Lemma traverse_leaf : forall aac tris p rt offs len axis,
  (forall x, 4 <= x -> 1 <= aac x) -> describes tris p rt -> offs + len <= length p -> 0 < len < 4 ->
  exists b, leaf_box tris p offs len aabb_empty = Ok b /\ wf rt (leaf b offs len) /\
    combineCluster [leaf b offs len] (aac aac_delta) axis = Ok ([leaf b offs len], 0).
Proof.
  intros aac tris p rt offs len axis A D H L.
  destruct (leaf_box_spec tris p rt D len offs aabb_empty H (or_introl eq_refl))
    as (b & E & F1 & _ & F3).
  assert (FB := F1 (or_introl (proj1 L))).
  exists b; split; [exact E |].
  assert (EB : engulf aabb_empty b = b)
    by (destruct FB as (lo & hi & -> & _); apply engulf_empty).
  split.
  - unfold leaf; rewrite EB; split; [exact FB |]; split; [cbn; lia |].
    cbn [encloses bounding]; split; [apply fin_valid, FB |]; split; [| exact I].
    intros i T Hi N; cbn in Hi; apply in_seq in Hi; apply (F3 i T); assumption.
  - unfold combineCluster, combine_loop; cbn [length].
    specialize (A aac_delta (le_n _)). destruct (Nat.ltb_spec (aac aac_delta) 1); [lia |]. reflexivity.
Qed.

(* ----- the recursive construction ----- *)
Lemma size_div2 : forall b, b <> 0%N -> S (N.size_nat (N.div2 b)) = N.size_nat b.
Proof. intros [|[b|b|]] H; try reflexivity; contradiction. Qed.

Lemma traverseTree_ok : forall aac tris p rt, (forall x, 4 <= x -> 1 <= aac x) -> describes tris p rt ->
  forall fuel offs len bit, offs + len <= length p -> N.size_nat bit + len < fuel ->
  exists c k, traverseTree fuel aac tris p offs len bit = Ok (c, k) /\
    Forall (wf rt) c /\ Permutation (mem c) (seq offs len) /\ sizes c = k /\
    (0 < len -> 1 <= length c).
Proof.
  intros aac tris p rt A D fuel; induction fuel as [|fuel IH]; intros offs len bit H F; [lia |].
  cbn [traverseTree].
  destruct (Nat.eqb_spec len 0) as [-> | L0].
  { exists [], 0; split; [reflexivity |]; split; [constructor |]; split; [constructor |].
    split; [reflexivity | lia]. }
  destruct (Nat.ltb_spec len aac_delta) as [L4 | L4]; unfold aac_delta in L4.
  { destruct (traverse_leaf aac tris p rt offs len (bsf bit mod 3) A D H ltac:(lia))
      as (b & E & W & EC).
    rewrite E; cbn [bind]; rewrite EC; cbn [bind].
    eexists; eexists; split; [reflexivity |].
    split; [apply Forall_cons; [exact W | apply Forall_nil] |].
    split; [cbn; rewrite app_nil_r; reflexivity |].
    split; [reflexivity | cbn; lia]. }
  destruct (makePartition_range p offs (offs + len - 1) bit ltac:(lia) ltac:(lia))
    as (part & EP & PR & P0).
  rewrite EP; cbn [bind].
  assert (MS : N.size_nat (N.div2 bit) + (part - offs) < fuel /\
               N.size_nat (N.div2 bit) + (offs + len - part) < fuel).
  { destruct (N.eq_dec bit 0) as [-> | B0].
    - specialize (P0 eq_refl). cbn. assert (1 <= (offs + len - 1 - offs) / 2) by dlia. lia.
    - assert (SD := size_div2 bit B0). lia. }
  destruct (IH offs (part - offs) (N.div2 bit) ltac:(lia) (proj1 MS))
    as (cl & kl & -> & Wl & Pl & Sl & Nl).
  destruct (IH part (offs + len - part) (N.div2 bit) ltac:(lia) (proj2 MS))
    as (cr & kr & -> & Wr & Pr & Sr & Nr).
  cbn [bind].
  assert (W : Forall (wf rt) (cl ++ cr)) by (apply Forall_app; split; assumption).
  destruct (combineCluster_keeps rt (cl ++ cr) (aac len) (bsf bit mod 3) (A len L4) W)
    as (c & k & -> & W' & P & S1 & L1 & _).
  cbn [bind]; exists c, (kl + kr + k); split; [reflexivity |]; split; [exact W' |]; split; [| split].
  - transitivity (mem (cl ++ cr)); [exact P |].
    unfold mem; rewrite flat_map_app; fold (mem cl); fold (mem cr).
    replace len with ((part - offs) + (offs + len - part)) at 1 by lia.
    rewrite seq_app. replace (offs + (part - offs)) with part by lia.
    apply Permutation_app; [exact Pl | exact Pr].
  - rewrite S1; unfold sizes in *; rewrite map_app, list_sum_app; lia.
  - intros _; rewrite L1, app_length; specialize (A len L4); specialize (Nr ltac:(lia)); lia.
Qed.

(* ----- flattening ----- *)
Fixpoint layout (nodes : list (option fnode)) (i : nat) (t : bnode) : Prop :=
  match t with
  | BLeaf b o n => nth_error nodes i = Some (Some (mk_fnode b o n None))
  | BNode b l r a =>
      nth_error nodes i = Some (Some (mk_fnode b (S i + size l) 0 (Some a))) /\
      layout nodes (S i) l /\ layout nodes (S i + size l) r
  end.

Lemma layout_encodes : forall t nodes i, layout nodes i t -> encodes nodes i t.
Proof.
  induction t as [b o n | b l IHl r IHr a]; intros nodes i H; cbn in *; [exact H |].
  destruct H as (H & L & R); eexists; split; [exact H |]; split; [apply IHl, L | apply IHr, R].
Qed.

Lemma layout_ext : forall t n1 n2 i,
  (forall j, i <= j < i + size t -> nth_error n1 j = nth_error n2 j) ->
  layout n1 i t -> layout n2 i t.
Proof.
  induction t as [b o n | b l IHl r IHr a]; intros n1 n2 i E H; cbn [layout size] in *.
  - rewrite <- E by lia; exact H.
  - destruct H as (H & L & R); split; [rewrite <- E by lia; exact H |]; split.
    + apply (IHl n1); [intros; apply E; lia | exact L].
    + apply (IHr n1); [intros; apply E; lia | exact R].
Qed.

Lemma nth_error_upd : forall A (l : list A) i j a, i < length l ->
  nth_error (upd l i a) j = if j =? i then Some a else nth_error l j.
Proof.
  intros A l; induction l as [|x l IH]; intros i j a H; [cbn in H; lia |].
  destruct i as [|i]; [destruct j; reflexivity |].
  destruct j as [|j]; [reflexivity |]. apply (IH i j a); cbn in H; lia.
Qed.

Lemma flatten_ok : forall t arr i, i + size t <= length arr ->
  exists arr', flatten t arr i = Ok (arr', i + size t) /\ length arr' = length arr /\
    layout arr' i t /\
    forall j, ~ (i <= j < i + size t) -> nth_error arr' j = nth_error arr j.
Proof.
  induction t as [b o n | b l IHl r IHr a]; intros arr i H; cbn [flatten size] in *.
  - unfold store; destruct (Nat.ltb_spec i (length arr)); [| lia]; cbn [bind].
    eexists; split; [do 2 f_equal; lia |]; split; [apply upd_length |].
    cbn [layout]; rewrite nth_error_upd, Nat.eqb_refl by lia; split; [reflexivity |].
    intros j J; rewrite nth_error_upd by lia; destruct (Nat.eqb_spec j i); [lia | reflexivity].
  - destruct (IHl arr (S i) ltac:(lia)) as (a1 & -> & L1 & Y1 & U1); cbn [bind].
    unfold store; destruct (Nat.ltb_spec i (length a1)); [| lia]; cbn [bind].
    set (a2 := upd a1 i _).
    assert (L2 : length a2 = length a1) by apply upd_length.
    destruct (IHr a2 (S i + size l) ltac:(lia)) as (a3 & -> & L3 & Y3 & U3).
    exists a3; split; [do 2 f_equal; lia |]; split; [lia |]; split.
    + cbn [layout]; split; [| split].
      * rewrite U3 by lia; unfold a2; rewrite nth_error_upd, Nat.eqb_refl by lia; reflexivity.
      * apply (layout_ext l a1); [| exact Y1]; intros j J.
        rewrite U3 by lia; unfold a2; rewrite nth_error_upd by lia.
        destruct (Nat.eqb_spec j i); [lia | reflexivity].
      * exact Y3.
    + intros j J; rewrite U3 by lia; unfold a2; rewrite nth_error_upd by lia.
      destruct (Nat.eqb_spec j i); [lia | apply U1; lia].
Qed.

Definition node_positions (o : option fnode) : list nat :=
  match o with
  | Some n => if 0 <? fn_len n then seq (fn_link n) (fn_len n) else []
  | None => []
  end.

Lemma skipn_S_nth : forall A (l : list A) i x, nth_error l i = Some x ->
  skipn i l = x :: skipn (S i) l.
Proof.
  intros A l; induction l as [|y l IH]; intros [|i] x H; try discriminate.
  - injection H as ->; reflexivity.
  - apply IH; exact H.
Qed.

Lemma skipn_add : forall A (l : list A) a b, skipn a (skipn b l) = skipn (b + a) l.
Proof.
  intros A l; induction l as [|x l IH]; intros a b.
  - rewrite !skipn_nil; reflexivity.
  - destruct b as [|b]; [reflexivity |]; cbn; apply IH.
Qed.

Lemma firstn_add : forall A (l : list A) a b, firstn (a + b) l = firstn a l ++ firstn b (skipn a l).
Proof.
  intros A l; induction l as [|x l IH]; intros a b.
  - rewrite !skipn_nil, !firstn_nil; reflexivity.
  - destruct a as [|a]; [reflexivity |]; cbn; f_equal; apply IH.
Qed.

Lemma layout_positions : forall t nodes i, full t -> layout nodes i t ->
  flat_map node_positions (firstn (size t) (skipn i nodes)) = members t.
Proof.
  induction t as [b o n | b l IHl r IHr a]; intros nodes i F H; cbn [layout full size members] in *.
  - rewrite (skipn_S_nth _ _ _ _ H); cbn.
    destruct n as [|n]; [lia | apply app_nil_r].
  - destruct H as (H & L & R); destruct F as (Fl & Fr).
    rewrite (skipn_S_nth _ _ _ _ H).
    change (1 + size l + size r) with (S (size l + size r)); cbn [firstn flat_map].
    rewrite firstn_add, flat_map_app, (IHl _ _ Fl L), skipn_add.
    rewrite (IHr _ _ Fr R). reflexivity.
Qed.

(* ----- the whole construction ----- *)
Lemma prims_indices : forall codes p, Permutation (prims_of codes) p ->
  Permutation (map pr_index p) (seq 0 (length codes)).
Proof.
  intros codes p P.
  transitivity (map pr_index (prims_of codes)); [apply Permutation_map; symmetry; exact P |].
  unfold prims_of; rewrite map_map; cbn.
  assert (E : forall (l : list nat) (l' : list N), length l = length l' ->
                map (fun x => fst x) (combine l l') = l).
  { induction l as [|x l IH]; intros [|y l'] H; cbn in *; try discriminate; [reflexivity |].
    f_equal; apply IH; congruence. }
  rewrite E; [reflexivity | rewrite seq_length; reflexivity].
Qed.

Lemma reorder_perm : forall tris p rt, describes tris p rt ->
  Permutation (map pr_index p) (seq 0 (length tris)) -> Permutation rt tris.
Proof.
  intros tris p rt (L & D) P.
  destruct tris as [|T0 tris'] eqn:ET.
  { assert (LP := Permutation_length P); rewrite map_length in LP; cbn in LP.
    destruct rt; [constructor | cbn in L; lia]. }
  rewrite <- ET in *. clear ET.
  assert (E : rt = map (fun i => nth i tris T0) (map pr_index p)).
  { apply nth_ext with T0 T0.
    - rewrite !map_length; exact L.
    - intros i Hi. destruct (D i ltac:(lia)) as (q & T & EQ & ET & ER).
      rewrite (nth_error_nth _ _ T0 ER).
      rewrite (nth_indep _ T0 (nth 0 tris T0)) by (rewrite !map_length; lia).
      rewrite (map_nth (fun i => nth i tris T0)).
      rewrite (nth_indep _ 0 (pr_index q)) by (rewrite map_length; lia).
      rewrite map_nth, (nth_error_nth p i q EQ).
      symmetry; apply nth_error_nth; exact ET. }
  rewrite E.
  transitivity (map (fun i => nth i tris T0) (seq 0 (length tris)));
    [apply Permutation_map; exact P |].
  assert (F : map (fun i => nth i tris T0) (seq 0 (length tris)) = tris).
  { apply nth_ext with T0 T0; [rewrite map_length, seq_length; reflexivity |].
    intros i Hi; rewrite map_length, seq_length in Hi.
    rewrite (nth_indep _ T0 (nth 0 tris T0)) by (rewrite map_length, seq_length; lia).
    rewrite (map_nth (fun i => nth i tris T0)), seq_nth by lia; reflexivity. }
  rewrite F; reflexivity.
Qed.

Lemma sizes_one : forall t, sizes [t] = size t.
Proof. intro t; unfold sizes; cbn; lia. Qed.

Lemma build_sorted_ok : forall aac tris codes p, (forall x, 4 <= x -> 1 <= aac x) ->
  0 < length tris -> length codes = length tris -> Permutation (prims_of codes) p ->
  exists arr rt root,
    build_sorted aac tris p = Ok (mk_bvh arr rt) /\ Permutation rt tris /\
    describes tris p rt /\
    layout arr 0 root /\ length arr = size root /\ wf rt root /\
    Permutation (members root) (seq 0 (length tris)) /\
    exists c k, traverseTree (64 + length tris) aac tris p 0 (length tris) morton_flag = Ok (c, k) /\
      runs (bsf morton_flag mod 3) 1 c [root].
Proof.
  intros aac tris codes p A L0 LC P.
  assert (PI := prims_indices codes p P); rewrite LC in PI.
  assert (LP : length p = length tris).
  { assert (H := Permutation_length PI); rewrite map_length, seq_length in H; exact H. }
  assert (FI : Forall (fun q => pr_index q < length tris) p).
  { apply Forall_forall; intros q I.
    assert (H := in_map pr_index _ _ I); rewrite PI in H; apply in_seq in H; lia. }
  destruct (reorder_describes tris p FI) as (rt & ER & D).
  destruct (traverseTree_ok aac tris p rt A D (64 + length tris) 0 (length tris) morton_flag
              ltac:(lia) ltac:(change (N.size_nat morton_flag) with 63; lia))
    as (c & k & E & W & PM & SZ & NE).
  unfold build_sorted; rewrite E; cbn [bind].
  destruct (combineCluster_keeps rt c 1 (bsf morton_flag mod 3) ltac:(lia) W)
    as (c' & k' & -> & W' & PM' & SZ' & L' & RN).
  cbn [bind]. specialize (NE L0).
  destruct c' as [|root [|x c']]; [cbn [length] in L'; lia | | cbn [length] in L'; lia].
  cbn [at_ nth_error bind].
  rewrite sizes_one in SZ'.
  destruct (flatten_ok root (repeat None (k + k')) 0 ltac:(rewrite repeat_length; lia))
    as (arr & -> & LA & Y & _).
  cbn [bind]; rewrite ER; cbn [bind].
  exists arr, rt, root; split; [reflexivity |].
  split; [apply (reorder_perm tris p rt D PI) |].
  split; [exact D |].
  split; [exact Y |]. split; [rewrite LA, repeat_length; lia |].
  apply Forall_cons_iff in W'; destruct W' as (W' & _).
  split; [exact W' |].
  split; [| exists c, k; split; [reflexivity | exact RN]].
  cbn in PM'; rewrite app_nil_r in PM'.
  transitivity (mem c); [exact PM' | exact PM].
Qed.
