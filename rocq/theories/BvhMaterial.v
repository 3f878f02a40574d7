(* C21: the material of a face once the hierarchy has reordered the mesh. *)
From Coq Require Import Permutation Sorted.
From Verif Require Import Common GeomModel AabbModel TriModel TriProps BvhModel BvhSpec BvhCombine
  BvhBuild BvhProps BvhCodes.
Local Open Scope nat_scope.

(* the face found at position i of the mesh is face j of the file *)
Definition came_from (tris : list triangle) (b : bvh) (i j : nat) : Prop :=
  exists T, nth_error (bv_tris b) i = Some T /\ nth_error tris j = Some T.

Lemma prims_nth : forall codes i, i < length codes ->
  nth_error (prims_of codes) i = Some (mk_prim i (nth i codes 0%N)).
Proof.
  intros codes i H; unfold prims_of.
  assert (G : forall l s i, i < length l ->
            nth_error (map (fun ic => mk_prim (fst ic) (snd ic)) (combine (seq s (length l)) l)) i =
            Some (mk_prim (s + i) (nth i l 0%N))).
  { induction l as [|c l IH]; intros s [|k] K; cbn in *; try lia.
    - rewrite Nat.add_0_r; reflexivity.
    - rewrite IH by lia; do 2 f_equal; lia. }
  exact (G codes 0 i H).
Qed.

Lemma Sorted_adjacent : forall A (R : A -> A -> Prop) l i x y, Sorted R l ->
  nth_error l i = Some x -> nth_error l (S i) = Some y -> R x y.
Proof.
  intros A R l; induction l as [|a l IH]; intros i x y H X Y; [destruct i; discriminate |].
  inversion H as [| ? ? H1 H2]; subst; destruct i as [|i].
  - injection X as ->; destruct l as [|b l]; [discriminate |]; injection Y as ->.
    inversion H2; assumption.
  - apply (IH i); assumption.
Qed.

Lemma nth_error_ext : forall A (l l' : list A), (forall i, nth_error l i = nth_error l' i) -> l = l'.
Proof.
  intros A l; induction l as [|a l IH]; intros [|b l'] H; [reflexivity | | |].
  - specialize (H 0); discriminate.
  - specialize (H 0); discriminate.
  - assert (H0 := H 0); injection H0 as ->; f_equal; apply IH; intro i; exact (H (S i)).
Qed.

(* C21 is false: whenever the codes of two consecutive faces are not in order, some
   face ends up at a position other than its own, and then there are materials for
   which the one returned for the position of the hit is not the face's. *)
Theorem bvh_material_refuted : forall sort aac tris codes b n, sorts sort ->
  (forall x, 4 <= x -> 1 <= aac x) -> 4 <= length tris ->
  morton_codes tris = Ok codes -> buildTree sort aac tris = Ok b ->
  S n < length codes -> (nth (S n) codes 0 < nth n codes 0)%N ->
  exists i j, i < length tris /\ i <> j /\ came_from tris b i j /\
    (NoDup tris -> ~ came_from tris b i i) /\
    exists assoc, length assoc = length tris /\
      forall M (m0 m1 : M),
        get_material [m0; m1] assoc i = Ok m0 /\ get_material [m0; m1] assoc j = Ok m1.
Proof.
  intros sort aac tris codes b n SO A L EM E LN DEC.
  assert (LC := morton_codes_length _ _ EM).
  unfold buildTree in E; destruct (Nat.ltb_spec (length tris) aac_delta) as [X | _];
    [unfold aac_delta in X; lia |].
  rewrite EM, bind_ok in E.
  destruct (SO (prims_of codes)) as (P & SR); set (p := sort (prims_of codes)) in *.
  destruct (build_sorted_ok aac tris codes p A ltac:(lia) LC P)
    as (arr & rt & root & E' & PT & (LD & D) & _).
  rewrite E' in E; injection E as <-.
  assert (LP : length p = length tris).
  { rewrite <- (Permutation_length PT). symmetry; exact LD. }
  (* some position does not hold its own face *)
  assert (MV : exists i q, nth_error p i = Some q /\ pr_index q <> i).
  { destruct (Forall_Exists_dec (fun i => match nth_error p i with
                                          | Some q => pr_index q = i
                                          | None => False end)
                (fun i => match nth_error p i as o return
                            ({match o with Some q => pr_index q = i | None => False end} +
                             {~ match o with Some q => pr_index q = i | None => False end}) with
                          | Some q => Nat.eq_dec (pr_index q) i
                          | None => right (fun H => H) end) (seq 0 (length p))) as [F | F].
    - exfalso. rewrite Forall_forall in F.
      assert (EP : p = prims_of codes).
      { apply nth_error_ext; intro i.
        destruct (Nat.lt_ge_cases i (length p)) as [I | I].
        - specialize (F i ltac:(apply in_seq; lia)).
          destruct (nth_error p i) as [q |] eqn:EQ; [| destruct F].
          rewrite prims_nth by lia.
          assert (IQ : In q (prims_of codes)).
          { apply (Permutation_in q (Permutation_sym P)), nth_error_In with i, EQ. }
          destruct (In_nth_error _ _ IQ) as (k & K).
          assert (KL : k < length codes).
          { assert (H : k < length (prims_of codes)) by (apply nth_error_Some; congruence).
            rewrite (Permutation_length P) in H; lia. }
          rewrite prims_nth in K by exact KL; injection K as <-; cbn in F; subst k; reflexivity.
        - rewrite (proj2 (nth_error_None p i)) by exact I; symmetry; apply nth_error_None.
          rewrite (Permutation_length P); exact I. }
      assert (R := Sorted_adjacent _ _ p n (mk_prim n (nth n codes 0%N))
                     (mk_prim (S n) (nth (S n) codes 0%N)) SR).
      rewrite EP, !prims_nth in R by lia.
      specialize (R eq_refl eq_refl); cbn in R; lia.
    - apply Exists_exists in F; destruct F as (i & I & F); apply in_seq in I.
      destruct (nth_error p i) as [q |] eqn:EQ; [exists i, q; split; [exact EQ | exact F] |].
      apply nth_error_None in EQ; lia. }
  destruct MV as (i & q & EQ & NE).
  assert (IL : i < length p) by (apply nth_error_Some; congruence).
  destruct (D i IL) as (q' & T & EQ' & ET & ER).
  rewrite EQ in EQ'; injection EQ' as <-.
  set (j := pr_index q) in *.
  assert (JL : j < length tris) by (apply nth_error_Some; congruence).
  exists i, j; split; [lia |]; split; [intro X; apply NE; symmetry; exact X |].
  split; [exists T; split; assumption |].
  split.
  { intros ND (T' & N1 & N2); cbn [bv_tris] in N1; rewrite ER in N1; injection N1 as <-.
    apply NE; rewrite NoDup_nth_error in ND; apply ND; [exact JL | congruence]. }
  exists (map (fun k => if k =? i then 0 else 1) (seq 0 (length tris))).
  split; [rewrite map_length, seq_length; reflexivity |].
  intros M m0 m1; unfold get_material, at_.
  assert (G : forall k, k < length tris ->
            nth_error (map (fun k => if k =? i then 0 else 1) (seq 0 (length tris))) k =
            Some (if k =? i then 0 else 1)).
  { intros k K; rewrite nth_error_map.
    rewrite (nth_error_nth' _ 0) by (rewrite seq_length; exact K).
    rewrite seq_nth by exact K; reflexivity. }
  rewrite (G i) by lia; rewrite (G j) by exact JL; rewrite Nat.eqb_refl.
  destruct (Nat.eqb_spec j i) as [X | _]; [contradiction |].
  split; reflexivity.
Qed.
Print Assumptions bvh_material_refuted.

Example bvh_material_case :
  match morton_codes mesh5, buildTree isort aac_f mesh5 with
  | Ok codes, Ok b => length codes = 5 /\ (nth 2 codes 0 < nth 1 codes 0)%N /\
      nth_error (bv_tris b) 0 = Some (tri_at 0 0 0) /\ nth_error mesh5 2 = Some (tri_at 0 0 0)
  | _, _ => False
  end.
Proof. vm_compute; repeat split. Qed.

(* C21, the true part: the order of the file is kept by meshes of less than four
   faces, and by those whose codes are strictly increasing. *)
Theorem bvh_material_kept_partial : forall sort aac tris b, sorts sort ->
  (forall x, 4 <= x -> 1 <= aac x) -> buildTree sort aac tris = Ok b ->
  (length tris < 4 \/
   exists codes, morton_codes tris = Ok codes /\ StronglySorted N.lt codes) ->
  bv_tris b = tris.
Proof.
  intros sort aac tris b SO A E H; unfold buildTree in E.
  destruct (Nat.ltb_spec (length tris) aac_delta) as [L | L]; unfold aac_delta in L.
  { injection E as <-; reflexivity. }
  destruct H as [H | (codes & EM & SS)]; [lia |].
  assert (LC := morton_codes_length _ _ EM).
  rewrite EM, bind_ok in E.
  destruct (SO (prims_of codes)) as (P & SR); set (p := sort (prims_of codes)) in *.
  destruct (build_sorted_ok aac tris codes p A ltac:(lia) LC P)
    as (arr & rt & root & E' & PT & (LD & D) & _).
  rewrite E' in E; injection E as <-; cbn [bv_tris].
  (* two sorted arrangements of distinct codes are the same *)
  assert (EP : p = prims_of codes).
  { assert (SP : StronglySorted (fun a b => (pr_morton a < pr_morton b)%N) (prims_of codes)).
    { unfold prims_of; clear - SS; generalize 0; induction SS as [| c l SL IH F]; intro s;
        cbn [length seq combine map]; [constructor |].
      constructor; [apply IH |]. apply Forall_forall; intros q I; apply in_map_iff in I.
      destruct I as ((k & m) & <- & I); apply in_combine_r in I; cbn.
      rewrite Forall_forall in F; apply F, I. }
    assert (SS' : StronglySorted (fun a b => (pr_morton a <= pr_morton b)%N) p).
    { apply Sorted_StronglySorted; [intros a c d; apply N.le_trans | exact SR]. }
    clear - P SP SS'. revert P SS'; generalize p.
    induction SP as [| a l SL IH F]; intros p' P SS'.
    - apply Permutation_nil in P; exact P.
    - destruct SS' as [| a' l' SL' F'].
      { apply Permutation_sym, Permutation_nil in P; discriminate. }
      assert (EA : a' = a).
      { assert (I : In a' (a :: l)) by (apply (Permutation_in a' (Permutation_sym P)); left; reflexivity).
        destruct I as [<- | I]; [reflexivity |].
        assert (I2 : In a (a' :: l')) by (apply (Permutation_in a P); left; reflexivity).
        destruct I2 as [I2 | I2]; [exact I2 |].
        rewrite Forall_forall in F, F'. specialize (F a' I); specialize (F' a I2); cbv beta in *; lia. }
      subst a'; f_equal; apply IH; [exact (Permutation_cons_inv P) | exact SL']. }
  apply nth_error_ext; intro i.
  destruct (Nat.lt_ge_cases i (length p)) as [I | I].
  - destruct (D i I) as (q & T & EQ & ET & ER).
    rewrite EP, prims_nth in EQ.
    + injection EQ as <-; cbn in ET; congruence.
    + rewrite EP in I.
      unfold prims_of in I; rewrite map_length, combine_length, seq_length in I; lia.
  - assert (LT := Permutation_length PT).
    rewrite (proj2 (nth_error_None rt i)) by lia; symmetry; apply nth_error_None; lia.
Qed.
Print Assumptions bvh_material_kept_partial.

Example bvh_kept_case :
  match morton_codes [tri_at 0 0 0; tri_at 1 1 1; tri_at 2 2 2; tri_at 3 3 3] with
  | Ok codes => StronglySorted N.lt codes
  | _ => False
  end.
Proof. vm_compute; repeat constructor. Qed.
