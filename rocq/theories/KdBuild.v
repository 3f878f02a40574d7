(* Construction of the kd-tree: the buffer holds the lists of the leaves of a pure
   tree, and the lists of the leaves cover the boxes. *)
From Coq Require Import Permutation Sorted.
From Coq Require Import Lqa.
From Verif Require Import Common GeomModel AabbModel AabbSpec AabbProofs BitsModel BitsProofs
     KdAddModel KdAddProps KdModel KdSpec.
Local Open Scope nat_scope.

(* ----- lists ----- *)

Lemma nth_error_firstn : forall B (l : list B) n i, i < n ->
  nth_error (firstn n l) i = nth_error l i.
Proof.
  induction l as [|b l IH]; intros [|n] [|i] H; try lia; try reflexivity.
  cbn; apply IH; lia.
Qed.

Lemma nth_error_skipn : forall B (l : list B) n i,
  nth_error (skipn n l) i = nth_error l (n + i).
Proof.
  induction l as [|b l IH]; intros [|n] i; cbn; try reflexivity.
  - destruct i; reflexivity.
  - apply IH.
Qed.

Lemma filter_length_le : forall B (f : B -> bool) l, length (filter f l) <= length l.
Proof.
  induction l as [|b l IH]; cbn; [lia |]; destruct (f b); cbn; lia.
Qed.

Lemma filter_app_length : forall B (f : B -> bool) l n,
  length (filter f (firstn n l)) <= length (filter f l) /\
  length (filter f (skipn n l)) <= length (filter f l).
Proof.
  intros B f l n; rewrite <- (firstn_skipn n l) at 2 4.
  rewrite filter_app, app_length; lia.
Qed.

Lemma filter_perm : forall B (f : B -> bool) l l', Permutation l l' ->
  Permutation (filter f l) (filter f l').
Proof.
  intros B f l l' P; induction P; cbn.
  - constructor.
  - destruct (f x); [constructor |]; assumption.
  - destruct (f x), (f y); try constructor; apply Permutation_refl.
  - eapply perm_trans; eassumption.
Qed.

Lemma sorted_nth : forall B (R : B -> B -> Prop) l i j x y, StronglySorted R l ->
  i < j -> nth_error l i = Some x -> nth_error l j = Some y -> R x y.
Proof.
  intros B R l i j x y S; revert i j; induction S as [|b l S IH F]; intros [|i] [|j] L X Y;
    cbn in *; try lia; try congruence; try (destruct i; congruence).
  - injection X as <-; rewrite Forall_forall in F; apply F.
    apply nth_error_In with j; exact Y.
  - apply (IH i j); try assumption; lia.
Qed.

Lemma firstn_split2 : forall B n m (l u v : list B), length u = n ->
  firstn (n + m) l = u ++ v -> firstn n l = u /\ firstn m (skipn n l) = v.
Proof.
  induction n as [|n IH]; intros m l u v L F.
  - destruct u; [| discriminate]; auto.
  - destruct u as [|b u]; [discriminate |]; destruct l as [|c l]; [discriminate |].
    cbn in F; injection F as -> F; cbn in L; injection L as L.
    destruct (IH m l u v L F) as (F1 & F2); cbn; rewrite F1; auto.
Qed.

Lemma skipn_skipn : forall B m n (l : list B), skipn m (skipn n l) = skipn (n + m) l.
Proof.
  induction n as [|n IH]; intros l; [reflexivity |].
  destruct l as [|b l]; cbn; [destruct m; reflexivity | apply IH].
Qed.

(* ----- the candidates ----- *)

Section Scan.
Context {A : Type} (box : A -> aabb).
Variable sort : list (event A) -> list (event A).
Variable cost : aabb -> nat -> xq -> nat -> nat -> xq.

Lemma scan_some : forall (evs : list (event A)) area axis i la ra b o c j,
  scan cost area axis evs i la ra (b, o) = (c, Some j) ->
  o = Some j \/
  (i <= j /\ exists e, nth_error evs (j - i) = Some e /\
     xlt (projl axis area) (ev_pos e) = true /\ xlt (ev_pos e) (projh axis area) = true).
Proof.
  induction evs as [|e evs IH]; intros area axis i la ra b o c j; cbn [scan].
  - intro H; left; congruence.
  - destruct (xlt (projl axis area) (ev_pos e) && xlt (ev_pos e) (projh axis area)) eqn:IN.
    + apply andb_true_iff in IN; cbn [fst].
      destruct (xlt _ b); intro H; apply IH in H;
        (destruct H as [H | (L & e' & N & P)]; [ | right; split; [lia |]; exists e';
           replace (j - i) with (S (j - (i + 1))) by lia; split; assumption]).
      * injection H as <-; right; split; [lia |]; exists e.
        rewrite Nat.sub_diag; split; [reflexivity | exact IN].
      * left; exact H.
    + intro H; apply IH in H.
      destruct H as [H | (L & e' & N & P)]; [left; exact H | right; split; [lia |]; exists e'].
      replace (j - i) with (S (j - (i + 1))) by lia; split; assumption.
Qed.

Lemma search_some : forall n area l axis c ax evs j, axis < 3 ->
  search box sort cost n area l axis = Some (c, ax, evs, j) ->
  ax < 3 /\ evs = sort (events box ax l) /\
  exists e, nth_error evs j = Some e /\
     xlt (projl ax area) (ev_pos e) = true /\ xlt (ev_pos e) (projh ax area) = true.
Proof.
  induction n as [|n IH]; intros area l axis c ax evs j AX; cbn [search]; [congruence |].
  destruct (scan _ _ _ _ _ _ _ _) as (c', [i|]) eqn:E; intro H.
  - injection H as <- <- <- <-; split; [exact AX | split; [reflexivity |]].
    apply scan_some in E; destruct E as [E | (_ & e & N & P)]; [congruence |].
    rewrite Nat.sub_0_r in N; exists e; split; assumption.
  - apply IH in H; [exact H |]. apply Nat.mod_upper_bound; lia.
Qed.
End Scan.

Section Cover.
Context {A : Type} (box : A -> aabb).
Variable sort : list (event A) -> list (event A).

Lemma longest_axis_lt : forall b, longest_axis b < 3.
Proof.
  intro b; unfold longest_axis; destruct (_ && _); [lia |]; destruct (xge _ _); lia.
Qed.

Lemma events_in : forall k l e, In e (events box k l) <->
  exists a, In a l /\ (e = mk_event (projl k (box a)) true a \/
                       e = mk_event (projh k (box a)) false a).
Proof.
  intros k l e; unfold events; rewrite in_flat_map; split.
  - intros (a & I & [E | [E | []]]); exists a; auto.
  - intros (a & I & [E | E]); exists a; cbn; auto.
Qed.

Lemma events_count : forall k l,
  length (filter ev_left (events box k l)) = length l /\
  length (filter (fun e => negb (ev_left e)) (events box k l)) = length l.
Proof.
  induction l as [|a l (IH1 & IH2)]; cbn; [auto |]; split; f_equal; assumption.
Qed.

(* all boxes made of numbers *)
Definition numbers (l : list A) : Prop := forall a, In a l -> valid (box a).

Lemma events_no_nan : forall k l e, numbers l -> In e (events box k l) -> ev_pos e <> NaN.
Proof.
  intros k l e V I; apply events_in in I; destruct I as (a & I & [-> | ->]); cbn.
  - apply valid_projl, V, I.
  - apply valid_projh, V, I.
Qed.

Hypothesis SORT : sorts sort.

Lemma sides_length : forall k l j, numbers l ->
  length (as_left (sort (events box k l)) j) <= length l /\
  length (as_right (sort (events box k l)) j) <= length l.
Proof using SORT.
  intros k l j V; destruct (SORT (events box k l)) as (P & _).
  { intros e I; apply (events_no_nan k l); assumption. }
  unfold as_left, as_right; rewrite !map_length.
  destruct (events_count k l) as (C1 & C2).
  pose proof (Permutation_length (filter_perm _ ev_left _ _ P)) as L1.
  pose proof (Permutation_length (filter_perm _ (fun e => negb (ev_left e)) _ _ P)) as L2.
  pose proof (filter_app_length _ ev_left (sort (events box k l)) j) as (F1 & _).
  pose proof (filter_app_length _ (fun e => negb (ev_left e)) (sort (events box k l)) (S j))
    as (_ & F2).
  lia.
Qed.

Lemma sides_incl : forall k l j a, numbers l ->
  In a (as_left (sort (events box k l)) j) \/ In a (as_right (sort (events box k l)) j) ->
  In a l.
Proof using SORT.
  intros k l j a V H; destruct (SORT (events box k l)) as (P & _).
  { intros e I; apply (events_no_nan k l); assumption. }
  assert (E : exists e, In e (sort (events box k l)) /\ ev_who e = a).
  { destruct H as [H | H]; unfold as_left, as_right in H; apply in_map_iff in H;
      destruct H as (e & W & I); apply filter_In in I; destruct I as (I & _); exists e;
      (split; [| exact W]).
    - rewrite <- (firstn_skipn j); apply in_or_app; left; exact I.
    - rewrite <- (firstn_skipn (S j)); apply in_or_app; right; exact I. }
  destruct E as (e & I & W).
  apply (Permutation_in _ (Permutation_sym P)) in I.
  apply events_in in I; destruct I as (b & I & [-> | ->]); cbn in W; subst b; exact I.
Qed.

(* the sides of the plane *)
Lemma xlt_chain : forall a q s, below a q -> xlt (Fin q) s = true -> xlt a s = true.
Proof.
  intros [a| | |] q [s| | |]; cbn; try tauto; try congruence.
  rewrite !qltb_lt; intros; lra.
Qed.
Lemma xlt_chain_r : forall a q s, above a q -> xlt s (Fin q) = true -> xlt s a = true.
Proof.
  intros [a| | |] q [s| | |]; cbn; try tauto; try congruence.
  rewrite !qltb_lt; intros; lra.
Qed.

Lemma side_left : forall k l j e a p, numbers l ->
  nth_error (sort (events box k l)) j = Some e -> In a l -> contains (box a) p ->
  xlt (Fin (coord k p)) (ev_pos e) = true ->
  In a (as_left (sort (events box k l)) j).
Proof using SORT.
  intros k l j e a p V N I C LT; destruct (SORT (events box k l)) as (P & ST).
  { intros x X; apply (events_no_nan k l); assumption. }
  pose proof (proj1 (contains_coord _ _) C k) as (B & _).
  pose proof (xlt_chain _ _ _ B LT) as LO.
  assert (IE : In (mk_event (projl k (box a)) true a) (sort (events box k l))).
  { apply (Permutation_in _ P), events_in; exists a; auto. }
  apply In_nth_error in IE; destruct IE as (i & NI).
  assert (IJ : i < j).
  { destruct (lt_eq_lt_dec i j) as [[L | ->] | L]; [exact L | |].
    - rewrite N in NI; injection NI as ->; cbn in LO.
      destruct (projl k (box a)); cbn in LO; try congruence.
      apply qltb_lt in LO; lra.
    - pose proof (sorted_nth _ _ _ _ _ _ _ ST L N NI) as R; cbn in R; congruence. }
  unfold as_left; apply in_map_iff; exists (mk_event (projl k (box a)) true a).
  split; [reflexivity |]; apply filter_In; split; [| reflexivity].
  apply nth_error_In with i; rewrite nth_error_firstn by exact IJ; exact NI.
Qed.

Lemma side_right : forall k l j e a p, numbers l ->
  nth_error (sort (events box k l)) j = Some e -> In a l -> contains (box a) p ->
  xlt (ev_pos e) (Fin (coord k p)) = true ->
  In a (as_right (sort (events box k l)) j).
Proof using SORT.
  intros k l j e a p V N I C LT; destruct (SORT (events box k l)) as (P & ST).
  { intros x X; apply (events_no_nan k l); assumption. }
  pose proof (proj1 (contains_coord _ _) C k) as (_ & B).
  pose proof (xlt_chain_r _ _ _ B LT) as LO.
  assert (IE : In (mk_event (projh k (box a)) false a) (sort (events box k l))).
  { apply (Permutation_in _ P), events_in; exists a; auto. }
  apply In_nth_error in IE; destruct IE as (i & NI).
  assert (IJ : j < i).
  { destruct (lt_eq_lt_dec i j) as [[L | ->] | L]; [ | | exact L].
    - pose proof (sorted_nth _ _ _ _ _ _ _ ST L NI N) as R; cbn in R; congruence.
    - rewrite N in NI; injection NI as ->; cbn in LO.
      destruct (projh k (box a)); cbn in LO; try congruence.
      apply qltb_lt in LO; lra. }
  unfold as_right; apply in_map_iff; exists (mk_event (projh k (box a)) false a).
  split; [reflexivity |]; apply filter_In; split; [| reflexivity].
  apply nth_error_In with (i - S j); rewrite nth_error_skipn.
  replace (S j + (i - S j)) with i by lia; exact NI.
Qed.

(* an asset on a side reaches that side *)
Lemma side_left_reaches : forall k l j e a, numbers l ->
  nth_error (sort (events box k l)) j = Some e ->
  In a (as_left (sort (events box k l)) j) -> xlt (ev_pos e) (projl k (box a)) = false.
Proof using SORT.
  intros k l j e a V N I; destruct (SORT (events box k l)) as (P & ST).
  { intros x X; apply (events_no_nan k l); assumption. }
  unfold as_left in I; apply in_map_iff in I; destruct I as (x & W & I).
  apply filter_In in I; destruct I as (I & L).
  assert (IX : In x (events box k l)).
  { apply (Permutation_in _ (Permutation_sym P)); rewrite <- (firstn_skipn j).
    apply in_or_app; left; exact I. }
  apply In_nth_error in I; destruct I as (i & I).
  assert (ij : i < j).
  { assert (i < length (firstn j (sort (events box k l)))) by (apply nth_error_Some; congruence).
    rewrite firstn_length in *; lia. }
  rewrite nth_error_firstn in I by exact ij.
  pose proof (sorted_nth _ _ _ _ _ _ _ ST ij I N) as R; cbn in R.
  apply events_in in IX; destruct IX as (b & _ & [-> | ->]); cbn in *; [subst; exact R | congruence].
Qed.

Lemma side_right_reaches : forall k l j e a, numbers l ->
  nth_error (sort (events box k l)) j = Some e ->
  In a (as_right (sort (events box k l)) j) -> xlt (projh k (box a)) (ev_pos e) = false.
Proof using SORT.
  intros k l j e a V N I; destruct (SORT (events box k l)) as (P & ST).
  { intros x X; apply (events_no_nan k l); assumption. }
  unfold as_right in I; apply in_map_iff in I; destruct I as (x & W & I).
  apply filter_In in I; destruct I as (I & L).
  assert (IX : In x (events box k l)).
  { apply (Permutation_in _ (Permutation_sym P)); rewrite <- (firstn_skipn (S j)).
    apply in_or_app; right; exact I. }
  apply In_nth_error in I; destruct I as (i & I).
  rewrite nth_error_skipn in I.
  assert (ij : j < S j + i) by lia.
  pose proof (sorted_nth _ _ _ _ _ _ _ ST ij N I) as R; cbn in R.
  apply events_in in IX; destruct IX as (b & _ & [-> | ->]); cbn in *; [congruence | subst; exact R].
Qed.

(* the sort does not put the right side of an asset before its left side *)
Definition opens_first (l : list A) : Prop :=
  forall k l' a, (forall b, In b l' -> In b l) -> In a l' ->
  exists i j, i < j /\
    nth_error (sort (events box k l')) i = Some (mk_event (projl k (box a)) true a) /\
    nth_error (sort (events box k l')) j = Some (mk_event (projh k (box a)) false a).

Lemma side_some : forall k l j a, opens_first l -> In a l ->
  In a (as_left (sort (events box k l)) j) \/ In a (as_right (sort (events box k l)) j).
Proof using.
  intros k l j a O I; destruct (O k l a (fun b H => H) I) as (i & i' & L & N & N').
  destruct (le_lt_dec j i) as [J | J].
  - right; unfold as_right; apply in_map_iff; exists (mk_event (projh k (box a)) false a).
    split; [reflexivity |]; apply filter_In; split; [| reflexivity].
    apply nth_error_In with (i' - S j); rewrite nth_error_skipn.
    replace (S j + (i' - S j)) with i' by lia; exact N'.
  - left; unfold as_left; apply in_map_iff; exists (mk_event (projl k (box a)) true a).
    split; [reflexivity |]; apply filter_In; split; [| reflexivity].
    apply nth_error_In with i; rewrite nth_error_firstn by exact J; exact N.
Qed.

Lemma thick_opens_first : forall l, numbers l -> (forall a, In a l -> thick (box a)) ->
  opens_first l.
Proof using SORT.
  intros l V T k l' a INC I; destruct (SORT (events box k l')) as (P & ST).
  { intros x X; apply (events_no_nan k l'); [| exact X]. intros b B; apply V, INC, B. }
  assert (I1 : In (mk_event (projl k (box a)) true a) (sort (events box k l'))).
  { apply (Permutation_in _ P), events_in; exists a; auto. }
  assert (I2 : In (mk_event (projh k (box a)) false a) (sort (events box k l'))).
  { apply (Permutation_in _ P), events_in; exists a; auto. }
  apply In_nth_error in I1; destruct I1 as (i & N1).
  apply In_nth_error in I2; destruct I2 as (j & N2).
  exists i, j; split; [| split; assumption].
  destruct (lt_eq_lt_dec i j) as [[L | ->] | L]; [exact L | congruence |].
  pose proof (sorted_nth _ _ _ _ _ _ _ ST L N2 N1) as R; cbn in R.
  rewrite (T a (INC a I) k) in R; congruence.
Qed.

(* a sublist keeps the order *)
Lemma filter_order : forall B (f : B -> bool) l i j x y,
  i < j -> nth_error (filter f l) i = Some x -> nth_error (filter f l) j = Some y ->
  exists i' j', i' < j' /\ nth_error l i' = Some x /\ nth_error l j' = Some y.
Proof using.
  induction l as [|b l IH]; intros i j x y L X Y; [destruct i; cbn in X; congruence |].
  cbn in X, Y; destruct (f b).
  - destruct i as [|i], j as [|j]; cbn in X, Y; try lia.
    + injection X as ->.
      apply nth_error_In in Y; apply filter_In in Y; destruct Y as (Y & _).
      apply In_nth_error in Y; destruct Y as (j' & Y).
      exists 0, (S j'); repeat split; [lia | exact Y].
    + destruct (IH i j x y) as (i' & j' & L' & X' & Y'); try assumption; [lia |].
      exists (S i'), (S j'); repeat split; [lia | exact X' | exact Y'].
  - destruct (IH i j x y) as (i' & j' & L' & X' & Y'); try assumption.
    exists (S i'), (S j'); repeat split; [lia | exact X' | exact Y'].
Qed.

Lemma order_filter : forall B (f : B -> bool) l x y,
  f x = true -> f y = true ->
  (exists u v w, l = u ++ x :: v ++ y :: w) ->
  exists i j, i < j /\ nth_error (filter f l) i = Some x /\ nth_error (filter f l) j = Some y.
Proof using.
  intros B f l x y FX FY (u & v & w & ->).
  exists (length (filter f u)), (length (filter f u) + S (length (filter f v))).
  rewrite filter_app; cbn [filter]; rewrite FX, filter_app; cbn [filter]; rewrite FY.
  split; [lia | split].
  - rewrite nth_error_app2, Nat.sub_diag by lia; reflexivity.
  - rewrite nth_error_app2 by lia.
    replace (_ + _ - _) with (S (length (filter f v))) by lia; cbn.
    rewrite nth_error_app2, Nat.sub_diag by lia; reflexivity.
Qed.

Lemma xeq_refl : forall x, x <> NaN -> xeq x x = true.
Proof using.
  intros [x| | |] N; cbn; try congruence; [apply Qeq_bool_iff; reflexivity].
Qed.
Lemma xeq_sym_trans : forall x y z, xeq x z = true -> xeq y z = true -> xeq x y = true.
Proof using.
  intros [x| | |] [y| | |] [z| | |]; cbn; try congruence; try reflexivity.
  rewrite !Qeq_bool_iff; intros; lra.
Qed.

Lemma xlt_total : forall x y, x <> NaN -> y <> NaN -> xlt x y = false -> xlt y x = false ->
  xeq x y = true.
Proof using.
  intros [x| | |] [y| | |]; cbn; try congruence; try reflexivity.
  rewrite !qltb_ge, Qeq_bool_iff; intros; lra.
Qed.

(* boxes that are not turned inside out *)
Definition upright (b : aabb) : Prop := forall k, xlt (projh k b) (projl k b) = false.

Lemma stable_opens_first : forall l, stable sort -> numbers l ->
  (forall a, In a l -> upright (box a)) -> opens_first l.
Proof using SORT.
  intros l ST V U k l' a INC I.
  set (x := projl k (box a)); set (y := projh k (box a)).
  destruct (xlt x y) eqn:LT.
  - (* an extent along this axis *)
    destruct (SORT (events box k l')) as (P & SS).
    { intros z Z; apply (events_no_nan k l'); [| exact Z]. intros b B; apply V, INC, B. }
    assert (I1 : In (mk_event x true a) (sort (events box k l'))).
    { apply (Permutation_in _ P), events_in; exists a; auto. }
    assert (I2 : In (mk_event y false a) (sort (events box k l'))).
    { apply (Permutation_in _ P), events_in; exists a; auto. }
    apply In_nth_error in I1; destruct I1 as (i & N1).
    apply In_nth_error in I2; destruct I2 as (j & N2).
    exists i, j; split; [| split; assumption].
    destruct (lt_eq_lt_dec i j) as [[L | ->] | L]; [exact L | congruence |].
    pose proof (sorted_nth _ _ _ _ _ _ _ SS L N2 N1) as R; cbn in R; congruence.
  - assert (NX : x <> NaN) by (apply valid_projl, V, INC, I).
    assert (NY : y <> NaN) by (apply valid_projh, V, INC, I).
    assert (EQ : xeq y x = true).
    { apply xlt_total; try assumption. apply (U a (INC a I) k). }
    destruct (order_filter _ (fun e => xeq (ev_pos e) x) (events box k l')
                (mk_event x true a) (mk_event y false a)) as (i & j & L & N1 & N2).
    + cbn; apply xeq_refl, NX.
    + exact EQ.
    + apply in_split in I; destruct I as (u & w & ->).
      exists (events box k u), [], (events box k w).
      unfold events; rewrite flat_map_app; reflexivity.
    + rewrite <- ST in N1, N2.
      apply (filter_order _ _ _ _ _ _ _ L N1 N2).
Qed.

(* every node of the pure tree is a leaf or a plane through a face of an asset *)
Inductive grown : nat -> list A -> ktree A -> Prop :=
| grown_leaf : forall n l, grown n l (TLeaf l)
| grown_node : forall n l k j e tl tr,
    k < 3 -> nth_error (sort (events box k l)) j = Some e ->
    xlt NInf (ev_pos e) = true -> xlt (ev_pos e) PInf = true ->
    grown n (as_left (sort (events box k l)) j) tl ->
    grown n (as_right (sort (events box k l)) j) tr ->
    grown (S n) l (TNode k (ev_pos e) tl tr).

(* the lists of the leaves in order *)
Fixpoint flat (t : ktree A) : list A :=
  match t with TLeaf l => l | TNode _ _ l r => flat l ++ flat r end.

Lemma flat_references : forall t, length (flat t) = references t.
Proof using. induction t; cbn; [reflexivity |]; rewrite app_length; lia. Qed.

(* the array form of a pure tree whose lists start at the given offset *)
Fixpoint place (off : nat) (t : ktree A) : kdbuild :=
  match t with
  | TLeaf l => KLeaf off (length l)
  | TNode k s l r => KNode k s (place off l) (place (off + references l) r)
  end.

Lemma numbers_side : forall k l j, numbers l ->
  numbers (as_left (sort (events box k l)) j) /\ numbers (as_right (sort (events box k l)) j).
Proof using SORT.
  intros k l j V; split; intros a I; apply V, (sides_incl k l j a V); auto.
Qed.

Lemma make_leaf_ok : forall l (k : kdbuf A), kb_inv k ->
  match make_leaf l k with
  | Ok (t, k') =>
      t = KLeaf (length (kb_assets k)) (length l) /\ kb_assets k' = kb_assets k ++ l /\ kb_inv k' /\
      (Z.of_nat (length (kb_assets k)) + Z.of_nat (length l) <= max_assets)%Z
  | UB => (max_assets < Z.of_nat (length (kb_assets k)) + Z.of_nat (length l))%Z
  | OutOfFuel => False
  end.
Proof using.
  intros l k I; unfold make_leaf.
  destruct (Z_le_gt_dec (Z.of_nat (length (kb_assets k)) + Z.of_nat (length l)) max_assets)
    as [L | G].
  - destruct (addAssets_inv A l k I L) as (k' & E & EA & I'); rewrite E; cbn [bind]; auto.
  - rewrite addAssets_over by (auto; lia); cbn [bind]; lia.
Qed.

(* ----- the array ----- *)

Fixpoint ksize (t : kdbuild) : nat :=
  match t with KLeaf _ _ => 1 | KNode _ _ l r => 1 + ksize l + ksize r end.

Lemma put_length : forall B (l : list B) i b, i < length l -> length (put l i b) = length l.
Proof using.
  intros B l i b L; unfold put; rewrite app_length; cbn [length].
  rewrite firstn_length, skipn_length; lia.
Qed.

Lemma put_same : forall B (l : list B) i b, i < length l -> nth_error (put l i b) i = Some b.
Proof using.
  intros B l i b L; unfold put; rewrite nth_error_app2 by (rewrite firstn_length; lia).
  rewrite firstn_length; replace (i - Nat.min i (length l)) with 0 by lia; reflexivity.
Qed.

Lemma put_other : forall B (l : list B) i j b, i < length l -> i <> j ->
  nth_error (put l i b) j = nth_error l j.
Proof using.
  intros B l i j b L NE; unfold put.
  destruct (le_lt_dec i j) as [G | G].
  - rewrite nth_error_app2 by (rewrite firstn_length; lia).
    rewrite firstn_length, Nat.min_l by lia.
    replace (j - i) with (S (j - S i)) by lia; cbn [nth_error].
    rewrite nth_error_skipn; f_equal; lia.
  - rewrite nth_error_app1 by (rewrite firstn_length; lia).
    apply nth_error_firstn; exact G.
Qed.

Lemma finalize_keeps : forall t nodes,
  length (finalize t nodes) = length nodes + ksize t /\
  forall i, i < length nodes -> nth_error (finalize t nodes) i = nth_error nodes i.
Proof using.
  induction t as [o n | k s l IHl r IHr]; intros nodes; cbn [finalize ksize].
  - rewrite app_length; split; [cbn [length]; lia |].
    intros i L; apply nth_error_app1; exact L.
  - destruct (IHl (nodes ++ [None])) as (L1 & K1).
    set (n1 := finalize l (nodes ++ [None])) in *.
    rewrite app_length in L1; cbn [length] in L1.
    set (n2 := put n1 (length nodes) (Some (kn_interior s k (length n1)))).
    assert (L2 : length n2 = length n1) by (apply put_length; lia).
    destruct (IHr n2) as (L3 & K3); rewrite L3, L2, L1; split; [lia |].
    intros i L; rewrite K3 by lia; unfold n2; rewrite put_other by lia.
    rewrite K1 by (rewrite app_length; lia); apply nth_error_app1; exact L.
Qed.

Fixpoint tsize (t : ktree A) : nat :=
  match t with TLeaf _ => 1 | TNode _ _ l r => 1 + tsize l + tsize r end.
Lemma ksize_place : forall t off, ksize (place off t) = tsize t.
Proof using. induction t; intro off; cbn; congruence. Qed.

(* as [encodes], with the position of the upper child *)
Fixpoint ranged (nodes : list (option knode)) (assets : list A) (i : nat) (t : ktree A) : Prop :=
  match t with
  | TLeaf l =>
      exists o, nth_error nodes i = Some (Some (kn_leaf o (length l))) /\
                firstn (length l) (skipn o assets) = l
  | TNode k s l r =>
      nth_error nodes i = Some (Some (kn_interior s k (S i + tsize l))) /\
      ranged nodes assets (S i) l /\ ranged nodes assets (S i + tsize l) r
  end.

Lemma ranged_encodes : forall t nodes assets i, ranged nodes assets i t -> encodes nodes assets i t.
Proof using.
  induction t as [l | k s l IHl r IHr]; intros nodes assets i R; cbn [ranged encodes] in *.
  - exact R.
  - destruct R as (N & R1 & R2); exists (S i + tsize l); auto.
Qed.

Lemma ranged_ext : forall t nodes nodes' assets i,
  (forall j, i <= j < i + tsize t -> nth_error nodes' j = nth_error nodes j) ->
  ranged nodes assets i t -> ranged nodes' assets i t.
Proof using.
  induction t as [l | k s l IHl r IHr]; intros nodes nodes' assets i E R;
    cbn [ranged tsize] in *.
  - destruct R as (o & N & F); exists o; rewrite E by lia; auto.
  - destruct R as (N & R1 & R2); rewrite E by lia; split; [exact N |].
    split; [apply (IHl nodes) | apply (IHr nodes)]; try assumption; intros j J; apply E; lia.
Qed.

Lemma finalize_ranged : forall t off nodes assets,
  firstn (references t) (skipn off assets) = flat t ->
  ranged (finalize (place off t) nodes) assets (length nodes) t.
Proof using.
  induction t as [l | k s l IHl r IHr]; intros off nodes assets F;
    cbn [finalize place ranged references flat] in *.
  - exists off; rewrite nth_error_app2, Nat.sub_diag by lia; split; [reflexivity | exact F].
  - destruct (firstn_split2 _ (references l) (references r) (skipn off assets) _ _
                (flat_references l) F) as (FL & FR).
    rewrite skipn_skipn in FR.
    set (myi := length nodes).
    destruct (finalize_keeps (place off l) (nodes ++ [None])) as (L1 & K1).
    pose proof (IHl off (nodes ++ [None]) assets FL) as R1.
    set (n1 := finalize (place off l) (nodes ++ [None])) in *.
    rewrite app_length, ksize_place in L1; cbn [length] in L1.
    rewrite app_length in R1; cbn [length] in R1.
    set (n2 := put n1 myi (Some (kn_interior s k (length n1)))).
    assert (L2 : length n2 = length n1) by (apply put_length; lia).
    pose proof (IHr (off + references l) n2 assets FR) as R2.
    destruct (finalize_keeps (place (off + references l) r) n2) as (L3 & K3).
    set (n3 := finalize (place (off + references l) r) n2) in *.
    assert (E1 : length n1 = S myi + tsize l) by (unfold myi; lia).
    split; [| split].
    + rewrite K3 by (unfold myi; lia); unfold n2; rewrite put_same by (unfold myi; lia).
      rewrite E1; reflexivity.
    + apply (ranged_ext l n1); [| replace (S myi) with (length nodes + 1) by (unfold myi; lia); exact R1].
      intros j J; rewrite K3 by lia; unfold n2; apply put_other; unfold myi in *; lia.
    + rewrite <- E1, <- L2; exact R2.
Qed.

(* ----- the pure construction ----- *)

Variable cost : aabb -> nat -> xq -> nat -> nat -> xq.

Fixpoint pbuild (levels : nat) (l : list A) (area : aabb) : ktree A :=
  match levels with
  | O => TLeaf l
  | S levels =>
      if length l <=? leaf_assets then TLeaf l
      else
        match search box sort cost 3 area l (longest_axis area) with
        | None => TLeaf l
        | Some (c, axis, evs, split) =>
            if xlt (Fin (4 * (sah_intersect * inject_Z (Z.of_nat (length l))))) c &&
               (length l <? 16)
            then TLeaf l
            else
              match nth_error evs split with
              | None => TLeaf l
              | Some e =>
                  TNode axis (ev_pos e)
                    (pbuild levels (as_left evs split) (with_hi axis (ev_pos e) area))
                    (pbuild levels (as_right evs split) (with_lo axis (ev_pos e) area))
              end
        end
  end.

Lemma strict_between : forall a x b, xlt a x = true -> xlt x b = true ->
  xlt NInf x = true /\ xlt x PInf = true.
Proof using. intros [a| | |] [x| | |] [b| | |]; cbn; auto. Qed.

Lemma pbuild_grown : forall n l area, grown n l (pbuild n l area).
Proof using.
  induction n as [|n IH]; intros l area; cbn [pbuild]; [constructor |].
  destruct (_ <=? _); [constructor |].
  destruct (search _ _ _ _ _ _ _) as [[[[c ax] evs] j]|] eqn:S; [| constructor].
  destruct (_ && _); [constructor |].
  apply search_some in S; [| apply longest_axis_lt].
  destruct S as (AX & -> & e & N & B1 & B2); rewrite N.
  destruct (strict_between _ _ _ B1 B2) as (C1 & C2).
  apply grown_node with j; auto.
Qed.

Lemma build_pure : forall levels cap l area k, kb_inv k -> numbers l -> length l <= cap ->
  match build box sort cost levels cap l area k with
  | Ok (t, k') =>
      t = place (length (kb_assets k)) (pbuild levels l area) /\
      kb_assets k' = kb_assets k ++ flat (pbuild levels l area) /\ kb_inv k' /\
      (Z.of_nat (length (kb_assets k)) + Z.of_nat (references (pbuild levels l area))
       <= max_assets)%Z
  | UB =>
      (max_assets <
       Z.of_nat (length (kb_assets k)) + Z.of_nat (references (pbuild levels l area)))%Z
  | OutOfFuel => False
  end.
Proof using SORT.
  induction levels as [|levels IH]; intros cap l area k I V C; cbn [build pbuild].
  { apply make_leaf_ok, I. }
  destruct (_ <=? leaf_assets); [apply make_leaf_ok, I |].
  destruct (Nat.ltb_spec cap (length l)) as [H | _]; [lia |].
  destruct (search _ _ _ _ _ _ _) as [[[[c ax] evs] j]|] eqn:S; [| apply make_leaf_ok, I].
  destruct (_ && _); [apply make_leaf_ok, I |].
  apply search_some in S; [| apply longest_axis_lt].
  destruct S as (AX & -> & e & N & _); rewrite N.
  destruct (sides_length ax l j V) as (L1 & L2).
  destruct (Nat.ltb_spec (length l) (length (as_left (sort (events box ax l)) j))); [lia |].
  destruct (Nat.ltb_spec (16 * length l) (length (as_right (sort (events box ax l)) j))); [lia |].
  cbn [orb].
  destruct (numbers_side ax l j V) as (V1 & V2).
  set (ll := as_left _ _) in *; set (lr := as_right _ _) in *.
  set (al := with_hi _ _ _); set (ar := with_lo _ _ _).
  pose proof (IH cap ll al k I V1 ltac:(lia)) as HL.
  destruct (build box sort cost levels cap ll al k) as [[tl k1]| |]; cbn [bind]; [| | exact HL].
  - destruct HL as (-> & E1 & I1 & B1).
    pose proof (IH cap lr ar k1 I1 V2 ltac:(lia)) as HR.
    rewrite E1, app_length, flat_references in HR.
    destruct (build box sort cost levels cap lr ar k1) as [[tr k2]| |]; cbn [bind]; [| | exact HR].
    + destruct HR as (-> & E2 & I2 & B2); cbn [place flat references].
      rewrite E2, app_assoc; split; [reflexivity | split; [reflexivity | split; [exact I2 | lia]]].
    + cbn [references]; lia.
  - cbn [references]; lia.
Qed.

End Cover.
