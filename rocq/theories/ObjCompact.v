(* C36: the compaction of the materials of a mesh. *)
From Verif Require Import Common MeshModel ObjModel.
From Coq Require Permutation.
Local Open Scope nat_scope.

Lemma upd_length : forall A (l : list A) i x, i < length l -> length (upd l i x) = length l.
Proof. intros A l i x H. unfold upd. rewrite app_length, firstn_length. cbn [length]. rewrite skipn_length. lia. Qed.

Lemma nth_error_upd_eq : forall A (l : list A) i x, i < length l -> nth_error (upd l i x) i = Some x.
Proof.
  intros A l i x H. unfold upd. rewrite nth_error_app2 by (rewrite firstn_length; lia).
  rewrite firstn_length. replace (i - Nat.min i (length l)) with 0 by lia. reflexivity.
Qed.

Lemma nth_error_upd_neq : forall A (l : list A) i j x, i < length l -> i <> j -> nth_error (upd l i x) j = nth_error l j.
Proof.
  intros A l i j x H N. unfold upd. destruct (Nat.lt_ge_cases j i) as [L | L].
  - rewrite nth_error_app1 by (rewrite firstn_length; lia).
    rewrite <- (firstn_skipn i l) at 2. rewrite nth_error_app1 by (rewrite firstn_length; lia). reflexivity.
  - rewrite nth_error_app2 by (rewrite firstn_length; lia). rewrite firstn_length.
    replace (j - Nat.min i (length l)) with (S (j - S i)) by lia. cbn [nth_error].
    rewrite <- (firstn_skipn (S i) l) at 2. rewrite nth_error_app2 by (rewrite firstn_length; lia).
    rewrite firstn_length. f_equal. lia.
Qed.

Lemma nth_upd : forall A (l : list A) i j x d, i < length l -> nth j (upd l i x) d = if j =? i then x else nth j l d.
Proof.
  intros A l i j x d H. destruct (Nat.eqb_spec j i) as [-> | E].
  - apply nth_error_nth. now apply nth_error_upd_eq.
  - destruct (nth_error l j) as [y |] eqn:K.
    + rewrite (nth_error_nth l j d K). apply nth_error_nth. rewrite nth_error_upd_neq; auto.
    + apply nth_error_None in K. rewrite !nth_overflow; auto. now rewrite upd_length.
Qed.

(* the array count: the numbers given so far are 0 .. used-1, each to one material of
   the list [seen] *)
Definition count_inv (seen : list N) (st : list (option N) * N) : Prop :=
  let (count, used) := st in
  length count = 256 /\
  (forall a, In a seen -> exists k, nth (N.to_nat a) count None = Some k) /\
  (forall i k, nth i count None = Some k -> (k < used)%N /\ In (N.of_nat i) seen) /\
  (forall i j k, nth i count None = Some k -> nth j count None = Some k -> i = j) /\
  (forall k, (k < used)%N -> exists i, nth i count None = Some k).

Lemma nth_repeat_none : forall n i, nth i (repeat (@None N) n) None = None.
Proof. induction n as [| n IH]; intros [| i]; cbn; auto. Qed.

Lemma count_inv_0 : count_inv [] (repeat None 256, 0%N).
Proof.
  unfold count_inv. split; [apply repeat_length |]. split; [intros a [] |].
  split; [intros i k H; now rewrite nth_repeat_none in H |].
  split; [intros i j k H; now rewrite nth_repeat_none in H |]. intros k H. lia.
Qed.

Lemma count_step_inv : forall seen st a, count_inv seen st -> (a < 256)%N -> count_inv (seen ++ [a]) (count_step st a).
Proof.
  intros seen [count used] a (L & S1 & S2 & S3 & S4) Ha. unfold count_step.
  destruct (nth (N.to_nat a) count None) as [k |] eqn:E.
  - unfold count_inv. split; [exact L |]. split.
    + intros b Hb. apply in_app_iff in Hb. destruct Hb as [Hb | [<- | []]]; [auto | eauto].
    + split; [| split; auto]. intros i k' H. destruct (S2 i k' H). rewrite in_app_iff. auto.
  - assert (La : N.to_nat a < length count) by lia.
    unfold count_inv. rewrite upd_length by exact La. split; [exact L |]. split; [| split; [| split]].
    + intros b Hb. rewrite nth_upd by exact La. destruct (Nat.eqb_spec (N.to_nat b) (N.to_nat a)) as [E' | E']; [eauto |].
      apply in_app_iff in Hb. destruct Hb as [Hb | [<- | []]]; [auto | congruence].
    + intros i k H. rewrite nth_upd in H by exact La. rewrite in_app_iff. destruct (Nat.eqb_spec i (N.to_nat a)) as [-> | E'].
      * injection H as <-. split; [lia |]. right. left. lia.
      * destruct (S2 i k H). split; [lia | auto].
    + intros i j k Hi Hj. rewrite nth_upd in Hi, Hj by exact La.
      destruct (Nat.eqb_spec i (N.to_nat a)) as [-> | Ei], (Nat.eqb_spec j (N.to_nat a)) as [-> | Ej]; auto.
      * injection Hi as <-. destruct (S2 _ _ Hj). lia.
      * injection Hj as <-. destruct (S2 _ _ Hi). lia.
      * eauto.
    + intros k Hk. destruct (N.eq_dec k used) as [-> | Nk].
      * exists (N.to_nat a). rewrite nth_upd by exact La. now rewrite Nat.eqb_refl.
      * destruct (S4 k ltac:(lia)) as (i & Hi). exists i. rewrite nth_upd by exact La.
        destruct (Nat.eqb_spec i (N.to_nat a)) as [-> | Ei]; [congruence | exact Hi].
Qed.

Lemma count_used_inv : forall assoc, Forall (fun a => a < 256)%N assoc -> count_inv assoc (count_used assoc).
Proof.
  intros assoc H. unfold count_used.
  assert (G : forall l seen st, Forall (fun a => a < 256)%N l -> count_inv seen st -> count_inv (seen ++ l) (fold_left count_step l st)).
  { clear. induction l as [| a l IH]; intros seen st F I; cbn [fold_left].
    - now rewrite app_nil_r.
    - inversion_clear F as [| ? ? F1 F2]. replace (seen ++ a :: l) with ((seen ++ [a]) ++ l) by (rewrite <- app_assoc; reflexivity).
      apply IH; [exact F2 |]. now apply count_step_inv. }
  apply (G assoc []); [exact H | exact count_inv_0].
Qed.

(* pigeonhole: as many numbers as there are different materials *)
Lemma used_bound : forall count used n, (forall i k, nth i count None = Some k -> i < n) ->
  (forall k, (k < used)%N -> exists i, nth i count None = Some k) -> (N.to_nat used <= n)%nat.
Proof.
  intros count used n H1 H2.
  assert (E : exists f : nat -> nat, forall k, k < N.to_nat used -> nth (f k) count None = Some (N.of_nat k)).
  { clear H1. assert (D : forall m, m <= N.to_nat used -> exists f : nat -> nat, forall k, k < m -> nth (f k) count None = Some (N.of_nat k)).
    { induction m as [| m IH]; intros Hm; [exists (fun _ => 0); intros; lia |].
      destruct IH as (f & Hf); [lia |]. destruct (H2 (N.of_nat m) ltac:(lia)) as (i & Hi).
      exists (fun k => if k =? m then i else f k). intros k Hk. destruct (Nat.eqb_spec k m) as [-> | E]; [exact Hi |]. apply Hf. lia. }
    apply D. lia. }
  destruct E as (f & Hf).
  assert (Inj : NoDup (map f (seq 0 (N.to_nat used)))).
  { assert (G : forall m, m <= N.to_nat used -> NoDup (map f (seq 0 m))).
    { induction m as [| m IH]; intros Hm; [constructor |]. rewrite seq_S, map_app. cbn [map].
      apply (Permutation.Permutation_NoDup (l := f m :: map f (seq 0 m))).
      - apply Permutation.Permutation_cons_append.
      - constructor; [| apply IH; lia]. intros K. apply in_map_iff in K. destruct K as (x & Ex & Hx). apply in_seq in Hx.
        pose proof (Hf x ltac:(lia)) as A. pose proof (Hf m ltac:(lia)) as Bm. rewrite Ex in A. rewrite A in Bm. injection Bm. lia. }
    apply G. lia. }
  pose proof (NoDup_incl_length Inj (l' := seq 0 n)) as K. rewrite map_length, !seq_length in K. apply K.
  intros x Hx. apply in_map_iff in Hx. destruct Hx as (k & <- & Hk). apply in_seq in Hk. apply in_seq.
  specialize (H1 (f k) _ (Hf k ltac:(lia))). lia.
Qed.

Lemma move_ok : forall B (old : list B) count0 used,
  (forall i k, nth i count0 None = Some k -> (k < used)%N /\ i < length old) ->
  (forall i j k, nth i count0 None = Some k -> nth j count0 None = Some k -> i = j) ->
  forall count i out, (forall j, nth j count None = nth (i + j) count0 None) -> length out = N.to_nat used ->
  (forall j k, j < i -> nth j count0 None = Some k -> nth_error out (N.to_nat k) = Some (nth_error old j)) ->
  exists out', move_materials old i count out = Ok out' /\ length out' = N.to_nat used /\
    (forall j k, j < i + length count -> nth j count0 None = Some k -> nth_error out' (N.to_nat k) = Some (nth_error old j)).
Proof.
  intros B old count0 used C1 C2. induction count as [| c count IH]; intros i out Hc Lo Ho.
  - exists out. split; [reflexivity |]. split; [exact Lo |]. intros j k Hj. apply Ho. cbn in Hj. lia.
  - assert (Hn : forall j, nth j count None = nth (S i + j) count0 None).
    { intros j. specialize (Hc (S j)). cbn [nth] in Hc. rewrite Hc. f_equal. lia. }
    assert (H0 : c = nth i count0 None) by (specialize (Hc 0); cbn [nth] in Hc; rewrite Hc; f_equal; lia).
    cbn [move_materials]. destruct c as [k |].
    + symmetry in H0. destruct (C1 i k H0) as [Hk Hi]. destruct (nth_error old i) as [b |] eqn:Eb.
      2: { apply nth_error_None in Eb. lia. }
      replace (N.to_nat k <? length out) with true by (symmetry; apply Nat.ltb_lt; lia).
      destruct (IH (S i) (upd out (N.to_nat k) (Some b)) Hn) as (out' & E & L' & O').
      * rewrite upd_length; lia.
      * intros j k' Hj Hk'. destruct (Nat.eq_dec j i) as [-> | Nj].
        -- assert (k' = k) by congruence. subst k'. rewrite nth_error_upd_eq by lia. now rewrite Eb.
        -- assert (k' <> k) by (intros ->; apply Nj; eauto). rewrite nth_error_upd_neq by lia. apply Ho; [lia | exact Hk'].
      * exists out'. split; [exact E |]. split; [exact L' |]. intros j k' Hj. apply O'. cbn in Hj. lia.
    + destruct (IH (S i) out Hn Lo) as (out' & E & L' & O').
      * intros j k' Hj Hk'. destruct (Nat.eq_dec j i) as [-> | Nj]; [congruence |]. apply Ho; [lia | exact Hk'].
      * exists out'. split; [exact E |]. split; [exact L' |]. intros j k' Hj. apply O'. cbn in Hj. lia.
Qed.

Lemma compact_ok : forall B (mats : list B) assoc,
  Forall (fun a => (a < 256)%N /\ N.to_nat a < length mats) assoc ->
  exists mats' assoc', compact mats assoc = Ok (mats', assoc') /\ length assoc' = length assoc /\
    (forall i a, nth_error assoc i = Some a -> get_material mats' assoc' i = Ok (nth_error mats (N.to_nat a))) /\
    (forall m, In m mats' -> exists a b, In a assoc /\ m = Some b /\ nth_error mats (N.to_nat a) = Some b) /\
    length mats' <= Nat.min 256 (length mats) /\ (assoc <> [] -> mats' <> []).
Proof.
  intros B mats assoc H. unfold compact.
  assert (H1 : Forall (fun a => a < 256)%N assoc) by (eapply Forall_impl; [| exact H]; cbn; tauto).
  pose proof (count_used_inv assoc H1) as I. destruct (count_used assoc) as [count used]. destruct I as (L & S1 & S2 & S3 & S4).
  assert (IN : forall i k, nth i count None = Some k -> (k < used)%N /\ i < length mats).
  { intros i k E. destruct (S2 i k E) as [K1 K2]. split; [exact K1 |]. rewrite Forall_forall in H. apply H in K2. lia. }
  destruct (move_ok B mats count used IN S3 count 0 (repeat None (N.to_nat used))) as (out & E & Lo & Oo).
  - reflexivity.
  - apply repeat_length.
  - intros j k Hj. lia.
  - rewrite E. cbn [bind]. eexists _, _. split; [reflexivity |]. split; [apply map_length |].
    assert (LT : forall j k, nth j count None = Some k -> j < 256).
    { intros j k Hj. destruct (Nat.lt_ge_cases j 256) as [Hl | Hl]; [exact Hl |]. rewrite nth_overflow in Hj by lia. discriminate. }
    split; [| split; [| split]].
    + intros i a Ha. unfold get_material. rewrite nth_error_map, Ha. cbn [option_map].
      destruct (S1 a) as (k & Hk); [eapply nth_error_In; eauto |]. rewrite Hk.
      rewrite (Oo (N.to_nat a) k); [reflexivity | | exact Hk]. rewrite L. cbn [Nat.add]. eauto.
    + intros m Hm. apply In_nth_error in Hm. destruct Hm as (k & Hk).
      assert (Lk : k < N.to_nat used) by (rewrite <- Lo; apply nth_error_Some; congruence).
      destruct (S4 (N.of_nat k) ltac:(lia)) as (i & Hi). assert (Li : i < 0 + length count) by (rewrite L; cbn [Nat.add]; eauto). pose proof (Oo i _ Li Hi) as K.
      rewrite Nat2N.id, Hk in K. injection K as ->. destruct (S2 _ _ Hi) as [_ Hin]. destruct (IN _ _ Hi) as [_ Lm].
      destruct (nth_error mats i) as [b |] eqn:Eb; [| apply nth_error_None in Eb; lia].
      exists (N.of_nat i), b. split; [exact Hin |]. split; [reflexivity |]. now rewrite Nat2N.id.
    + rewrite Lo. apply Nat.min_glb; apply (used_bound count); auto. intros i k Hi. now apply IN in Hi.
    + intros NE. destruct assoc as [| a assoc]; [congruence |]. destruct (S1 a) as (k & Hk); [now left |].
      destruct (IN _ _ Hk). intros ->. cbn in Lo. lia.
Qed.
