(* Intersecting a ray with the array of a bounding volume hierarchy. *)
From Coq Require Import Permutation Lqa.
From Verif Require Import Common GeomModel AabbModel AabbSpec AabbProofs AabbProps
  TriModel TriSpec TriProofs TriProps BvhModel BvhSpec BvhCombine BvhBuild.
Local Open Scope nat_scope.

(* two hit points that differ only in what a triangle overwrites *)
Definition same_du (h h' : hit) : Prop :=
  h_du h = h_du h' /\ h_dv h = h_dv h' /\ h_diff h = h_diff h'.

Lemma xlt_PInf : forall q, xlt PInf (Fin q) = false.
Proof. reflexivity. Qed.

Lemma tri_intersect_alone : forall masked T r D h h0, same_du h h0 ->
  match tri_intersect masked T r PInf h0 with
  | None => tri_intersect masked T r D h = None
  | Some (d, h') =>
      if xlt D (Fin d) then tri_intersect masked T r D h = None
      else exists h2, tri_intersect masked T r D h = Some (d, h2) /\
             forall i, with_index h2 i = with_index h' i
  end.
Proof.
  intros masked T r D h h0 (S1 & S2 & S3); unfold tri_intersect.
  destruct (Qeq_bool _ 0); [reflexivity |].
  destruct (_ || _); [reflexivity |].
  destruct (_ || _); [reflexivity |].
  set (dist := (_ * _)%Q). cbv zeta.
  destruct (qltb dist self_err); cbn [orb]; [reflexivity |].
  rewrite xlt_PInf; rewrite <- S1, <- S3.
  destruct (masked _).
  { destruct (xlt D (Fin dist)); reflexivity. }
  destruct (xlt D (Fin dist)) eqn:E; [reflexivity |].
  eexists; split; [reflexivity |]; intro i; unfold with_index; cbn. rewrite S2; reflexivity.
Qed.

Lemma with_index_du : forall h i, same_du (with_index h i) h.
Proof. intros; repeat split. Qed.

Lemma tri_intersect_du : forall masked T r D h d h', tri_intersect masked T r D h = Some (d, h') ->
  same_du h' h.
Proof.
  intros masked T r D h d h'; unfold tri_intersect.
  destruct (Qeq_bool _ 0); [discriminate |].
  destruct (_ || _); [discriminate |].
  destruct (_ || _); [discriminate |].
  destruct (_ || _); [discriminate |].
  cbv zeta; destruct (masked _); [discriminate |].
  intro E; injection E as _ <-; repeat split.
Qed.

Lemma same_du_trans : forall a b c, same_du a b -> same_du b c -> same_du a c.
Proof. unfold same_du; intros a b c (A1 & A2 & A3) (B1 & B2 & B3); repeat split; congruence. Qed.

Lemma closest_ext : forall masked tris r D h (P Q : nat -> Prop) s, (forall i, P i <-> Q i) ->
  closest masked tris r D h P s -> closest masked tris r D h Q s.
Proof.
  intros masked tris r D h P Q s E; unfold closest; destruct (rs_found s).
  - intros (i & T & d & h' & I & N & TI & DI & LE & HI & M).
    exists i, T, d, h'; do 5 (split; [first [assumption | apply E; assumption] |]).
    split; [assumption |]. intros j Tj dj J; apply M, E, J.
  - intros (A & B & M); split; [exact A |]; split; [exact B |]; intros j Tj dj J; apply M, E, J.
Qed.

Lemma closest_du : forall masked tris r D h P s, closest masked tris r D h P s ->
  same_du (rs_hit s) h.
Proof.
  intros masked tris r D h P s; unfold closest; destruct (rs_found s).
  - intros (i & T & d & h' & _ & _ & TI & _ & _ & -> & _).
    apply same_du_trans with h'; [apply with_index_du |]. exact (tri_intersect_du _ _ _ _ _ _ _ TI).
  - intros (_ & -> & _); repeat split.
Qed.

(* positions that hold nothing closer can be added *)
Lemma closest_skip : forall masked tris r D h (P Q : nat -> Prop) s,
  closest masked tris r D h P s ->
  (forall j Tj dj, Q j -> nth_error tris j = Some Tj -> hit_at masked r h Tj = Some dj ->
     rs_found s = true /\ exists d, rs_dist s = Fin d /\ (d <= dj)%Q) ->
  closest masked tris r D h (fun i => P i \/ Q i) s.
Proof.
  intros masked tris r D h P Q s C H; unfold closest in *; destruct (rs_found s).
  - destruct C as (i & T & d & h' & I & N & TI & DI & LE & HI & M).
    exists i, T, d, h'; split; [left; exact I |].
    do 5 (split; [assumption |]). intros j Tj dj [J | J] NJ HJ; [apply (M j Tj); assumption |].
    destruct (H j Tj dj J NJ HJ) as (_ & d2 & E2 & L2). rewrite DI in E2; injection E2 as <-; exact L2.
  - destruct C as (A & B & M); split; [exact A |]; split; [exact B |].
    intros j Tj dj [J | J] NJ HJ; [apply (M j Tj); assumption |].
    destruct (H j Tj dj J NJ HJ) as (F & _); discriminate.
Qed.

Lemma closest_step : forall masked tris r D h P s i T,
  closest masked tris r D h P s -> nth_error tris i = Some T ->
  closest masked tris r D h (fun j => P j \/ j = i)
    match tri_intersect masked T r (rs_dist s) (rs_hit s) with
    | Some (d, h') => mk_rs true (Fin d) (with_index h' i)
    | None => s
    end.
Proof.
  intros masked tris r D h P s i T C N.
  assert (A := tri_intersect_alone masked T r (rs_dist s) (rs_hit s) h (closest_du _ _ _ _ _ _ _ C)).
  destruct (tri_intersect masked T r PInf h) as [[d h'] |] eqn:TI.
  2:{ rewrite A. apply closest_skip; [exact C |].
      intros j Tj dj -> NJ HJ; rewrite N in NJ; injection NJ as <-.
      unfold hit_at in HJ; rewrite TI in HJ; discriminate. }
  destruct (xlt (rs_dist s) (Fin d)) eqn:X.
  - rewrite A; unfold closest in *; destruct (rs_found s).
    + destruct C as (k & T' & d0 & h0 & I & N' & TI' & DI & LE & HI & M).
      rewrite DI in X; cbn [xlt] in X; apply qltb_lt in X.
      exists k, T', d0, h0; split; [left; exact I |]; do 5 (split; [assumption |]).
      intros j Tj dj [J | ->] NJ HJ; [apply (M j Tj); assumption |].
      rewrite N in NJ; injection NJ as <-; unfold hit_at in HJ; rewrite TI in HJ.
      injection HJ as <-; apply Qlt_le_weak; exact X.
    + destruct C as (A1 & B & M); split; [exact A1 |]; split; [exact B |].
      intros j Tj dj [J | ->] NJ HJ; [apply (M j Tj); assumption |].
      rewrite N in NJ; injection NJ as <-; unfold hit_at in HJ; rewrite TI in HJ.
      injection HJ as <-; rewrite <- A1; exact X.
  - destruct A as (h2 & -> & W).
    unfold closest; cbn [rs_found rs_dist rs_hit].
    exists i, T, d, h'; split; [right; reflexivity |]; split; [exact N |]; split; [exact TI |].
    split; [reflexivity |].
    unfold closest in C; destruct (rs_found s).
    + destruct C as (k & T' & d0 & h0 & I & N' & TI' & DI & LE & HI & M).
      rewrite DI in X; cbn [xlt] in X. assert (X' : (d <= d0)%Q) by (apply qltb_ge; exact X).
      split; [| split; [apply W |]].
      * clear - LE X'; destruct D as [D | | |]; cbn [xlt] in *; try congruence.
        apply qltb_ge in LE; apply qltb_ge; lra.
      * intros j Tj dj [J | ->] NJ HJ; [apply Qle_trans with d0; [exact X' | exact (M j Tj dj J NJ HJ)] |].
        rewrite N in NJ; injection NJ as <-; unfold hit_at in HJ; rewrite TI in HJ.
        injection HJ as <-; apply Qle_refl.
    + destruct C as (A1 & B & M); rewrite A1 in X.
      split; [exact X |]; split; [apply W |].
      intros j Tj dj [J | ->] NJ HJ.
      * assert (L := M j Tj dj J NJ HJ).
        clear - L X; destruct D as [D | | |]; cbn [xlt] in *; try congruence.
        apply qltb_lt in L; apply qltb_ge in X; lra.
      * rewrite N in NJ; injection NJ as <-; unfold hit_at in HJ; rewrite TI in HJ.
        injection HJ as <-; apply Qle_refl.
Qed.

Lemma hit_in_box : forall masked r h T d b, hit_at masked r h T = Some d -> valid b ->
  inside_of (tri_aabb T) b ->
  exists i, intersect2 b r (ray_properties r) = Some i /\ not_after (fst i) d.
Proof.
  intros masked r h T d b H V I; unfold hit_at in H.
  destruct (tri_intersect masked T r PInf h) as [[d' h'] |] eqn:E; [| discriminate].
  injection H as ->.
  destruct (tri_hit_sound _ _ _ _ _ _ _ E) as (_ & w & u & v & (W & R) & _).
  destruct (slab_never_misses b r d _ V R (I _ (tri_box_contains T w u v W))) as (i & E1 & A & _).
  exists i; split; assumption.
Qed.

Lemma leaf_loop_closest : forall masked tris r D h len offset P s,
  offset + len <= length tris -> closest masked tris r D h P s ->
  exists s', leaf_loop masked tris r offset len s = Ok s' /\
    closest masked tris r D h (fun i => P i \/ offset <= i < offset + len) s'.
Proof.
  intros masked tris r D h len; induction len as [|len IH]; intros offset P s L C; cbn [leaf_loop].
  { exists s; split; [reflexivity |]. apply closest_ext with (2 := C); intro i.
    split; [intro; left; assumption | intros [H | H]; [exact H | lia]]. }
  destruct (nth_error tris offset) as [T |] eqn:N; [| apply nth_error_None in N; lia].
  unfold at_; rewrite N; cbn [bind].
  assert (C1 := closest_step masked tris r D h P s offset T C N).
  destruct (IH (S offset) _ _ ltac:(lia) C1) as (s' & E & C2).
  exists s'; split; [exact E |].
  apply closest_ext with (2 := C2); intro i; split; intro H.
  - destruct H as [[H | H] | H]; [left; exact H | right; lia | right; lia].
  - destruct H as [H | H]; [left; left; exact H |].
    destruct (Nat.eq_dec i offset); [left; right; assumption | right; lia].
Qed.

(* trees waiting on the stack, top first *)
Fixpoint fits (l : list bnode) : Prop :=
  match l with
  | [] => True
  | t :: l => height t + length l <= bvh_max_depth /\ fits l
  end.

Definition sound (tris : list triangle) (t : bnode) : Prop :=
  full t /\ encloses tris t /\ (forall i, In i (members t) -> i < length tris).

Lemma sound_sub : forall tris b l r a, sound tris (BNode b l r a) -> sound tris l /\ sound tris r.
Proof.
  intros tris b l r a ((Fl & Fr) & (_ & _ & El & Er) & M); cbn [members] in M.
  split; (split; [assumption |]; split; [assumption |]); intros i I; apply M, in_or_app; auto.
Qed.

Lemma encloses_valid : forall tris t, encloses tris t -> valid (bounding t).
Proof. intros tris [b o n | b l r a] (H & _); exact H. Qed.

Lemma members_leaf : forall b o n i, In i (members (BLeaf b o n)) <-> o <= i < o + n.
Proof. intros; cbn; apply in_seq. Qed.

Lemma walk_closest : forall masked b r D h fuel t node ts jobs P s,
  list_sum (map size (t :: ts)) <= fuel -> fits (t :: ts) ->
  encodes (bv_nodes b) node t -> Forall2 (encodes (bv_nodes b)) jobs ts ->
  Forall (sound (bv_tris b)) (t :: ts) ->
  closest masked (bv_tris b) r D h P s ->
  exists s', walk fuel masked b r node jobs s = Ok s' /\
    closest masked (bv_tris b) r D h (fun i => P i \/ In i (mem (t :: ts))) s'.
Proof.
  intros masked b r D h fuel; induction fuel as [|fuel IH];
    intros t node ts jobs P s F FT E ES SD C.
  { exfalso; destruct t; cbn in F; lia. }
  assert (SD0 := SD); apply Forall_cons_iff in SD; destruct SD as ((FU & EN & MB) & SDS).
  destruct FT as (HT & FTS).
  (* once the current tree is done, the rest of the stack follows *)
  assert (NEXT : forall s1, closest masked (bv_tris b) r D h (fun i => P i \/ In i (members t)) s1 ->
    exists s', match jobs with [] => Ok s1 | j :: js => walk fuel masked b r j js s1 end = Ok s' /\
      closest masked (bv_tris b) r D h (fun i => P i \/ In i (mem (t :: ts))) s').
  { intros s1 C1; inversion ES as [| j t' js ts' E1 ES1]; subst.
    - exists s1; split; [reflexivity |]. apply closest_ext with (2 := C1).
      intro i; cbn [mem flat_map]; rewrite app_nil_r; tauto.
    - destruct (IH t' j ts' js _ s1
                  ltac:(cbn [map] in *; unfold list_sum in *; cbn [fold_right] in *; destruct t; cbn [size] in *; lia)
                  FTS E1 ES1 SDS C1) as (s' & W & C2).
      exists s'; split; [exact W |]. apply closest_ext with (2 := C2).
      intro i; unfold mem; cbn [flat_map]; rewrite !in_app_iff; tauto. }
  cbn [walk].
  assert (NB : exists n, node_at b node = Ok n /\ fn_box n = bounding t /\
    match t with
    | BLeaf _ o k => fn_len n = k /\ fn_link n = o
    | BNode _ l rr a => fn_len n = 0 /\ fn_axis n = Some a /\
        encodes (bv_nodes b) (S node) l /\ encodes (bv_nodes b) (fn_link n) rr
    end).
  { unfold node_at; destruct t as [bx o k | bx l rr a]; cbn [encodes] in E.
    - rewrite E; eexists; split; [reflexivity |]; split; [reflexivity |]; split; reflexivity.
    - destruct E as (sb & E & E1 & E2); rewrite E; eexists; split; [reflexivity |].
      split; [reflexivity |]; split; [reflexivity |]; split; [reflexivity |]; split; assumption. }
  destruct NB as (n & -> & BX & NB); cbn [bind].
  assert (VB := encloses_valid _ _ EN). assert (IN := encloses_tris _ _ EN).
  rewrite BX.
  destruct (intersect2 (bounding t) r (ray_properties r)) as [[dmin dmax] |] eqn:IX.
  2:{ apply NEXT, closest_skip; [exact C |].
      intros j Tj dj J NJ HJ; exfalso.
      destruct (hit_in_box masked r h Tj dj (bounding t) HJ VB (IN j Tj J NJ)) as (i & E1 & _).
      congruence. }
  destruct (rs_found s && xlt (rs_dist s) dmin) eqn:PR; cbn [negb].
  { apply NEXT, closest_skip; [exact C |].
    intros j Tj dj J NJ HJ.
    destruct (hit_in_box masked r h Tj dj (bounding t) HJ VB (IN j Tj J NJ)) as (i & E1 & A).
    rewrite IX in E1; injection E1 as <-; cbn [fst] in A.
    apply andb_true_iff in PR; destruct PR as (FD & X); split; [exact FD |].
    unfold closest in C; rewrite FD in C.
    destruct C as (k & T' & d0 & h0 & _ & _ & _ & DI & _).
    exists d0; split; [exact DI |]; rewrite DI in X; unfold not_after in A.
    destruct dmin as [m | | |]; cbn in *; try discriminate.
    apply qltb_lt in X; apply qltb_ge in A; lra. }
  destruct t as [bx o k | bx l rr a].
  - destruct NB as (-> & ->); cbn [full] in FU.
    destruct (Nat.ltb_spec 0 k); [| lia].
    destruct (leaf_loop_closest masked (bv_tris b) r D h k o P s) as (s1 & -> & C1).
    { assert (M := MB (o + k - 1)); rewrite members_leaf in M; lia. }
    { exact C. }
    cbn [bind]; apply NEXT. apply closest_ext with (2 := C1); intro i.
    rewrite members_leaf; tauto.
  - destruct NB as (-> & AX & E1 & E2); change (0 <? 0) with false; cbv iota.
    rewrite AX. cbn [height] in HT.
    assert (LJ : length jobs = length ts)
      by (clear - ES; induction ES; cbn; [reflexivity | congruence]).
    unfold bvh_max_depth in *.
    destruct (Nat.ltb_spec (length jobs) 32); [| lia].
    assert (SS := sound_sub _ _ _ _ _ (Forall_inv SD0)).
    assert (F' : size l + size rr + list_sum (map size ts) <= fuel)
      by (unfold list_sum in *; cbn [map fold_right size] in F; lia).
    destruct (neg_axis _ a).
    + destruct (IH rr (fn_link n) (l :: ts) (S node :: jobs) P s) as (s' & W & C2).
      * unfold list_sum in *; cbn [map fold_right]; lia.
      * cbn [fits length]; unfold bvh_max_depth; split; [lia |]; split; [lia | exact FTS].
      * exact E2.
      * apply Forall2_cons; assumption.
      * apply Forall_cons; [tauto |]; apply Forall_cons; [tauto | exact SDS].
      * exact C.
      * exists s'; split; [exact W |]; apply closest_ext with (2 := C2).
        intro i; unfold mem; cbn [flat_map members]; rewrite !in_app_iff; tauto.
    + destruct (IH l (S node) (rr :: ts) (fn_link n :: jobs) P s) as (s' & W & C2).
      * unfold list_sum in *; cbn [map fold_right]; lia.
      * cbn [fits length]; unfold bvh_max_depth; split; [lia |]; split; [lia | exact FTS].
      * exact E1.
      * apply Forall2_cons; assumption.
      * apply Forall_cons; [tauto |]; apply Forall_cons; [tauto | exact SDS].
      * exact C.
      * exists s'; split; [exact W |]; apply closest_ext with (2 := C2).
        intro i; unfold mem; cbn [flat_map members]; rewrite !in_app_iff; tauto.
Qed.

Lemma intersect_closest : forall masked nodes tris root r D h,
  layout nodes 0 root -> length nodes = size root -> sound tris root ->
  height root <= bvh_max_depth ->
  exists s, bvh_intersect masked (mk_bvh nodes tris) r D h = Ok s /\
    closest masked tris r D h (fun i => In i (members root)) s.
Proof.
  intros masked nodes tris root r D h Y L SD H; unfold bvh_intersect; cbn [bv_nodes].
  destruct (walk_closest masked (mk_bvh nodes tris) r D h (S (length nodes)) root 0 [] []
              (fun _ => False) (mk_rs false D h)) as (s & E & C).
  - cbn; lia.
  - cbn [fits length]; split; [lia | exact I].
  - apply layout_encodes; exact Y.
  - constructor.
  - apply Forall_cons; [exact SD | apply Forall_nil].
  - cbn; split; [reflexivity |]; split; [reflexivity |]; contradiction.
  - exists s; split; [exact E |]; apply closest_ext with (2 := C).
    intro i; unfold mem; cbn [flat_map]; rewrite app_nil_r; tauto.
Qed.
