(* C20: the stack of the traversal overflows on a mesh of moderate size.

   The mesh is a fan: many triangles that share an edge and lie inside the box of
   that edge (the pages of a book), and one triangle elsewhere.  All the boxes of
   the fan are equal, every merge picks the first node again, and the tree is a
   long chain. *)
From Coq Require Import Permutation Sorted Lqa.
From Verif Require Import Common GeomModel AabbModel AabbSpec AabbProofs AabbProps TriModel TriSpec
  TriProofs TriProps BvhModel BvhSpec BvhCombine BvhBuild BvhWalk BvhProps BvhCodes BvhMaterial.
Local Open Scope nat_scope.

Definition page (w : vec) : triangle :=
  let v p := mk_vertex p (V 0 0 1)%Q (0, 0)%Q in
  mk_tri (v (V 0 0 0)%Q) (v (V 1 1 1)%Q) (v w).

(* strictly inside the unit cube *)
Definition within (w : vec) : Prop :=
  (0 < vx w /\ vx w < 1 /\ 0 < vy w /\ vy w < 1 /\ 0 < vz w /\ vz w < 1)%Q.

(* beyond the unit cube on all axes *)
Definition beyond (w : vec) : Prop := (1 < vx w /\ 1 < vy w /\ 1 < vz w)%Q.
Definition tri_beyond (F : triangle) : Prop :=
  beyond (v_p (t_a F)) /\ beyond (v_p (t_b F)) /\ beyond (v_p (t_c F)).

(* ----- the two boxes ----- *)
Definition bx (hi : vec) (l : bool) : aabb :=
  aabb_of (V 0 0 0)%Q (if l then hi else V 1 1 1)%Q.

Lemma qmin_lt : forall a b, (a < b)%Q -> qmin a b = a.
Proof. intros a b H; unfold qmin; destruct (qltb_spec a b); [reflexivity | lra]. Qed.
Lemma qmin_ge : forall a b, (b <= a)%Q -> qmin a b = b.
Proof. intros a b H; unfold qmin; destruct (qltb_spec a b); [lra | reflexivity]. Qed.
Lemma qmax_gt : forall a b, (b < a)%Q -> qmax a b = a.
Proof. intros a b H; unfold qmax; destruct (qltb_spec b a); [reflexivity | lra]. Qed.
Lemma qmax_le : forall a b, (a <= b)%Q -> qmax a b = b.
Proof. intros a b H; unfold qmax; destruct (qltb_spec b a); [lra | reflexivity]. Qed.

Lemma page_box : forall w hi, within w -> tri_aabb (page w) = bx hi false.
Proof.
  intros w hi (A & B & C & D & E & F); unfold tri_aabb, page, bx, pmin, pmax; cbn [t_a t_b t_c v_p vx vy vz].
  change (qmin 0 1)%Q with 0%Q; change (qmax 0 1)%Q with 1%Q.
  rewrite !qmin_lt, !qmax_gt by assumption; reflexivity.
Qed.

Lemma bx_engulf : forall hi a b, beyond hi ->
  engulf (bx hi a) (bx hi b) = bx hi (a || b).
Proof.
  intros hi a b (X & Y & Z); unfold bx; rewrite engulf_of.
  change (pmin (V 0 0 0)%Q (V 0 0 0)%Q) with (V 0 0 0)%Q; f_equal.
  destruct hi as [hx hy hz]; cbn [vx vy vz] in *.
  destruct a, b; cbn [orb]; unfold pmax; cbn [vx vy vz].
  - rewrite !qmax_le by apply Qle_refl; reflexivity.
  - rewrite !qmax_gt by assumption; reflexivity.
  - rewrite !qmax_le by lra; reflexivity.
  - reflexivity.
Qed.

Lemma bx_area : forall hi, beyond hi -> (area (bx hi false) < area (bx hi true))%Q.
Proof.
  intros hi (X & Y & Z); unfold area, bx; rewrite !surface_of; unfold area_of; cbn [vx vy vz].
  assert (XY := mul_mono 1 1 (vx hi) (vy hi) ltac:(lra) ltac:(lra) ltac:(lra) ltac:(lra)).
  assert (XZ := mul_mono 1 1 (vx hi) (vz hi) ltac:(lra) ltac:(lra) ltac:(lra) ltac:(lra)).
  assert (YZ : (1 * 1 < vy hi * vz hi)%Q).
  { apply Qlt_le_trans with (vy hi * 1)%Q; [lra |].
    rewrite !(Qmult_comm (vy hi)). apply Qmult_le_compat_r; lra. }
  assert (E : (vx hi + - 0 == vx hi /\ vy hi + - 0 == vy hi /\ vz hi + - 0 == vz hi)%Q) by (repeat split; lra).
  destruct E as (-> & -> & ->). lra.
Qed.

Lemma bx_fin : forall hi l, beyond hi -> fin_box (bx hi l).
Proof.
  intros hi l (X & Y & Z); unfold bx; eexists; eexists; split; [reflexivity |].
  destruct l; unfold vle; cbn [vx vy vz]; repeat split; lra.
Qed.

Definition inner : vec := V (1 # 2) (1 # 2) (1 # 2).
Lemma bx_inner : forall hi l, beyond hi -> contains (bx hi l) inner.
Proof.
  intros hi l (X & Y & Z); unfold contains, bx, inner; destruct l; cbn; repeat split; lra.
Qed.

(* ----- chains ----- *)
(* k nodes down the first children, all of them around the inner point *)
Fixpoint deep (k : nat) (t : bnode) : Prop :=
  match k with
  | O => True
  | S k => match t with
           | BNode b l _ _ => valid b /\ contains b inner /\ deep k l
           | BLeaf _ _ _ => False
           end
  end.

Lemma deep_less : forall k t m, m <= k -> deep k t -> deep m t.
Proof.
  induction k as [|k IH]; intros t [|m] L H; cbn in *; try exact I; try lia.
  destruct t as [b o n | b l r a]; [destruct H |].
  destruct H as (V1 & C & D); split; [exact V1 |]; split; [exact C |]; apply IH; [lia | exact D].
Qed.

Definition chain (hi : vec) (H : nat) (c : list bnode) : Prop :=
  exists x rest l0 d, c = x :: rest /\ bounding x = bx hi l0 /\ deep d x /\ H <= d + length c /\
    Forall (fun y => exists l, bounding y = bx hi l /\ (l0 = true -> l = true)) rest.

Lemma nth_cons_pos : forall A (x : A) l i d, 0 < i -> nth i (x :: l) d = nth (i - 1) l d.
Proof. intros A x l [|i] d H; [lia |]; cbn; rewrite Nat.sub_0_r; reflexivity. Qed.

Lemma chain_step : forall hi H c il ir axis, beyond hi -> chain hi H c -> best_pair c il ir ->
  chain hi H (merged c il ir axis).
Proof.
  intros hi H c il ir axis B (x & rest & l0 & d & -> & BX & DX & HL & F) (L & R & MIN & FIRST).
  assert (AR := bx_area hi B).
  assert (NB : forall i, 0 < i -> i < length (x :: rest) ->
            exists l, bounding (nth i (x :: rest) dnode) = bx hi l /\ (l0 = true -> l = true)).
  { intros i P Q1; rewrite nth_cons_pos by exact P; rewrite Forall_forall in F.
    apply F, nth_In; cbn [length] in Q1; lia. }
  (* the head is chosen *)
  assert (E0 : il = 0).
  { destruct (Nat.eq_dec il 0) as [| N]; [assumption | exfalso].
    destruct (NB il ltac:(lia) ltac:(lia)) as (a & EA & IA).
    destruct (NB ir ltac:(lia) ltac:(lia)) as (b & EB & IB).
    assert (LT := FIRST 0 il ltac:(lia) ltac:(lia) ltac:(lia)).
    unfold J in LT; rewrite EA, EB in LT; cbn [nth] in LT; rewrite BX, !bx_engulf in LT by exact B.
    destruct l0, a, b; cbn [orb] in LT; try (specialize (IA eq_refl); discriminate); lra. }
  subst il.
  destruct (NB ir ltac:(lia) R) as (b & EB & IB).
  assert (LM := merged_length (x :: rest) 0 ir axis).
  destruct (merged (x :: rest) 0 ir axis) as [|x' rest'] eqn:EM; [cbn [length] in *; lia |].
  assert (HD : x' = interior x (nth ir (x :: rest) dnode) axis).
  { assert (N0 := merged_nth (x :: rest) 0 ir axis 0 L R ltac:(cbn [length] in *; lia)).
    rewrite EM in N0; exact N0. }
  assert (ENG : engulf (engulf aabb_empty (bounding x)) (bounding (nth ir (x :: rest) dnode)) = bx hi b).
  { rewrite BX, EB. change (engulf aabb_empty (bx hi l0)) with (bx hi l0).
    rewrite bx_engulf by exact B; f_equal; destruct l0; [symmetry; apply IB; reflexivity | reflexivity]. }
  exists x', rest', b, (S d); split; [reflexivity |].
  split; [subst x'; cbn [interior bounding]; exact ENG |].
  split.
  { subst x'; unfold interior; rewrite ENG; cbn [deep].
    split; [apply fin_valid, bx_fin, B |]; split; [apply bx_inner, B | exact DX]. }
  split; [cbn [length] in *; lia |].
  (* the others are not smaller than the new head *)
  apply Forall_forall; intros y I; destruct (In_nth _ _ dnode I) as (m & M & EY).
  assert (N1 := merged_nth (x :: rest) 0 ir axis (S m) L R ltac:(cbn [length] in *; lia)).
  rewrite EM in N1; change (nth (S m) (x' :: rest') dnode) with (nth m rest' dnode) in N1.
  rewrite EY in N1; change (S m =? 0) with false in N1; cbv iota in N1; clear EY.
  assert (SRC : exists k, 0 < k /\ k < length (x :: rest) /\ k <> ir /\ y = nth k (x :: rest) dnode).
  { rewrite N1. destruct (Nat.eqb_spec (S m) ir) as [Q1 | Q1].
    - exists (length (x :: rest) - 1); split; [cbn [length] in *; lia |].
      split; [cbn [length] in *; lia |]; split; [cbn [length] in *; lia | reflexivity].
    - exists (S m); split; [lia |]; split; [cbn [length] in *; lia |]; split; [exact Q1 | reflexivity]. }
  destruct SRC as (k & K0 & KL & KN & ->).
  destruct (NB k K0 KL) as (l & EL & IL); exists l; split; [exact EL |].
  intros ->. destruct l; [reflexivity | exfalso].
  assert (LE := MIN 0 k ltac:(cbn [length]; lia) KL ltac:(lia)).
  unfold J in LE; rewrite EL, EB in LE; cbn [nth] in LE; rewrite BX, !bx_engulf in LE by exact B.
  destruct l0; [specialize (IL eq_refl); discriminate |]; cbn [orb] in LE; lra.
Qed.

Lemma chain_runs : forall hi H axis n c c', beyond hi -> runs axis n c c' -> chain hi H c -> chain hi H c'.
Proof.
  intros hi H axis n c c' B R; induction R as [c L | c il ir c' L BP R IH]; intro C; [exact C |].
  apply IH, chain_step; assumption.
Qed.

Lemma chain_app : forall hi H c d, chain hi H c ->
  Forall (fun y => bounding y = bx hi false) c ->
  Forall (fun y => exists l, bounding y = bx hi l) d ->
  chain hi (H + length d) (c ++ d).
Proof.
  intros hi H c d (x & rest & l0 & k & -> & BX & DX & HL & F) FC FD.
  apply Forall_cons_iff in FC; destruct FC as (BX' & FC).
  exists x, (rest ++ d), false, k; split; [reflexivity |]; split; [exact BX' |].
  split; [exact DX |]; split; [cbn [app length] in *; rewrite app_length; lia |].
  apply Forall_app; split.
  - apply Forall_impl with (2 := FC); intros y E; exists false; split; [exact E | discriminate].
  - apply Forall_impl with (2 := FD); intros y (l & E); exists l; split; [exact E | discriminate].
Qed.

(* all the nodes of a cluster of pages have the same box *)
Lemma runs_same : forall hi axis n c c', beyond hi -> runs axis n c c' ->
  Forall (fun y => bounding y = bx hi false) c -> Forall (fun y => bounding y = bx hi false) c'.
Proof.
  intros hi axis n c c' B R; induction R as [c L | c il ir c' L BP R IH]; intro C; [exact C |].
  apply IH; destruct BP as (B1 & B2 & _).
  destruct (merged_shape c il ir axis B1 B2) as (rest & P & Q1).
  set (x := nth il c dnode) in *; set (y := nth ir c dnode) in *.
  rewrite Q1; rewrite P in C.
  apply Forall_cons_iff in C; destruct C as (CX & C).
  apply Forall_cons_iff in C; destruct C as (CY & C).
  apply Forall_cons; [| exact C]; cbn [interior bounding]; rewrite CX, CY.
  change (engulf aabb_empty (bx hi false)) with (bx hi false); apply bx_engulf, B.
Qed.

(* ----- sizes of the clusters built by halving ----- *)
Fixpoint halving (aac : nat -> nat) (fuel len : nat) : nat * nat :=
  match fuel with
  | O => (0, 0)
  | S fuel =>
      if len <? 4 then (1, 1)
      else
        let half := (len - 1) / 2 in
        let l := halving aac fuel half in
        let r := halving aac fuel (len - half) in
        (Nat.min (aac len) (fst l + fst r), snd l + fst r)
  end.

Section Fan.
Variable aac : nat -> nat.
Variable tris : list triangle.
Variable p : list prim.
Variable hi : vec.
Variable n : nat.
Hypothesis aac_pos : forall x, 4 <= x -> 1 <= aac x.
Hypothesis hi_beyond : beyond hi.
(* the first n primitives are pages with code 0 *)
Hypothesis pages : forall i, i < n -> exists q T,
  nth_error p i = Some q /\ pr_morton q = 0%N /\ nth_error tris (pr_index q) = Some T /\
  tri_aabb T = bx hi false.

Lemma leaf_box_pages : forall len offs, offs + len <= n ->
  leaf_box tris p offs len (bx hi false) = Ok (bx hi false).
Proof using aac_pos pages hi_beyond.
  induction len as [|len IH]; intros offs H; cbn [leaf_box]; [reflexivity |].
  destruct (pages offs ltac:(lia)) as (q & T & EQ & _ & ET & EB).
  unfold at_; rewrite EQ; cbn [bind]; rewrite ET; cbn [bind].
  rewrite EB, bx_engulf by exact hi_beyond; apply IH; lia.
Qed.

Lemma makePartition_pages : forall s e m, s < e -> e < n ->
  makePartition p s e m = Ok (s + (e - s) / 2).
Proof using aac_pos pages hi_beyond.
  intros s e m SE EN; unfold makePartition, at_.
  destruct (pages s ltac:(lia)) as (q & _ & EQ & MQ & _).
  destruct (pages e ltac:(lia)) as (q' & _ & EQ' & MQ' & _).
  rewrite EQ; cbn [bind]; rewrite EQ'; cbn [bind]; rewrite MQ, MQ', N.eqb_refl; reflexivity.
Qed.

Lemma traverse_pages : forall fuel offs len bit f2, 0 < len -> offs + len <= n -> len < fuel -> len < f2 ->
  exists c k, traverseTree fuel aac tris p offs len bit = Ok (c, k) /\
    Forall (fun y => bounding y = bx hi false) c /\
    length c = fst (halving aac f2 len) /\ chain hi (snd (halving aac f2 len)) c.
Proof using aac_pos pages hi_beyond.
  induction fuel as [|fuel IH]; intros offs len bit f2 L0 H F F2; [lia |].
  destruct f2 as [|f2]; [lia |].
  cbn [traverseTree halving].
  destruct (Nat.eqb_spec len 0) as [| _]; [lia |].
  destruct (Nat.ltb_spec len aac_delta) as [L4 | L4]; unfold aac_delta in L4.
  - destruct (Nat.ltb_spec len 4); [| lia].
    assert (LB : leaf_box tris p offs len aabb_empty = Ok (bx hi false)).
    { destruct len as [|len]; [lia |]; cbn [leaf_box].
      destruct (pages offs ltac:(lia)) as (q & T & EQ & _ & ET & EB).
      unfold at_; rewrite EQ; cbn [bind]; rewrite ET; cbn [bind]; rewrite EB.
      apply leaf_box_pages; lia. }
    rewrite LB; cbn [bind].
    assert (A := aac_pos aac_delta (le_n _)).
    unfold combineCluster, combine_loop; cbn [length].
    destruct (Nat.ltb_spec (aac aac_delta) 1); [lia |]. cbn [bind fst snd].
    eexists; eexists; split; [reflexivity |].
    change (leaf (bx hi false) offs len) with (BLeaf (bx hi false) offs len).
    split; [apply Forall_cons; [reflexivity | apply Forall_nil] |]; split; [reflexivity |].
    exists (BLeaf (bx hi false) offs len), [], false, 0.
    split; [reflexivity |]; split; [reflexivity |]; split; [exact I |]; split; [cbn; lia | apply Forall_nil].
  - destruct (Nat.ltb_spec len 4); [lia |].
    rewrite makePartition_pages by lia; cbn [bind].
    set (half := (len - 1) / 2).
    assert (HB : 1 <= half /\ half < len) by (unfold half; split; dlia).
    replace (offs + (offs + len - 1 - offs) / 2) with (offs + half)
      by (unfold half; do 2 f_equal; lia).
    replace (offs + half - offs) with half by lia.
    replace (offs + len - (offs + half)) with (len - half) by lia.
    destruct (IH offs half (N.div2 bit) f2 ltac:(lia) ltac:(lia) ltac:(lia) ltac:(lia))
      as (cl & kl & -> & Sl & Ll & Cl).
    destruct (IH (offs + half) (len - half) (N.div2 bit) f2 ltac:(lia) ltac:(lia) ltac:(lia) ltac:(lia))
      as (cr & kr & -> & Sr & Lr & Cr).
    cbn [bind fst snd].
    assert (SA : Forall (fun y => bounding y = bx hi false) (cl ++ cr))
      by (apply Forall_app; split; assumption).
    assert (FA : all_fin (cl ++ cr)).
    { apply Forall_impl with (2 := SA); intros y E; unfold fin_node; rewrite E; apply bx_fin, hi_beyond. }
    destruct (combineCluster_runs (cl ++ cr) (aac len) (bsf bit mod 3) (aac_pos len L4) FA)
      as (c & k & -> & _ & R).
    cbn [bind]; exists c, (kl + kr + k); split; [reflexivity |].
    split; [apply (runs_same hi _ _ _ _ hi_beyond R SA) |].
    split.
    + rewrite (runs_length _ _ _ _ R (aac_pos len L4)), app_length, Ll, Lr; reflexivity.
    + apply (chain_runs hi _ _ _ _ _ hi_beyond R).
      rewrite <- Lr; apply chain_app; [exact Cl | exact Sl |].
      apply Forall_impl with (2 := Sr); intros y E; exists false; exact E.
Qed.

Hypothesis n_big : 5 <= n.
(* the last primitive is elsewhere and its code has the top bit *)
Hypothesis last : exists q T, nth_error p n = Some q /\ length p = S n /\
  N.land (pr_morton q) morton_flag <> 0%N /\ nth_error tris (pr_index q) = Some T /\
  engulf (bx hi false) (tri_aabb T) = bx hi true.

Lemma part_loop_pages : forall fuel m a b, a < b -> b <= n -> b - a < fuel ->
  part_loop fuel p m a b = Ok (b - 1).
Proof using aac_pos pages hi_beyond n_big last.
  induction fuel as [|fuel IH]; intros m a b AB BN F; [lia |]; cbn [part_loop].
  assert (D : (a + b) / 2 < b /\ a <= (a + b) / 2 /\ (b <> a + 1 -> a < (a + b) / 2)) by (repeat split; dlia).
  set (cur := (a + b) / 2) in *; clearbody cur; destruct D as (D1 & D2 & D3).
  destruct (Nat.ltb_spec a cur) as [L | L].
  - destruct (pages cur ltac:(lia)) as (q & T & EQ & MQ & _).
    unfold at_; rewrite EQ; cbn [bind]; rewrite MQ; cbn [N.land N.eqb].
    apply IH; lia.
  - f_equal; lia.
Qed.

Lemma traverse_fan : forall fuel, n + 1 < fuel ->
  exists c k, traverseTree fuel aac tris p 0 (S n) morton_flag = Ok (c, k) /\
    chain hi (snd (halving aac n (n - 1)) + 1) c.
Proof using aac_pos pages hi_beyond n_big last.
  intros [|fuel] F; [lia |]; cbn [traverseTree].
  destruct (Nat.eqb_spec (S n) 0) as [| _]; [lia |].
  destruct (Nat.ltb_spec (S n) aac_delta) as [L4 | L4]; unfold aac_delta in L4; [lia |].
  destruct last as (q & T & EQ & LP & MQ & ET & EG).
  destruct (pages 0 ltac:(lia)) as (q0 & T0 & EQ0 & MQ0 & _).
  destruct (pages (n - 1) ltac:(lia)) as (q1 & T1 & EQ1 & _ & ET1 & EB1).
  assert (MP : makePartition p 0 (0 + S n - 1) morton_flag = Ok (n - 1)).
  { unfold makePartition. replace (0 + S n - 1) with n by lia.
    unfold at_; rewrite EQ0, EQ; cbn [bind]; rewrite MQ0.
    destruct (N.eqb_spec (N.land 0 morton_flag) (N.land (pr_morton q) morton_flag)) as [X | _].
    { exfalso; apply MQ; rewrite <- X; reflexivity. }
    cbn [orb N.eqb]. change (morton_flag =? 0)%N with false; cbv iota.
    rewrite Nat.sub_0_r; apply part_loop_pages; lia. }
  rewrite MP; cbn [bind].
  replace (n - 1 - 0) with (n - 1) by lia; replace (0 + S n - (n - 1)) with 2 by lia.
  destruct (traverse_pages fuel 0 (n - 1) (N.div2 morton_flag) n ltac:(lia) ltac:(lia) ltac:(lia) ltac:(lia))
    as (cl & kl & -> & Sl & Ll & Cl); cbn [bind].
  assert (RT : traverseTree fuel aac tris p (n - 1) 2 (N.div2 morton_flag) =
               Ok ([leaf (bx hi true) (n - 1) 2], 1)).
  { destruct fuel as [|fuel]; [lia |]; cbn [traverseTree].
    change (2 =? 0) with false; change (2 <? aac_delta) with true; cbv iota.
    cbn [leaf_box]. unfold at_; rewrite EQ1; cbn [bind]; rewrite ET1; cbn [bind].
    replace (S (n - 1)) with n by lia. rewrite EQ; cbn [bind]; rewrite ET; cbn [bind].
    rewrite EB1. change (engulf aabb_empty (bx hi false)) with (bx hi false). rewrite EG.
    assert (A := aac_pos aac_delta (le_n _)).
    unfold combineCluster, combine_loop; cbn [length].
    destruct (Nat.ltb_spec (aac aac_delta) 1); [lia |]; reflexivity. }
  rewrite RT; cbn [bind].
  set (rl := leaf (bx hi true) (n - 1) 2).
  assert (BR : bounding rl = bx hi true) by reflexivity. clearbody rl.
  assert (CA : chain hi (snd (halving aac n (n - 1)) + 1) (cl ++ [rl])).
  { change 1 with (length [rl]); apply chain_app; [exact Cl | exact Sl |].
    apply Forall_cons; [exists true; exact BR | apply Forall_nil]. }
  assert (FA : all_fin (cl ++ [rl])).
  { apply Forall_app; split.
    - apply Forall_impl with (2 := Sl); intros y E; unfold fin_node; rewrite E; apply bx_fin, hi_beyond.
    - apply Forall_cons; [unfold fin_node; rewrite BR; apply bx_fin, hi_beyond | apply Forall_nil]. }
  destruct (combineCluster_runs (cl ++ [rl]) (aac (S n)) (bsf morton_flag mod 3)
              (aac_pos (S n) ltac:(lia)) FA) as (c & k & -> & _ & R); cbn [bind].
  exists c, (kl + 1 + k); split; [reflexivity |].
  apply (chain_runs hi _ _ _ _ _ hi_beyond R CA).
Qed.
End Fan.

(* ----- codes and order of the fan ----- *)
Lemma to_u64_int : forall q z, (q == inject_Z z)%Q -> (0 <= z < 2 ^ 64)%Z ->
  to_u64 (Fin q) = Ok (Z.to_N z).
Proof.
  intros q z E R; unfold to_u64.
  assert (EQ : Z.quot (Qnum q) (Z.pos (Qden q)) = z).
  { unfold Qeq in E; cbn [inject_Z Qnum Qden] in E; rewrite Z.mul_1_r in E; rewrite E.
    apply Z.quot_mul; lia. }
  rewrite EQ, (proj2 (Z.leb_le 0 z)) by lia; rewrite (proj2 (Z.ltb_lt z _)) by lia; reflexivity.
Qed.

Lemma coord_low : forall c l h, (c == l -> l < h ->
  coord_code (xmul (Fin (c + - l)) (xrecip (Fin (h + - l)))) = Ok 0%N)%Q.
Proof.
  intros c l h C H; unfold coord_code; cbn [xrecip]; unfold recip.
  destruct (Qeqb_spec (h + - l) 0) as [N | _]; [exfalso; lra |]; cbn [xmul].
  apply (to_u64_int _ 0%Z); [| lia].
  assert (E : (c + - l == 0)%Q) by lra. rewrite E; unfold inject_Z; ring.
Qed.

Lemma coord_high : forall c l h, (c == h -> l < h ->
  coord_code (xmul (Fin (c + - l)) (xrecip (Fin (h + - l)))) = Ok 2097151%N)%Q.
Proof.
  intros c l h C H; unfold coord_code; cbn [xrecip]; unfold recip.
  destruct (Qeqb_spec (h + - l) 0) as [N | _]; [exfalso; lra |]; cbn [xmul].
  apply (to_u64_int _ 2097151%Z); [| lia].
  rewrite C, Qmult_inv_r by lra. unfold inject_Z; ring.
Qed.

Lemma page_middle : forall w k, within w -> k < 3 -> (middle k (page w) == 1 # 2)%Q.
Proof.
  intros w k (A & B & C & D & E & F) K; unfold middle.
  change (co k (v_p (t_c (page w)))) with (co k w).
  assert (E0 : co k (v_p (t_a (page w))) = 0%Q) by (destruct k as [|[|k]]; reflexivity).
  assert (E1 : co k (v_p (t_b (page w))) = 1%Q) by (destruct k as [|[|k]]; reflexivity).
  rewrite E0, E1. change (qmin 0 1)%Q with 0%Q; change (qmax 0 1)%Q with 1%Q.
  assert (R : (0 < co k w /\ co k w < 1)%Q) by (destruct k as [|[|[|k]]]; cbn [co]; tauto || lia).
  rewrite qmin_lt, qmax_gt by apply R; reflexivity.
Qed.

Lemma beyond_middle : forall F k, tri_beyond F -> k < 3 -> (1 < middle k F)%Q.
Proof.
  intros F k ((A1 & A2 & A3) & (B1 & B2 & B3) & (C1 & C2 & C3)) K; unfold middle.
  assert (R : forall v, beyond v -> (1 < co k v)%Q).
  { intros v (X & Y & Z); destruct k as [|[|[|k]]]; cbn [co]; try assumption; lia. }
  assert (A := R (v_p (t_a F)) (conj A1 (conj A2 A3))).
  assert (B := R (v_p (t_b F)) (conj B1 (conj B2 B3))).
  assert (C := R (v_p (t_c F)) (conj C1 (conj C2 C3))).
  clear - A B C; set (a := co k (v_p (t_a F))) in *; set (b := co k (v_p (t_b F))) in *;
    set (c := co k (v_p (t_c F))) in *; clearbody a b c.
  assert (M : (1 < qmin (qmin a b) c)%Q)
    by (unfold qmin; destruct (qltb_spec a b); [destruct (qltb_spec a c) | destruct (qltb_spec b c)]; assumption).
  assert (M2 : (c <= qmax (qmax a b) c)%Q) by apply qmax_r.
  lra.
Qed.

Definition fan (ws : list vec) (F : triangle) : list triangle := map page ws ++ [F].
Definition top_code : N := (2 ^ 63 - 1)%N.

Lemma fan_codes : forall ws F, ws <> [] -> Forall within ws -> tri_beyond F ->
  morton_codes (fan ws F) = Ok (repeat 0%N (length ws) ++ [top_code]).
Proof.
  intros ws F NE W TB; unfold morton_codes.
  assert (NF : fan ws F <> []) by (unfold fan; destruct (map page ws); discriminate).
  destruct (centre_box (fan ws F) NF) as (l & h & -> & B).
  assert (INF : In F (fan ws F)) by (apply in_or_app; right; left; reflexivity).
  assert (INP : forall w, In w ws -> In (page w) (fan ws F))
    by (intros w I; apply in_or_app; left; apply in_map, I).
  assert (CASE : forall T, In T (fan ws F) -> T = F \/ exists w, In w ws /\ T = page w).
  { intros T I; apply in_app_or in I; destruct I as [I | [<- | []]]; [right | left; reflexivity].
    apply in_map_iff in I; destruct I as (w & <- & I); exists w; split; [exact I | reflexivity]. }
  rewrite Forall_forall in W.
  assert (LH : forall k, k < 3 -> (co k l == 1 # 2)%Q /\ (co k h == middle k F)%Q).
  { intros k K; destruct (B k) as (R & (T1 & I1 & E1) & (T2 & I2 & E2)).
    assert (FM := beyond_middle F k TB K).
    destruct ws as [|w0 ws0]; [contradiction |].
    assert (R0 := R (page w0) (INP w0 (or_introl eq_refl))).
    assert (M0 := page_middle w0 k (W w0 (or_introl eq_refl)) K).
    assert (RF := R F INF). rewrite co_middle in R0, RF, E1, E2 by exact K.
    split.
    - destruct (CASE T1 I1) as [-> | (w & Iw & ->)]; [exfalso; lra |].
      rewrite E1; apply page_middle; [apply W, Iw | exact K].
    - destruct (CASE T2 I2) as [-> | (w & Iw & ->)]; [exact E2 |].
      assert (M := page_middle w k (W w Iw) K); exfalso; lra. }
  destruct (LH 0 ltac:(lia)) as (LX & HX); destruct (LH 1 ltac:(lia)) as (LY & HY);
    destruct (LH 2 ltac:(lia)) as (LZ & HZ); cbn [co] in *.
  assert (FX := beyond_middle F 0 TB ltac:(lia)); assert (FY := beyond_middle F 1 TB ltac:(lia));
    assert (FZ := beyond_middle F 2 TB ltac:(lia)).
  clear - W LX LY LZ HX HY HZ FX FY FZ.
  cbn [aabb_of b_lo b_hi xvsub xvec_of xx xy xz xsub xadd xopp].
  unfold fan; induction ws as [|w ws IH]; cbn [map app codes_of length repeat].
  - rewrite center_centre; unfold mortonCode; cbn [xvec_of xx xy xz xvmul xvsub xsub xadd xopp].
    rewrite (coord_high (vx (centre F)) (vx l) (vx h));
      [| cbn [centre vx]; symmetry; exact HX | lra].
    rewrite (coord_high (vy (centre F)) (vy l) (vy h));
      [| cbn [centre vy]; symmetry; exact HY | lra].
    rewrite (coord_high (vz (centre F)) (vz l) (vz h));
      [| cbn [centre vz]; symmetry; exact HZ | lra].
    reflexivity.
  - rewrite IH by (intros v I; apply W; right; exact I).
    rewrite center_centre; unfold mortonCode; cbn [xvec_of xx xy xz xvmul xvsub xsub xadd xopp].
    assert (P := fun k => page_middle w k (W w (or_introl eq_refl))).
    rewrite (coord_low (vx (centre (page w))) (vx l) (vx h));
      [| cbn [centre vx]; rewrite LX; apply P; lia | lra].
    rewrite (coord_low (vy (centre (page w))) (vy l) (vy h));
      [| cbn [centre vy]; rewrite LY; apply P; lia | lra].
    rewrite (coord_low (vz (centre (page w))) (vz l) (vz h));
      [| cbn [centre vz]; rewrite LZ; apply P; lia | lra].
    reflexivity.
Qed.

Lemma fan_order : forall n p, let codes := repeat 0%N n ++ [top_code] in
  Permutation (prims_of codes) p -> Sorted (fun a b => (pr_morton a <= pr_morton b)%N) p ->
  nth_error p n = Some (mk_prim n top_code) /\ length p = S n /\
  forall i, i < n -> exists j, j < n /\ nth_error p i = Some (mk_prim j 0).
Proof.
  intros n p codes P SR.
  assert (LC : length codes = S n) by (unfold codes; rewrite app_length, repeat_length; cbn; lia).
  assert (LP : length (prims_of codes) = S n).
  { unfold prims_of; rewrite map_length, combine_length, seq_length; lia. }
  assert (CN : forall i, i < n -> nth i codes 0%N = 0%N).
  { intros i I; unfold codes; rewrite app_nth1 by (rewrite repeat_length; exact I). apply nth_repeat. }
  assert (CT : nth n codes 0%N = top_code).
  { unfold codes; rewrite app_nth2 by (rewrite repeat_length; lia).
    rewrite repeat_length, Nat.sub_diag; reflexivity. }
  assert (INV : forall q, In q p -> q = mk_prim n top_code \/ exists j, j < n /\ q = mk_prim j 0).
  { intros q I; apply (Permutation_in q (Permutation_sym P)) in I.
    destruct (In_nth_error _ _ I) as (j & J).
    assert (JL : j < length (prims_of codes)) by (apply nth_error_Some; congruence).
    rewrite prims_nth in J by lia; injection J as <-.
    destruct (Nat.eq_dec j n) as [-> | N]; [left; rewrite CT; reflexivity |].
    right; exists j; split; [lia |]; rewrite CN by lia; reflexivity. }
  assert (FAR : In (mk_prim n top_code) p).
  { apply (Permutation_in _ P); apply nth_error_In with n; rewrite prims_nth by lia; rewrite CT; reflexivity. }
  assert (ND : NoDup p).
  { apply (NoDup_map_inv pr_index).
    apply (Permutation_NoDup (Permutation_sym (prims_indices codes p P))), seq_NoDup. }
  assert (LPP : length p = S n) by (rewrite <- LP; symmetry; apply Permutation_length, P).
  destruct (in_split _ _ FAR) as (p1 & p2 & E); subst p.
  assert (ND2 := NoDup_remove_2 _ _ _ ND).
  assert (P2 : p2 = []).
  { destruct p2 as [|y p2]; [reflexivity | exfalso].
    assert (R := Sorted_adjacent _ _ (p1 ++ mk_prim n top_code :: y :: p2) (length p1)
                   (mk_prim n top_code) y SR).
    rewrite nth_error_app2, Nat.sub_diag in R by lia.
    rewrite nth_error_app2 in R by lia. replace (S (length p1) - length p1) with 1 in R by lia.
    specialize (R eq_refl eq_refl).
    destruct (INV y) as [-> | (j & _ & ->)].
    - apply in_or_app; right; right; left; reflexivity.
    - apply ND2, in_or_app; right; left; reflexivity.
    - cbn in R; unfold top_code in R; lia. }
  subst p2.
  assert (L1 : length p1 = n) by (rewrite app_length in LPP; cbn in LPP; lia).
  split; [rewrite nth_error_app2, L1, Nat.sub_diag by lia; reflexivity |].
  split; [exact LPP |].
  intros i I; destruct (nth_error p1 i) as [q |] eqn:EQ; [| apply nth_error_None in EQ; lia].
  rewrite nth_error_app1, EQ by lia.
  assert (IQ := nth_error_In _ _ EQ).
  destruct (INV q) as [-> | (j & J & ->)]; [apply in_or_app; left; exact IQ | |].
  - exfalso; apply ND2; rewrite app_nil_r; exact IQ.
  - exists j; split; [exact J | reflexivity].
Qed.

(* ----- going down the chain ----- *)
Lemma deep_size : forall k t, deep k t -> k < size t.
Proof.
  induction k as [|k IH]; intros t D; [destruct t; cbn; lia |].
  destruct t as [b o m | b l r a]; [destruct D |]; cbn [size].
  destruct D as (_ & _ & D); specialize (IH l D); lia.
Qed.

Lemma walk_overflow : forall masked b r t0, on_ray r t0 inner ->
  (0 < vx (r_d r) /\ 0 < vy (r_d r) /\ 0 < vz (r_d r))%Q ->
  forall k fuel node t jobs s, encodes (bv_nodes b) node t -> deep k t -> k <= fuel ->
  rs_found s = false -> length jobs <= 32 -> 32 < length jobs + k ->
  walk fuel masked b r node jobs s = UB.
Proof.
  intros masked b r t0 ON (DX & DY & DZ) k; induction k as [|k IH];
    intros fuel node t jobs s E D F FO L K; [lia |].
  destruct fuel as [|fuel]; [lia |]; cbn [walk].
  destruct t as [bb o m | bb l rr a]; [destruct D |]; cbn [deep] in D.
  destruct D as (VB & CB & D); cbn [encodes] in E; destruct E as (sb & EN & E1 & E2).
  unfold node_at; rewrite EN; cbn [bind fn_box fn_len fn_axis fn_link].
  destruct (slab_never_misses bb r t0 inner VB ON CB) as ([dmin dmax] & -> & _).
  rewrite FO; cbn [andb negb]; change (0 <? 0) with false; cbv iota.
  unfold bvh_max_depth.
  destruct (Nat.ltb_spec (length jobs) 32) as [LJ | LJ]; [| reflexivity].
  assert (NG : neg_axis (ray_properties r) a = false).
  { assert (P : forall nz d, (0 < d)%Q -> xlt (recip nz d) (Fin 0) = false).
    { intros nz d PD; rewrite recip_pos by exact PD; cbn [xlt]; apply qltb_ge.
      apply Qlt_le_weak, Qinv_lt_0_compat, PD. }
    unfold neg_axis, ray_properties; cbn [neg_x neg_y neg_z].
    destruct a as [|[|a]]; apply P; assumption. }
  rewrite NG; apply (IH fuel (S node) l); [exact E1 | exact D | lia | exact FO | cbn; lia | cbn; lia].
Qed.

(* C20 is false: the fan of any 700 third vertices strictly inside the cube, with
   any triangle beyond it, overflows the stack for every ray of positive direction
   through the middle of the cube, whatever order the sort leaves. *)
Lemma fan_overflow : forall sort ws F, sorts sort -> Forall within ws -> tri_beyond F ->
  5 <= length ws -> 33 <= snd (halving aac_f (length ws) (length ws - 1)) ->
  exists b, buildTree sort aac_f (fan ws F) = Ok b /\
    forall masked r t D h, on_ray r t inner ->
      (0 < vx (r_d r) /\ 0 < vy (r_d r) /\ 0 < vz (r_d r))%Q ->
      bvh_intersect masked b r D h = UB.
Proof.
  intros sort ws F SO W TB NB HB.
  assert (NE : ws <> []) by (intros ->; cbn in NB; lia).
  assert (EC := fan_codes ws F NE W TB).
  assert (LF : length (fan ws F) = S (length ws))
    by (unfold fan; rewrite app_length, map_length; cbn; lia).
  assert (EB : buildTree sort aac_f (fan ws F) =
    build_sorted aac_f (fan ws F) (sort (prims_of (repeat 0%N (length ws) ++ [top_code])))).
  { unfold buildTree; rewrite EC, bind_ok.
    destruct (Nat.ltb_spec (length (fan ws F)) aac_delta) as [X | _]; [unfold aac_delta in X; lia |].
    reflexivity. }
  rewrite EB; clear EB.
  destruct (SO (prims_of (repeat 0%N (length ws) ++ [top_code]))) as (P & SR).
  set (p := sort _) in *; clearbody p.
  destruct (fan_order (length ws) p P SR) as (PN & LP & PI).
  destruct (build_sorted_ok aac_f (fan ws F) (repeat 0%N (length ws) ++ [top_code]) p aac_f_pos
              ltac:(lia) ltac:(rewrite app_length, repeat_length, LF; cbn; lia) P)
    as (arr & rt & root & EB & _ & _ & Y & SZ & _ & _ & c & k & ET & RN).
  exists (mk_bvh arr rt); split; [exact EB |].
  set (hi := pmax (pmax (v_p (t_a F)) (v_p (t_b F))) (v_p (t_c F))).
  assert (HBY : beyond hi).
  { destruct TB as (A & _ & _); unfold hi, beyond, pmax; cbn [vx vy vz].
    destruct A as (A1 & A2 & A3).
    assert (M : forall a b c, (1 < a -> 1 < qmax (qmax a b) c)%Q).
    { intros a b c2 A; apply Qlt_le_trans with a; [exact A |].
      apply Qle_trans with (qmax a b); apply qmax_l. }
    split; [apply M, A1 | split; [apply M, A2 | apply M, A3]]. }
  assert (NTH : forall i T, nth_error (fan ws F) i = Some T -> i < length ws ->
            tri_aabb T = bx hi false).
  { intros i T N I; unfold fan in N; rewrite nth_error_app1 in N by (rewrite map_length; exact I).
    rewrite nth_error_map in N. destruct (nth_error ws i) as [w |] eqn:EW; [| discriminate].
    injection N as <-; apply page_box. rewrite Forall_forall in W; apply W, nth_error_In with i, EW. }
  destruct (traverse_fan aac_f (fan ws F) p hi (length ws) aac_f_pos HBY) with (fuel := 64 + length (fan ws F))
    as (c' & k' & ET' & CH).
  - intros i I; destruct (PI i I) as (j & J & EQ).
    destruct (nth_error (fan ws F) j) as [T |] eqn:EJ; [| apply nth_error_None in EJ; lia].
    exists (mk_prim j 0), T; split; [exact EQ |]; split; [reflexivity |]; split; [exact EJ |].
    exact (NTH j T EJ J).
  - exact NB.
  - exists (mk_prim (length ws) top_code), F; split; [exact PN |]; split; [exact LP |].
    split; [vm_compute; discriminate |].
    split; [cbn [pr_index]; unfold fan; rewrite nth_error_app2, map_length, Nat.sub_diag
              by (rewrite map_length; lia); reflexivity |].
    unfold tri_aabb, bx; rewrite engulf_of; fold hi.
    assert (LO : pmin (V 0 0 0)%Q (pmin (pmin (v_p (t_a F)) (v_p (t_b F))) (v_p (t_c F))) = V 0 0 0%Q).
    { destruct TB as ((A1 & A2 & A3) & (B1 & B2 & B3) & (C1 & C2 & C3)).
      assert (M : forall a b c, (1 < a -> 1 < b -> 1 < c -> 0 < qmin (qmin a b) c)%Q).
      { intros a b c2 A B C; unfold qmin; destruct (qltb_spec a b); [destruct (qltb_spec a c2) | destruct (qltb_spec b c2)]; lra. }
      unfold pmin; cbn [vx vy vz]; rewrite !qmin_lt by (apply M; assumption); reflexivity. }
    assert (HI : pmax (V 1 1 1)%Q hi = hi).
    { destruct HBY as (X & Y2 & Z); clearbody hi; destruct hi as [a b2 c2]; unfold pmax; cbn [vx vy vz] in *.
      rewrite !qmax_le by lra; reflexivity. }
    rewrite LO, HI; reflexivity.
  - lia.
  - rewrite LF in ET, ET'; rewrite ET in ET'; injection ET' as <- <-.
    assert (CR := chain_runs hi _ _ _ _ _ HBY RN CH).
    destruct CR as (x & rest & l0 & d & EX & _ & DX & HL & _).
    injection EX as <- <-; cbn [length] in HL.
    intros masked r t D h ON DIR; unfold bvh_intersect; cbn [bv_nodes].
    apply (walk_overflow masked (mk_bvh arr rt) r t ON DIR d (S (length arr)) 0 root [] _).
    + apply layout_encodes, Y.
    + exact DX.
    + assert (DS := deep_size d root DX); lia.
    + reflexivity.
    + cbn; lia.
    + cbn [length]; lia.
Qed.

Theorem bvh_stack_overflow_refuted : forall sort ws F, sorts sort -> length ws = 700 ->
  Forall within ws -> tri_beyond F ->
  exists b, buildTree sort aac_f (fan ws F) = Ok b /\
    forall masked r t D h, on_ray r t inner ->
      (0 < vx (r_d r) /\ 0 < vy (r_d r) /\ 0 < vz (r_d r))%Q ->
      bvh_intersect masked b r D h = UB.
Proof.
  intros sort ws F SO L W TB; apply fan_overflow; try assumption; [lia |].
  rewrite L. replace (snd (halving aac_f 700 (700 - 1))) with 37 by (vm_compute; reflexivity). lia.
Qed.
Print Assumptions bvh_stack_overflow_refuted.

Definition pages700 : list vec :=
  map (fun i => V (1 # Pos.of_nat (i + 2)) (1 # 2) (1 # 3)) (seq 0 700).
Example bvh_stack_case :
  sorts isort /\ length pages700 = 700 /\ Forall within pages700 /\ tri_beyond (tri_at 5 6 7) /\
  on_ray (mk_ray (V (-1) (-1) (-1)) (V 1 1 1) (false, false, false)) (3 # 2) inner.
Proof.
  split; [exact isort_sorts |].
  split; [unfold pages700; rewrite map_length, seq_length; reflexivity |].
  split; [| split].
  - apply Forall_forall; intros w I; apply in_map_iff in I; destruct I as (i & <- & _).
    unfold within; cbn [vx vy vz].
    assert (P : (2 <= Z.pos (Pos.of_nat (i + 2)))%Z) by lia.
    unfold Qlt; cbn [Qnum Qden]; repeat split; lia.
  - unfold tri_beyond, beyond, tri_at; cbn; repeat split; reflexivity.
  - unfold on_ray, inner; cbn; repeat split; reflexivity.
Qed.
