(* Coverage by the leaves and traversal of the kd-tree. *)
From Coq Require Import Permutation Sorted.
From Coq Require Import Lqa.
From Verif Require Import Common GeomModel AabbModel AabbSpec AabbProofs AabbProps BitsModel
     BitsProofs KdAddModel KdAddProps KdModel KdSpec KdBuild.
Local Open Scope nat_scope.

Section Cover.
Context {A : Type} (box : A -> aabb).
Variable sort : list (event A) -> list (event A).
Hypothesis SORT : sorts sort.

Lemma grown_height : forall n l t, grown box sort n l t -> kheight t <= n.
Proof using. intros n l t G; induction G; cbn [kheight]; lia. Qed.

Lemma size_height : forall (t : ktree A) n, kheight t <= n -> tsize t + 1 <= 2 ^ (n + 1).
Proof using.
  induction t as [l | k s l IHl r IHr]; intros n H; cbn [kheight tsize] in *.
  - replace (n + 1) with (S n) by lia; cbn [Nat.pow]; pose proof (Nat.pow_nonzero 2 n ltac:(lia)); lia.
  - destruct n as [|n]; [lia |].
    specialize (IHl n ltac:(lia)); specialize (IHr n ltac:(lia)).
    replace (S n + 1) with (S (n + 1)) by lia; cbn [Nat.pow]; lia.
Qed.

Lemma grown_lists : forall n l t, grown box sort n l t -> numbers box l ->
  forall planes ls a p, In (planes, ls) (leaves t) -> In a l -> contains (box a) p ->
  strictly_inside p planes -> In a ls.
Proof using SORT.
  intros n l t G; induction G as [n l | n l k j e tl tr K N F1 F2 GL IHL GR IHR];
    intros V planes ls a p I IA C S; cbn [leaves] in I.
  - destruct I as [E | []]; injection E as <- <-; exact IA.
  - destruct (numbers_side box sort SORT k l j V) as (V1 & V2).
    apply in_app_or in I; destruct I as [I | I]; apply in_map_iff in I;
      destruct I as ((pl & ls') & E & I); cbn in E; injection E as <- <-;
      inversion S as [| ? ? S1 S2]; subst; cbn in S1.
    + apply (IHL V1 pl ls' a p); try assumption.
      apply (side_left box sort SORT k l j e a p); assumption.
    + apply (IHR V2 pl ls' a p); try assumption.
      apply (side_right box sort SORT k l j e a p); assumption.
Qed.

Lemma grown_only : forall n l t, grown box sort n l t -> numbers box l ->
  forall planes ls a, In (planes, ls) (leaves t) -> In a ls ->
  In a l /\ reaches (box a) planes.
Proof using SORT.
  intros n l t G; induction G as [n l | n l k j e tl tr K N F1 F2 GL IHL GR IHR];
    intros V planes ls a I IA; cbn [leaves] in I.
  - destruct I as [E | []]; injection E as <- <-; split; [exact IA | constructor].
  - destruct (numbers_side box sort SORT k l j V) as (V1 & V2).
    apply in_app_or in I; destruct I as [I | I]; apply in_map_iff in I;
      destruct I as ((pl & ls') & E & I); cbn in E; injection E as <- <-.
    + destruct (IHL V1 pl ls' a I IA) as (IL & R); split.
      * apply (sides_incl box sort SORT k l j a V); left; exact IL.
      * constructor; [| exact R].
        apply (side_left_reaches box sort SORT k l j e a); assumption.
    + destruct (IHR V2 pl ls' a I IA) as (IL & R); split.
      * apply (sides_incl box sort SORT k l j a V); right; exact IL.
      * constructor; [| exact R].
        apply (side_right_reaches box sort SORT k l j e a); assumption.
Qed.

Lemma opens_first_incl : forall l l', opens_first box sort l ->
  (forall a, In a l' -> In a l) -> opens_first box sort l'.
Proof using.
  intros l l' O INC k l'' a I1 I2; apply (O k l'' a); [| exact I2]; intros b B; auto.
Qed.

Lemma opens_first_side : forall k l j, numbers box l -> opens_first box sort l ->
  opens_first box sort (as_left (sort (events box k l)) j) /\
  opens_first box sort (as_right (sort (events box k l)) j).
Proof using SORT.
  intros k l j V O; split; apply (opens_first_incl l); try exact O; intros a I;
    apply (sides_incl box sort SORT k l j a V); auto.
Qed.

Lemma grown_some : forall n l t, grown box sort n l t -> numbers box l ->
  opens_first box sort l -> forall a, In a l -> In a (flat t).
Proof using SORT.
  intros n l t G; induction G as [n l | n l k j e tl tr K N F1 F2 GL IHL GR IHR];
    intros V O a I; cbn [flat]; [exact I |].
  destruct (numbers_side box sort SORT k l j V) as (V1 & V2).
  destruct (opens_first_side k l j V O) as (O1 & O2).
  apply in_or_app; destruct (side_some box sort k l j a O I) as [H | H]; auto.
Qed.

(* at least as many references as assets, when no asset is lost *)
Lemma as_left_right_count : forall k l j, numbers box l -> opens_first box sort l ->
  NoDup l ->
  length l <= length (as_left (sort (events box k l)) j) +
              length (as_right (sort (events box k l)) j).
Proof using.
  intros k l j V O D; rewrite <- app_length; apply NoDup_incl_length; [exact D |].
  intros a I; apply in_or_app; apply (side_some box sort k l j a O I).
Qed.

(* the leaves whose closed region contains the point *)
Fixpoint reach (p : vec) (t : ktree A) (a : A) : Prop :=
  match t with
  | TLeaf l => In a l
  | TNode k s l r =>
      (above s (coord k p) /\ reach p l a) \/ (below s (coord k p) /\ reach p r a)
  end.

Lemma grown_reach : forall n l t, grown box sort n l t -> numbers box l ->
  opens_first box sort l ->
  forall a p, In a l -> contains (box a) p -> reach p t a.
Proof using SORT.
  intros n l t G; induction G as [n l | n l k j e tl tr K N F1 F2 GL IHL GR IHR];
    intros V O a p I C; cbn [reach]; [exact I |].
  destruct (numbers_side box sort SORT k l j V) as (V1 & V2).
  destruct (opens_first_side k l j V O) as (O1 & O2).
  destruct (ev_pos e) as [s| | |] eqn:E; cbn in F1, F2; try discriminate.
  destruct (Q_dec (coord k p) s) as [[L | L] | EQ]; cbn.
  - left; split; [lra |]; apply IHL; try assumption.
    apply (side_left box sort SORT k l j e a p); try assumption.
    rewrite E; cbn; apply qltb_lt; exact L.
  - right; split; [lra |]; apply IHR; try assumption.
    apply (side_right box sort SORT k l j e a p); try assumption.
    rewrite E; cbn; apply qltb_lt; exact L.
  - destruct (side_some box sort k l j a O I) as [H | H].
    + left; split; [lra |]; apply IHL; assumption.
    + right; split; [lra |]; apply IHR; assumption.
Qed.

(* planes are at faces of assets *)
Fixpoint planes_ok (P : nat -> Q -> Prop) (t : ktree A) : Prop :=
  match t with
  | TLeaf _ => True
  | TNode k s l r => k < 3 /\ (exists q, s = Fin q /\ P k q) /\ planes_ok P l /\ planes_ok P r
  end.

Lemma grown_planes : forall n l t, grown box sort n l t -> numbers box l ->
  planes_ok (fun k q => exists a, In a l /\
               (projl k (box a) = Fin q \/ projh k (box a) = Fin q)) t.
Proof using SORT.
  assert (M : forall (P Q : nat -> Q -> Prop) t, (forall k q, P k q -> Q k q) ->
                planes_ok P t -> planes_ok Q t).
  { intros P Q t PQ; induction t; cbn; [auto |].
    intros (K & (q & E & H) & L & R); repeat split; auto. exists q; auto. }
  intros n l t G; induction G as [n l | n l k j e tl tr K N F1 F2 GL IHL GR IHR];
    intros V; cbn [planes_ok]; [exact I |].
  destruct (numbers_side box sort SORT k l j V) as (V1 & V2).
  split; [exact K | split; [| split]].
  - destruct (ev_pos e) as [s| | |] eqn:E; cbn in F1, F2; try discriminate.
    exists s; split; [reflexivity |].
    destruct (SORT (events box k l)) as (P & _).
    { intros x X; apply (events_no_nan box k l); assumption. }
    apply nth_error_In in N; apply (Permutation_in _ (Permutation_sym P)) in N.
    apply events_in in N; destruct N as (a & I & [-> | ->]); exists a; cbn in E; auto.
  - apply (M _ _ tl) with (2 := IHL V1); intros k' q (a & I & H); exists a; split; [| exact H].
    apply (sides_incl box sort SORT k l j a V); auto.
  - apply (M _ _ tr) with (2 := IHR V2); intros k' q (a & I & H); exists a; split; [| exact H].
    apply (sides_incl box sort SORT k l j a V); auto.
Qed.
End Cover.

(* ----- traversal ----- *)

Lemma kn_leaf_word : forall o n, (N.of_nat n < 2 ^ 31)%N ->
  kd_isLeaf (kn_word (kn_leaf o n)) = true /\
  N.to_nat (kd_getAssetsNumber (kn_word (kn_leaf o n))) = n.
Proof.
  intros o n H; destruct (kd_leaf_pf 0 (N.of_nat n) H) as (A & _ & B).
  unfold kn_word, kn_leaf; cbn [kn_data].
  unfold kd_isLeaf, kd_getAssetsNumber in *; cbn [kd_data] in *.
  rewrite A, B, Nat2N.id; auto.
Qed.

Lemma kn_interior_word : forall s k c, k < 3 -> (N.of_nat c < 2 ^ 29)%N ->
  kd_isLeaf (kn_word (kn_interior s k c)) = false /\
  N.to_nat (kd_getAxis (kn_word (kn_interior s k c))) = k /\
  N.to_nat (kd_getOtherChildOffset (kn_word (kn_interior s k c))) = c.
Proof.
  intros s k c K C; destruct (kd_interior_pf 0 (Z.of_nat k) (N.of_nat c) ltac:(lia) C)
    as (A & B & _ & D).
  unfold kn_word, kn_interior; cbn [kn_data].
  unfold kd_isLeaf, kd_getAxis, kd_getOtherChildOffset in *; cbn [kd_data] in *.
  rewrite A, B, D, Nat2N.id; split; [reflexivity | split; [lia | reflexivity]].
Qed.

Section Walk.
Context {A : Type} (box : A -> aabb).
Variable asset_intersect : A -> ray -> xq -> option Q.
Variable t : kdtree A.
Hypothesis SMALL : (N.of_nat (length (kt_nodes t)) <= 2 ^ 16)%N.
Hypothesis FEW : (N.of_nat (length (kt_assets t)) <= 4096)%N.
Variable r : ray.

Definition axes : ktree A -> Prop := planes_ok (fun _ _ => True).

Lemma leaf_loop_ok : forall l o found best,
  firstn (length l) (skipn o (kt_assets t)) = l ->
  exists ans, kd_leaf_loop box asset_intersect (kt_assets t) r (ray_properties r) o (length l)
                found best = Ok ans.
Proof using.
  induction l as [|a l IH]; intros o found best F; cbn [length kd_leaf_loop]; [eauto |].
  assert (N : nth_error (kt_assets t) o = Some a).
  { rewrite <- (Nat.add_0_r o), <- nth_error_skipn.
    destruct (skipn o (kt_assets t)); cbn in F |- *; [discriminate |]; congruence. }
  assert (F' : firstn (length l) (skipn (S o) (kt_assets t)) = l).
  { rewrite <- (Nat.add_1_r o); rewrite <- skipn_skipn.
    destruct (skipn o (kt_assets t)); cbn in F |- *; [discriminate |]; congruence. }
  rewrite N; destruct (intersect2 _ _ _) as [[m M]|]; [| apply IH, F'].
  destruct (xlt m best); [| apply IH, F'].
  destruct (asset_intersect a r best); apply IH, F'.
Qed.

Lemma child_small : forall T i, encodes (kt_nodes t) (kt_assets t) i T -> (N.of_nat i < 2 ^ 29)%N.
Proof using SMALL.
  intros T i E; assert (L : i < length (kt_nodes t)).
  { apply nth_error_Some; destruct T; cbn [encodes] in E.
    - destruct E as (o & N & _); congruence.
    - destruct E as (c & N & _); congruence. }
  clear - L SMALL. change (2 ^ 16)%N with 65536%N in SMALL; change (2 ^ 29)%N with 536870912%N. lia.
Qed.

Lemma leaf_small : forall (l : list A) o, firstn (length l) (skipn o (kt_assets t)) = l ->
  (N.of_nat (length l) < 2 ^ 31)%N.
Proof using FEW.
  intros l o F; assert (L : length l <= length (kt_assets t)).
  { rewrite <- F at 1; rewrite firstn_length, skipn_length; clear; lia. }
  clear - L FEW; change (2 ^ 31)%N with 2147483648%N; lia.
Qed.

(* the stack: indices with the trees they stand for; [m] jobs lie below *)
Fixpoint pending (jobs : list (nat * xq * xq)) (ts : list (ktree A)) : Prop :=
  match jobs, ts with
  | [], [] => True
  | (n, _, _) :: jobs, T :: ts =>
      encodes (kt_nodes t) (kt_assets t) n T /\ axes T /\
      length jobs + kheight T <= kd_max_depth /\ pending jobs ts
  | _, _ => False
  end.

Definition work (ts : list (ktree A)) : nat := list_sum (map tsize ts).

Lemma tsize_pos : forall (T : ktree A), 1 <= tsize T.
Proof using. destruct T; cbn; apply le_n_S, Nat.le_0_l. Qed.

Lemma walk_ok : forall fuel n T mint maxt jobs ts found best,
  encodes (kt_nodes t) (kt_assets t) n T -> axes T ->
  length jobs + kheight T <= kd_max_depth -> pending jobs ts ->
  tsize T + work ts <= fuel ->
  exists ans, kd_walk box asset_intersect fuel t r (ray_properties r) n mint maxt jobs found best
              = Ok ans.
Proof using SMALL FEW.
  induction fuel as [|fuel IH]; intros n T mint maxt jobs ts found best E AX H P W.
  { pose proof (tsize_pos T); lia. }
  cbn [kd_walk]; destruct (xlt best mint); [eauto |].
  destruct T as [l | k s tl tr]; cbn [encodes] in E.
  - destruct E as (o & N & F); rewrite N.
    destruct (kn_leaf_word o (length l) (leaf_small l o F)) as (W1 & W2).
    rewrite W1, W2; cbn [kn_union kn_leaf].
    destruct (leaf_loop_ok l o found best F) as ((found' & best') & EL); rewrite EL; cbn [bind].
    destruct jobs as [|[[n' m'] M'] jobs]; [eauto |].
    destruct ts as [|T' ts]; cbn [pending] in P; [tauto |].
    destruct P as (E' & A' & H' & P').
    apply (IH n' T' m' M' jobs ts); try assumption.
    cbn [tsize] in W; unfold work in *; cbn [map] in W.
    unfold list_sum in *; cbn [fold_right] in W; lia.
  - destruct E as (c & N & EL & ER); rewrite N.
    destruct AX as (K & _ & AL & AR).
    destruct (kn_interior_word s k c K (child_small _ _ ER)) as (W1 & W2 & W3).
    rewrite W1, W2, W3; cbn [kn_union kn_interior kheight tsize] in *.
    set (lb := xlt (Fin (coord k (r_o r))) s || _).
    set (near := if lb then S n else c); set (far := if lb then c else S n).
    set (Tn := if lb then tl else tr); set (Tf := if lb then tr else tl).
    assert (EN : encodes (kt_nodes t) (kt_assets t) near Tn) by (unfold near, Tn; destruct lb; assumption).
    assert (EF : encodes (kt_nodes t) (kt_assets t) far Tf) by (unfold far, Tf; destruct lb; assumption).
    assert (AN : axes Tn) by (unfold Tn; destruct lb; assumption).
    assert (AF : axes Tf) by (unfold Tf; destruct lb; assumption).
    assert (HN : kheight Tn <= Nat.max (kheight tl) (kheight tr)) by (unfold Tn; destruct lb; lia).
    assert (HF : kheight Tf <= Nat.max (kheight tl) (kheight tr)) by (unfold Tf; destruct lb; lia).
    assert (SZ : tsize Tn + tsize Tf = tsize tl + tsize tr) by (unfold Tn, Tf; destruct lb; lia).
    set (planet := xmul _ _).
    destruct (_ || xge (Fin 0) planet).
    { apply (IH near Tn mint maxt jobs ts); try assumption; lia. }
    destruct (xlt planet mint).
    { apply (IH far Tf mint maxt jobs ts); try assumption; lia. }
    unfold kd_max_depth in *.
    destruct (Nat.leb_spec 15 (length jobs)) as [B | B]; [lia |].
    apply (IH near Tn mint planet ((far, planet, maxt) :: jobs) (Tf :: ts)); try assumption.
    + cbn [length]; lia.
    + cbn [pending]; unfold kd_max_depth; repeat split; try assumption; lia.
    + unfold work in *; cbn [map]; unfold list_sum in *; cbn [fold_right]; lia.
Qed.

(* ----- closest ----- *)

Variable first : A -> ray -> option Q.
Hypothesis CONTRACT : intersects_first first asset_intersect.
Hypothesis BOXED : hits_in_box box first.
Variable scene : list A.
Hypothesis NUMBERS : numbers box scene.
Hypothesis CLEAR : off_faces box scene r.

Definition pt (d : Q) : vec :=
  V (vx (r_o r) + d * vx (r_d r)) (vy (r_o r) + d * vy (r_d r)) (vz (r_o r) + d * vz (r_d r)).
Lemma pt_on : forall d, on_ray r d (pt d).
Proof using. intro d; unfold on_ray, pt; cbn; repeat split; reflexivity. Qed.
Lemma pt_coord : forall d k, coord k (pt d) = (coord k (r_o r) + d * coord k (r_d r))%Q.
Proof using. intros d [|[|k]]; reflexivity. Qed.

Lemma pt_contains : forall a d, first a r = Some d -> contains (box a) (pt d) /\ (0 < d)%Q.
Proof using BOXED.
  intros a d F; destruct (BOXED a r d F) as (P & p & (X & Y & Z) & C); split; [| exact P].
  destruct C as ((X1 & X2) & (Y1 & Y2) & Z1 & Z2); unfold contains, pt; cbn.
  repeat split; first [eapply below_ext | eapply above_ext]; eassumption.
Qed.

(* the entry parameter of a box off whose faces the ray runs is a number *)
Lemma xmul_no_nan : forall x o nz d,
  no_nan x -> (forall q, x = Fin q -> (d == 0)%Q -> ~ (q == o)%Q) ->
  no_nan (xmul (xsub x (Fin o)) (recip nz d)).
Proof using.
  intros x o nz d NX NE; unfold recip; destruct (Qeqb_spec d 0) as [Z | NZ].
  - destruct x as [x| | |]; unfold no_nan in *; cbn.
    + specialize (NE x eq_refl Z).
      destruct nz; cbn; unfold inf_fin; destruct (Qeqb_spec (x + - o) 0) as [Q | _];
        try (exfalso; apply NE; lra); destruct (xorb _ _); congruence.
    + destruct nz; cbn; congruence.
    + destruct nz; cbn; congruence.
    + congruence.
  - destruct x as [x| | |]; unfold no_nan in *; cbn; try congruence;
      unfold inf_fin; destruct (Qeqb_spec (/ d) 0) as [Q | _];
      try (exfalso; apply NZ; rewrite <- (Qinv_involutive d), Q; reflexivity);
      destruct (xorb _ _); congruence.
Qed.

Definition clear_box (b : aabb) : Prop :=
  valid b /\ forall k q, (coord k (r_d r) == 0)%Q ->
    projl k b = Fin q \/ projh k b = Fin q -> ~ (q == coord k (r_o r))%Q.

Lemma narrow_no_nan : forall i s j, no_nan (fst i) -> no_nan (snd i) -> no_nan (fst s) ->
  no_nan (snd s) -> narrow i s = Some j -> no_nan (fst j) /\ no_nan (snd j).
Proof using.
  intros i s j I1 I2 S1 S2; unfold narrow; destruct (_ || _); [congruence |].
  intro E; injection E as <-; cbn [fst snd]; destruct (xlt _ _), (xlt _ _); auto.
Qed.

Lemma clear_interval : forall b i, clear_box b ->
  intersect2 b r (ray_properties r) = Some i -> no_nan (fst i) /\ no_nan (snd i).
Proof using.
  intros b i (V & C); unfold intersect2, ray_properties; cbn [neg_x neg_y neg_z inv_x inv_y inv_z].
  destruct V as ((L1 & L2 & L3) & H1 & H2 & H3).
  assert (NX : forall nb, no_nan (fst (slab nb (xx (b_lo b)) (xx (b_hi b)) (vx (r_o r)) (recip (r_nzx r) (vx (r_d r))))) /\
               no_nan (snd (slab nb (xx (b_lo b)) (xx (b_hi b)) (vx (r_o r)) (recip (r_nzx r) (vx (r_d r)))))).
  { intros []; cbn [slab fst snd]; split; apply xmul_no_nan; try assumption; intros q E Z;
      apply (C 0 q Z); cbn; auto. }
  assert (NY : forall nb, no_nan (fst (slab nb (xy (b_lo b)) (xy (b_hi b)) (vy (r_o r)) (recip (r_nzy r) (vy (r_d r))))) /\
               no_nan (snd (slab nb (xy (b_lo b)) (xy (b_hi b)) (vy (r_o r)) (recip (r_nzy r) (vy (r_d r)))))).
  { intros []; cbn [slab fst snd]; split; apply xmul_no_nan; try assumption; intros q E Z;
      apply (C 1 q Z); cbn; auto. }
  assert (NZ : forall nb, no_nan (fst (slab nb (xz (b_lo b)) (xz (b_hi b)) (vz (r_o r)) (recip (r_nzz r) (vz (r_d r))))) /\
               no_nan (snd (slab nb (xz (b_lo b)) (xz (b_hi b)) (vz (r_o r)) (recip (r_nzz r) (vz (r_d r)))))).
  { intros []; cbn [slab fst snd]; split; apply xmul_no_nan; try assumption; intros q E Z;
      apply (C 2 q Z); cbn; auto. }
  match goal with |- context [narrow (slab ?n _ _ _ _) (slab ?m _ _ _ _)] =>
    destruct (NX n) as (X1 & X2); destruct (NY m) as (Y1 & Y2) end.
  match goal with |- context [narrow ?i0 ?s0] => destruct (narrow i0 s0) as [j|] eqn:J end;
    [| discriminate].
  destruct (narrow_no_nan _ _ _ X1 X2 Y1 Y2 J) as (J1 & J2).
  match goal with |- narrow j (slab ?n _ _ _ _) = _ -> _ => destruct (NZ n) as (Z1 & Z2) end.
  apply narrow_no_nan; assumption.
Qed.

Lemma scene_clear : forall a, In a scene -> clear_box (box a).
Proof using NUMBERS CLEAR.
  intros a I; split; [apply NUMBERS, I |]; intros k q Z H; apply (CLEAR a k q I Z H).
Qed.

Lemma xlt_no_nan : forall x d b, no_nan x -> xlt (Fin d) x = false -> xlt (Fin d) b = true ->
  xlt x b = true.
Proof using.
  intros [x| | |] d [b| | |]; unfold no_nan; cbn; try congruence.
  rewrite qltb_ge, !qltb_lt; intros; lra.
Qed.

(* the state of the search is sound *)
Definition sound (found : option A) (best : xq) : Prop :=
  match found with
  | Some a => In a scene /\ exists d, first a r = Some d /\ best = Fin d /\ (d <= flt_max)%Q
  | None => best = Fin flt_max
  end.

Lemma sound_fin : forall f b, sound f b -> exists q, b = Fin q /\ (q <= flt_max)%Q.
Proof using.
  intros [a|] b S; cbn in S.
  - destruct S as (_ & d & _ & E & L); eauto.
  - exists flt_max; split; [exact S | apply Qle_refl].
Qed.

Lemma leaf_loop_closest : forall l o found best found' best',
  firstn (length l) (skipn o (kt_assets t)) = l -> (forall a, In a l -> In a scene) ->
  sound found best ->
  kd_leaf_loop box asset_intersect (kt_assets t) r (ray_properties r) o (length l) found best
    = Ok (found', best') ->
  sound found' best' /\ xlt best best' = false /\
  forall a d, In a l -> first a r = Some d -> xlt (Fin d) best' = false.
Proof using CONTRACT BOXED NUMBERS CLEAR.
  induction l as [|a l IH]; intros o found best found' best' F INC S; cbn [length kd_leaf_loop].
  { intro E; injection E as <- <-; split; [exact S | split; [| intros a d []]].
    destruct (sound_fin _ _ S) as (q & -> & _); cbn; apply qltb_ge, Qle_refl. }
  assert (N : nth_error (kt_assets t) o = Some a).
  { rewrite <- (Nat.add_0_r o), <- nth_error_skipn.
    destruct (skipn o (kt_assets t)); cbn in F |- *; [discriminate |]; congruence. }
  assert (F' : firstn (length l) (skipn (Datatypes.S o) (kt_assets t)) = l).
  { rewrite <- (Nat.add_1_r o); rewrite <- skipn_skipn.
    destruct (skipn o (kt_assets t)); cbn in F |- *; [discriminate |]; congruence. }
  rewrite N.
  assert (INC' : forall b, In b l -> In b scene) by (intros b B; apply INC; right; exact B).
  assert (IA : In a scene) by (apply INC; left; reflexivity).
  (* an asset that was not taken is not closer *)
  assert (SKIP : (forall d, first a r = Some d -> xlt (Fin d) best = false) ->
    kd_leaf_loop box asset_intersect (kt_assets t) r (ray_properties r) (Datatypes.S o) (length l)
      found best = Ok (found', best') ->
    sound found' best' /\ xlt best best' = false /\
    forall b d, In b (a :: l) -> first b r = Some d -> xlt (Fin d) best' = false).
  { intros NA E; destruct (IH _ _ _ _ _ F' INC' S E) as (S' & LE & AL); split; [exact S' |].
    split; [exact LE |]; intros b d [<- | I] FB; [| apply (AL b d I FB)].
    specialize (NA d FB); destruct (sound_fin _ _ S) as (q & -> & _).
    destruct (sound_fin _ _ S') as (q' & -> & _); cbn in *.
    apply qltb_ge in NA, LE; apply qltb_ge; lra. }
  destruct (intersect2 (box a) r (ray_properties r)) as [[m M]|] eqn:I2.
  - pose proof (clear_interval _ _ (scene_clear a IA) I2) as (NM & _); cbn in NM.
    destruct (xlt m best) eqn:LT.
    + pose proof (CONTRACT a r best) as CT; destruct (first a r) as [d|] eqn:FA.
      * destruct CT as (CT1 & CT2 & CT3); destruct (asset_intersect a r best) as [d'|] eqn:AI.
        -- assert (d' = d) by (destruct CT1; congruence); subst d'.
           assert (LE : xlt best (Fin d) = false).
           { destruct (xlt best (Fin d)); [specialize (CT3 eq_refl); discriminate | reflexivity]. }
           destruct (sound_fin _ _ S) as (q & EQ & QM); subst best; cbn in LE; apply qltb_ge in LE.
           assert (S1 : sound (Some a) (Fin d)).
           { cbn; split; [exact IA |]; exists d; repeat split; [exact FA | lra]. }
           intro E; destruct (IH _ _ _ _ _ F' INC' S1 E) as (S' & LE' & AL); split; [exact S' |].
           destruct (sound_fin _ _ S') as (q' & -> & _); cbn in *; apply qltb_ge in LE'.
           split; [apply qltb_ge; lra |]; intros b d' [<- | I] FB; [| apply (AL b d' I FB)].
           rewrite FA in FB; injection FB as <-; apply qltb_ge; exact LE'.
        -- apply SKIP; intros d' E; injection E as <-.
           destruct (xlt (Fin d) best); [specialize (CT2 eq_refl); discriminate | reflexivity].
      * rewrite CT; apply SKIP; intros d E; discriminate.
    + apply SKIP; intros d FA; destruct (xlt (Fin d) best) eqn:LB; [| reflexivity].
      destruct (pt_contains a d FA) as (C & _).
      destruct (slab_never_misses (box a) r d (pt d) (NUMBERS a IA) (pt_on d) C)
        as (i & EI & NA & _).
      rewrite I2 in EI; injection EI as <-; cbn in NA.
      rewrite (xlt_no_nan m d best NM NA LB) in LT; congruence.
  - apply SKIP; intros d FA; exfalso; destruct (pt_contains a d FA) as (C & _).
    destruct (slab_never_misses (box a) r d (pt d) (NUMBERS a IA) (pt_on d) C)
      as (i & EI & _); congruence.
Qed.

(* a job still to do, with its interval of parameters *)
Definition job : Type := ktree A * xq * xq.
Definition job_in (d : Q) (a : A) (j : job) : Prop :=
  let '(T, m, M) := j in reach (pt d) T a /\ not_after m d /\ not_before M d.

Definition xle (a b : xq) : Prop := no_nan a /\ no_nan b /\ xlt b a = false.

Lemma xle_trans : forall a b c, xle a b -> xle b c -> xle a c.
Proof using.
  intros [a| | |] [b| | |] [c| | |] (A1 & A2 & A3) (B1 & B2 & B3); unfold xle, no_nan in *;
    cbn in *; repeat split; try congruence.
  rewrite qltb_ge in *; lra.
Qed.
Lemma xle_refl : forall a, no_nan a -> xle a a.
Proof using.
  intros [a| | |] N; unfold xle, no_nan in *; cbn; repeat split; try congruence.
  apply qltb_ge, Qle_refl.
Qed.

(* the intervals of the stack follow one another *)
Fixpoint chain (M : xq) (js : list job) : Prop :=
  match js with
  | [] => True
  | (_, m', M') :: js => xle M m' /\ xle m' M' /\ chain M' js
  end.

Lemma chain_starts : forall js M T m' M', chain M js -> In (T, m', M') js -> xle M m'.
Proof using.
  induction js as [|[[T0 m0] M0] js IH]; intros M T m' M' C I; [destruct I |].
  cbn [chain] in C; destruct C as (C1 & C2 & C3); destruct I as [E | I].
  - injection E as -> -> ->; exact C1.
  - apply (xle_trans M m0); [exact C1 |]; apply (xle_trans m0 M0); [exact C2 |].
    apply (IH M0 T m' M' C3 I).
Qed.

Lemma chain_le : forall js M M', xle M M' -> chain M' js -> chain M js.
Proof using.
  intros [|[[T m0] M0] js] M M' L C; [exact I |]; cbn [chain] in *.
  destruct C as (C1 & C2); split; [apply (xle_trans M M'); assumption | exact C2].
Qed.

Definition covered (js : list job) (best : xq) : Prop :=
  forall a d, In a scene -> first a r = Some d -> xlt (Fin d) best = true ->
  exists j, In j js /\ job_in d a j.

(* what the stack stands for *)
Fixpoint jobs_of (jobs : list (nat * xq * xq)) (ts : list (ktree A)) : list job :=
  match jobs, ts with
  | (_, m, M) :: jobs, T :: ts => (T, m, M) :: jobs_of jobs ts
  | _, _ => []
  end.

Fixpoint listed_in_scene (T : ktree A) : Prop :=
  match T with
  | TLeaf l => forall a, In a l -> In a scene
  | TNode _ _ l r => listed_in_scene l /\ listed_in_scene r
  end.

Definition clear_plane (k : nat) (q : Q) : Prop :=
  (coord k (r_d r) == 0)%Q -> ~ (q == coord k (r_o r))%Q.
Definition good (T : ktree A) : Prop := planes_ok clear_plane T /\ listed_in_scene T.

Fixpoint goods (jobs : list (nat * xq * xq)) (ts : list (ktree A)) : Prop :=
  match jobs, ts with
  | [], [] => True
  | (n, _, _) :: jobs, T :: ts =>
      encodes (kt_nodes t) (kt_assets t) n T /\ good T /\ goods jobs ts
  | _, _ => False
  end.

Lemma finished : forall found best, sound found best -> covered [] best ->
  kd_closest first scene r (found, best).
Proof using.
  intros found best S C; unfold kd_closest; cbn [fst snd].
  assert (K : forall a d, In a scene -> first a r = Some d -> xlt (Fin d) best = false).
  { intros a d I F; destruct (xlt (Fin d) best) eqn:L; [| reflexivity].
    destruct (C a d I F L) as (j & [] & _). }
  destruct found as [a|]; cbn in S.
  - destruct S as (I & d & F & -> & L); split; [exact I |]; exists d; repeat split; auto.
    intros a' d' I' F'; specialize (K a' d' I' F'); cbn in K; apply qltb_ge in K; exact K.
  - subst best; split; [reflexivity |]; intros a d I F; specialize (K a d I F); cbn in K.
    apply qltb_ge in K; exact K.
Qed.

(* where a hit lies relative to the plane *)
Lemma plane_side : forall k s d,
  clear_plane k s -> (0 < d)%Q ->
  let o := coord k (r_o r) in
  let planet := xmul (xsub (Fin s) (Fin o)) (inv_axis (ray_properties r) k) in
  let lb := xlt (Fin o) (Fin s) || (xeq (Fin o) (Fin s) && negb (qltb 0 (coord k (r_d r)))) in
  no_nan planet /\
  (* on the near side *)
  ((if lb then coord k (pt d) <= s else s <= coord k (pt d))%Q ->
     xge (Fin 0) planet = true \/ (xlt planet (Fin d) = false)) /\
  (* on the far side *)
  ((if lb then s <= coord k (pt d) else coord k (pt d) <= s)%Q ->
     xge (Fin 0) planet = false /\ xlt (Fin d) planet = false).
Proof using.
  intros k s d CL D o planet lb.
  assert (IV : inv_axis (ray_properties r) k =
               recip (match k with 0 => r_nzx r | 1 => r_nzy r | _ => r_nzz r end) (coord k (r_d r)))
    by (destruct k as [|[|k]]; reflexivity).
  subst planet lb; rewrite IV; clear IV.
  set (nz := match k with 0 => _ | 1 => _ | _ => _ end).
  split.
  { apply xmul_no_nan; [apply no_nan_fin |]; intros q E Z; injection E as <-; apply CL, Z. }
  rewrite pt_coord; fold o; set (v := coord k (r_d r)) in *.
  cbn [xsub xadd xopp xlt xeq].
  destruct (Q_dec v 0) as [[V | V] | V].
  - (* towards lower coordinates *)
    assert (NV : ~ (v == 0)%Q) by lra.
    unfold recip; destruct (Qeqb_spec v 0) as [E | _]; [contradiction |]; cbn [xmul xge xlt].
    assert (IN : (v * / v == 1)%Q) by (apply Qmult_inv_r; exact NV).
    assert (IL : (/ v < 0)%Q).
    { apply Qnot_le_lt; intro H. assert (v * / v <= 0)%Q by nra. lra. }
    rewrite negb_true_iff, negb_false_iff.
    rewrite !qltb_ge, qltb_lt.
    destruct (qltb_spec o s) as [OS | OS]; cbn [orb].
    + split; intro H; [left |]; nra.
    + destruct (Qeqb_spec o s) as [OE | OE]; cbn [andb].
      * destruct (qltb_spec 0 v); [exfalso; lra |]; cbn [negb].
        split; intro H; [left; nra | exfalso; nra].
      * split; intro H; [right; nra |]. split; [| nra].
        apply Qnot_le_lt; intro Hc; nra.
  - assert (NV : ~ (v == 0)%Q) by lra.
    unfold recip; destruct (Qeqb_spec v 0) as [E | _]; [contradiction |]; cbn [xmul xge xlt].
    assert (IN : (v * / v == 1)%Q) by (apply Qmult_inv_r; exact NV).
    assert (IL : (0 < / v)%Q) by (apply Qinv_lt_0_compat; exact V).
    rewrite negb_true_iff, negb_false_iff.
    rewrite !qltb_ge, qltb_lt.
    destruct (qltb_spec o s) as [OS | OS]; cbn [orb].
    + split; intro H; [right; nra |]; split; nra.
    + destruct (Qeqb_spec o s) as [OE | OE]; cbn [andb].
      * destruct (qltb_spec 0 v); [| exfalso; lra]; cbn [negb].
        split; intro H; [left; nra | exfalso; nra].
      * split; intro H; [left; nra | exfalso; nra].
  - specialize (CL V); unfold recip; destruct (Qeqb_spec v 0) as [_ | E]; [| contradiction].
    assert (DV : (d * v == 0)%Q) by (rewrite V; ring).
    destruct (qltb_spec o s) as [OS | OS]; cbn [orb].
    + split; intro H; [| exfalso; lra].
      destruct nz; cbn [xmul]; unfold inf_fin;
        (destruct (Qeqb_spec (s + - o) 0); [exfalso; lra |]);
        (destruct (qltb_spec (s + - o) 0); [exfalso; lra |]); cbn; auto.
    + destruct (Qeqb_spec o s) as [OE | OE]; [exfalso; apply CL; symmetry; exact OE |].
      cbn [andb]; split; intro H; [| exfalso; lra].
      destruct nz; cbn [xmul]; unfold inf_fin;
        (destruct (Qeqb_spec (s + - o) 0); [exfalso; lra |]);
        (destruct (qltb_spec (s + - o) 0); [| exfalso; lra]); cbn; auto.
Qed.

Lemma before_none : forall m best d, no_nan m -> xlt best m = true -> not_after m d ->
  xlt (Fin d) best = true -> False.
Proof using.
  intros [m| | |] [b| | |] d; unfold no_nan, not_after; cbn; try congruence.
  rewrite qltb_ge, !qltb_lt; intros; lra.
Qed.

Lemma walk_closest : forall fuel n T mint maxt jobs ts found best ans,
  encodes (kt_nodes t) (kt_assets t) n T -> good T -> goods jobs ts ->
  no_nan mint -> no_nan maxt -> (jobs <> [] -> xle mint maxt) -> chain maxt (jobs_of jobs ts) ->
  sound found best -> covered ((T, mint, maxt) :: jobs_of jobs ts) best ->
  kd_walk box asset_intersect fuel t r (ray_properties r) n mint maxt jobs found best = Ok ans ->
  kd_closest first scene r ans.
Proof using SMALL FEW CONTRACT BOXED NUMBERS CLEAR.
  induction fuel as [|fuel IH];
    intros n T mint maxt jobs ts found best ans E G GS NM NX LE CH S C; cbn [kd_walk];
    [discriminate |].
  destruct (xlt best mint) eqn:BR.
  { (* nothing pending can be closer *)
    intro H; injection H as <-; apply finished; [exact S |].
    intros a d I F L; exfalso; destruct (C a d I F L) as (j & IJ & J).
    destruct IJ as [<- | IJ].
    - destruct J as (_ & NA & _); apply (before_none mint best d); assumption.
    - destruct j as [[T' m'] M']; destruct J as (_ & NA & _).
      assert (JN : jobs <> []) by (destruct jobs; [destruct IJ | congruence]).
      pose proof (chain_starts _ _ _ _ _ CH IJ) as XL.
      pose proof (xle_trans _ _ _ (LE JN) XL) as (_ & N' & L').
      apply (before_none m' best d); try assumption.
      clear - BR L' N' NM. destruct mint, best, m'; unfold no_nan in *; cbn in *; try congruence.
      rewrite qltb_lt, qltb_ge in *; lra. }
  destruct T as [l | k s tl tr]; cbn [encodes] in E.
  - destruct E as (o & N & F); rewrite N.
    destruct (kn_leaf_word o (length l) (leaf_small l o F)) as (W1 & W2).
    rewrite W1, W2; cbn [kn_union kn_leaf].
    destruct (kd_leaf_loop _ _ _ _ _ _ _ _ _) as [[found' best']| |] eqn:EL; cbn [bind];
      try discriminate.
    destruct G as (_ & INC); cbn in INC.
    destruct (leaf_loop_closest l o found best found' best' F INC S EL) as (S' & LB & AL).
    assert (C' : covered (jobs_of jobs ts) best').
    { intros a d I FA L.
      assert (L0 : xlt (Fin d) best = true).
      { destruct (sound_fin _ _ S) as (q & -> & _), (sound_fin _ _ S') as (q' & -> & _).
        cbn in *; apply qltb_ge in LB; apply qltb_lt in L; apply qltb_lt; lra. }
      destruct (C a d I FA L0) as (j & [<- | IJ] & J); [| exists j; auto].
      destruct J as (R & _); cbn in R; rewrite (AL a d R FA) in L; discriminate. }
    destruct jobs as [|[[n' m'] M'] jobs].
    { intro H; injection H as <-; apply finished; assumption. }
    destruct ts as [|T' ts]; cbn [goods] in GS; [destruct GS |].
    destruct GS as (E' & G' & GS'); cbn [jobs_of chain] in CH, C'.
    destruct CH as (CH1 & CH2 & CH3).
    apply (IH n' T' m' M' jobs ts found' best' ans); try assumption.
    + apply CH2.
    + apply CH2.
    + intros _; exact CH2.
  - destruct E as (c & N & EL & ER); rewrite N.
    destruct G as ((K & (q & -> & CP) & PL & PR) & SL & SR).
    destruct (kn_interior_word (Fin q) k c K (child_small _ _ ER)) as (W1 & W2 & W3).
    rewrite W1, W2, W3; cbn [kn_union kn_interior].
    set (lb := xlt (Fin (coord k (r_o r))) (Fin q) || _).
    set (planet := xmul _ _).
    set (near := if lb then Datatypes.S n else c); set (far := if lb then c else Datatypes.S n).
    set (Tn := if lb then tl else tr); set (Tf := if lb then tr else tl).
    assert (EN : encodes (kt_nodes t) (kt_assets t) near Tn) by (unfold near, Tn; destruct lb; assumption).
    assert (EF : encodes (kt_nodes t) (kt_assets t) far Tf) by (unfold far, Tf; destruct lb; assumption).
    assert (GN : good Tn) by (unfold Tn; destruct lb; split; assumption).
    assert (GF : good Tf) by (unfold Tf; destruct lb; split; assumption).
    (* a hit pending in this node is pending in one of the children *)
    assert (SPLIT : no_nan planet /\ forall a d, first a r = Some d ->
      reach (pt d) (TNode k (Fin q) tl tr) a ->
      (reach (pt d) Tn a /\ (xge (Fin 0) planet = true \/ xlt planet (Fin d) = false)) \/
      (reach (pt d) Tf a /\ xge (Fin 0) planet = false /\ xlt (Fin d) planet = false)).
    { split; [apply (plane_side k q 1 CP); reflexivity |].
      intros a d FA R; destruct (pt_contains a d FA) as (_ & D).
      destruct (plane_side k q d CP D) as (_ & PN & PF); fold planet in PN, PF; fold lb in PN, PF.
      cbn [reach below above] in R; unfold Tn, Tf; destruct lb, R as [(H & R) | (H & R)];
        auto. }
    destruct SPLIT as (NP & SPLIT).
    destruct (xlt maxt planet) eqn:B1; cbn [orb].
    { apply (IH near Tn mint maxt jobs ts found best ans); try assumption.
      intros a d I FA L; destruct (C a d I FA L) as (j & [<- | IJ] & J);
        [| exists j; split; [right |]; assumption].
      destruct J as (R & J1 & J2); destruct (SPLIT a d FA R) as [(R' & _) | (R' & _ & J3)].
      - exists (Tn, mint, maxt); split; [left; reflexivity | split; auto].
      - exfalso; clear - B1 J2 J3 NX NP; unfold not_before in J2.
        destruct maxt, planet; unfold no_nan in *; cbn in *; try congruence.
        rewrite qltb_lt, qltb_ge in *; lra. }
    destruct (xge (Fin 0) planet) eqn:B2.
    { apply (IH near Tn mint maxt jobs ts found best ans); try assumption.
      intros a d I FA L; destruct (C a d I FA L) as (j & [<- | IJ] & J);
        [| exists j; split; [right |]; assumption].
      destruct J as (R & J1 & J2); destruct (SPLIT a d FA R) as [(R' & _) | (R' & J3 & _)].
      - exists (Tn, mint, maxt); split; [left; reflexivity | split; auto].
      - discriminate. }
    destruct (xlt planet mint) eqn:B3.
    { apply (IH far Tf mint maxt jobs ts found best ans); try assumption.
      intros a d I FA L; destruct (C a d I FA L) as (j & [<- | IJ] & J);
        [| exists j; split; [right |]; assumption].
      destruct J as (R & J1 & J2); destruct (SPLIT a d FA R) as [(R' & [J3 | J3]) | (R' & _)].
      - discriminate.
      - exfalso; clear - B3 J1 J3 NM NP; unfold not_after in J1.
        destruct mint, planet; unfold no_nan in *; cbn in *; try congruence.
        rewrite qltb_lt, qltb_ge in *; lra.
      - exists (Tf, mint, maxt); split; [left; reflexivity | split; auto]. }
    destruct (kd_max_depth <=? length jobs); [discriminate |].
    apply (IH near Tn mint planet ((far, planet, maxt) :: jobs) (Tf :: ts) found best ans);
      try assumption.
    + cbn [goods]; auto.
    + intros _; repeat split; assumption.
    + cbn [jobs_of chain]; split; [apply xle_refl, NP | split; [| exact CH]].
      repeat split; assumption.
    + intros a d I FA L; destruct (C a d I FA L) as (j & [<- | IJ] & J);
        [| exists j; split; [right; right |]; assumption].
      destruct J as (R & J1 & J2); destruct (SPLIT a d FA R) as [(R' & [J3 | J3]) | (R' & _ & J3)].
      * discriminate.
      * exists (Tn, mint, planet); split; [left; reflexivity | split; auto].
      * exists (Tf, planet, maxt); split; [right; left; reflexivity | split; auto].
Qed.

End Walk.
