(* The tree that is built from boxes in single precision, and the walk through it. *)
From Coq Require Import ZArith Reals Lra Lia List Bool QArith Qreals.
From Flocq Require Import Core.Core IEEE754.BinarySingleNaN.
From Verif Require Import Common GeomModel AabbModel AabbSpec AabbProofs KdAddModel KdAddProps KdModel KdSpec KdBuild KdWalk KdFacts.
From Verif Require Import FltModel FltFacts FExtFacts FRayModel FRayFacts FRayProps FKdSpec FKdProps.
Import ListNotations.
Local Open Scope R_scope.

(* the exact value of a finite float *)
Definition f2q (x : f32) : Q :=
  match x with
  | B754_finite s m e _ =>
      let z := cond_Zopp s (Z.pos m) in
      match e with
      | Zneg p => Qmake z (Pos.pow 2 p)
      | _ => inject_Z (z * 2 ^ e)
      end
  | _ => 0%Q
  end.

Lemma f2q_val : forall x, fin x -> Q2R (f2q x) = val x.
Proof.
  intros x F; destruct x as [s | s | | s m e b]; try discriminate.
  - unfold f2q, val, B2R; unfold Q2R; cbn; lra.
  - unfold f2q, val, B2R, F2R; cbn [Fnum Fexp]; set (z := cond_Zopp s (Z.pos m)); clearbody z.
    destruct e as [| p | p].
    + cbn [bpow]; rewrite Z.mul_1_r; unfold Q2R, inject_Z; cbn [Qnum Qden]; lra.
    + unfold Q2R, inject_Z; cbn [Qnum Qden]; rewrite mult_IZR.
      replace (IZR (2 ^ Z.pos p)) with (bpow radix2 (Z.pos p)) by (rewrite <- IZR_Zpower by lia; reflexivity); lra.
    + unfold Q2R; cbn [Qnum Qden]; f_equal.
      replace (Z.neg p) with (- Z.pos p)%Z by reflexivity; rewrite bpow_opp; f_equal.
      rewrite <- IZR_Zpower by lia; rewrite Pos2Z.inj_pow; reflexivity.
Qed.

Definition qbox (b : fbox) : aabb :=
  let q v := XV (Fin (f2q (fx v))) (Fin (f2q (fy v))) (Fin (f2q (fz v))) in mk_aabb (q (fb_lo b)) (q (fb_hi b)).

Fixpoint qtree {A} (t : ftree A) : ktree A :=
  match t with
  | FLeaf l => TLeaf l
  | FNode k s lower upper => TNode k (Fin (f2q s)) (qtree lower) (qtree upper)
  end.

Lemma qbox_lo : forall b k, projl k (qbox b) = Fin (f2q (fcoord k (fb_lo b))).
Proof. intros b [|[|k]]; reflexivity. Qed.
Lemma qbox_hi : forall b k, projh k (qbox b) = Fin (f2q (fcoord k (fb_hi b))).
Proof. intros b [|[|k]]; reflexivity. Qed.

Lemma qbox_valid : forall b, valid (qbox b).
Proof. intro b; split; split; try split; intro E; discriminate. Qed.

Lemma f2q_lt : forall x y, fin x -> fin y -> (xlt (Fin (f2q x)) (Fin (f2q y)) = true <-> val x < val y).
Proof.
  intros x y FX FY; cbn [xlt]; rewrite qltb_lt, <- (f2q_val x FX), <- (f2q_val y FY).
  split; [apply Qlt_Rlt | apply Rlt_Qlt].
Qed.

Definition box_fin (b : fbox) : Prop :=
  forall k, fin (fcoord k (fb_lo b)) /\ fin (fcoord k (fb_hi b)) /\ val (fcoord k (fb_lo b)) <= val (fcoord k (fb_hi b)).

Definition corner (v : fvec) : vec := V (f2q (fx v)) (f2q (fy v)) (f2q (fz v)).
Lemma corner_coord : forall v k, coord k (corner v) = f2q (fcoord k v).
Proof. intros v [|[|k]]; reflexivity. Qed.

Lemma box_corners : forall b, box_fin b -> contains (qbox b) (corner (fb_lo b)) /\ contains (qbox b) (corner (fb_hi b)).
Proof.
  intros b F; split; apply contains_coord; intro k; destruct (F k) as (FL & FH & L);
    rewrite qbox_lo, qbox_hi, corner_coord; cbn [below above]; split; apply Rle_Qle; rewrite !f2q_val by assumption; lra.
Qed.

(* every plane of the tree is a face of one of the boxes *)
Fixpoint planes_from {A} (box : A -> fbox) (l : list A) (t : ftree A) : Prop :=
  match t with
  | FLeaf _ => True
  | FNode k s lower upper =>
      (exists a, In a l /\ (s = fcoord k (fb_lo (box a)) \/ s = fcoord k (fb_hi (box a)))) /\
      planes_from box l lower /\ planes_from box l upper
  end.

Lemma planes_from_incl : forall A (box : A -> fbox) l l' t, (forall a, In a l -> In a l') ->
  planes_from box l t -> planes_from box l' t.
Proof.
  intros A box l l' t S; induction t as [ls | k s lo IHl up IHu]; cbn [planes_from]; [auto |].
  intros ((a & I & E) & L & U); split; [exists a; auto | split; auto].
Qed.

Section Build.
Context {A : Type} (box : A -> fbox).
Variable sort : list (event A) -> list (event A).
Hypothesis SORT : sorts sort.

Lemma grown_float : forall n l T, grown (fun a => qbox (box a)) sort n l T ->
  (forall a, In a l -> box_fin (box a)) -> opens_first (fun a => qbox (box a)) sort l ->
  exists t, qtree t = T /\ planes_from box l t /\ (forall a, In a (fassets t) -> In a l) /\
            forall a, In a l -> listed t a (box a).
Proof using SORT.
  intros n l T G; induction G as [n l | n l k j e tl tr K N F1 F2 GL IHL GR IHR]; intros FB O.
  { exists (FLeaf l); split; [reflexivity | split; [exact I | split; auto]]. }
  set (qb := fun a => qbox (box a)) in *.
  assert (V : numbers qb l) by (intros a _; apply qbox_valid).
  destruct (opens_first_side qb sort SORT k l j V O) as (O1 & O2).
  assert (INC := fun a => sides_incl qb sort SORT k l j a V).
  destruct IHL as (tfl & EL & PL & AL & LL); [intros a I; apply FB, INC; auto | exact O1 |].
  destruct IHR as (tfr & ER & PR & AR & LR); [intros a I; apply FB, INC; auto | exact O2 |].
  assert (SP : exists s a, ev_pos e = Fin (f2q s) /\ In a l /\ (s = fcoord k (fb_lo (box a)) \/ s = fcoord k (fb_hi (box a)))).
  { destruct (SORT (events qb k l)) as (P & _).
    { intros x X; apply (events_no_nan qb k l); assumption. }
    apply nth_error_In in N; apply (Permutation.Permutation_in _ (Permutation.Permutation_sym P)) in N.
    apply events_in in N; destruct N as (a & I & [-> | ->]); cbn [ev_pos].
    - exists (fcoord k (fb_lo (box a))), a; unfold qb; rewrite qbox_lo; auto.
    - exists (fcoord k (fb_hi (box a))), a; unfold qb; rewrite qbox_hi; auto. }
  destruct SP as (s & a0 & ES & IA0 & FACE).
  assert (FS : fin s) by (destruct (FB a0 IA0 k) as (X & Y & _); destruct FACE as [-> | ->]; assumption).
  exists (FNode k s tfl tfr); split; [| split; [| split]].
  - cbn [qtree]; rewrite EL, ER, ES; reflexivity.
  - cbn [planes_from]; split; [exists a0; auto | split].
    + apply planes_from_incl with (2 := PL); intros a I; apply INC; auto.
    + apply planes_from_incl with (2 := PR); intros a I; apply INC; auto.
  - cbn [fassets]; intros a I; apply in_app_or in I; apply INC; destruct I as [I | I]; auto.
  - intros a I; cbn [listed]; destruct (FB a I k) as (X & Y & _); destruct (box_corners (box a) (FB a I)) as (C1 & C2).
    split; [| split].
    + intro L; apply LL; apply (side_left qb sort SORT k l j e a (corner (fb_lo (box a)))); try assumption.
      rewrite ES, corner_coord; apply f2q_lt; assumption.
    + intro L; apply LR; apply (side_right qb sort SORT k l j e a (corner (fb_hi (box a)))); try assumption.
      rewrite ES, corner_coord; apply f2q_lt; assumption.
    + destruct (side_some qb sort k l j a O I) as [H | H]; [left; apply LL, H | right; apply LR, H].
Qed.
End Build.

(* the whole way: build the tree from the boxes, walk through it with rounding *)
Theorem float_kd_scene : forall A (box : A -> fbox) sort cost l t,
  sorts sort -> l <> [] -> (forall a, In a l -> box_fin (box a)) ->
  (forall a k, In a l -> val (fcoord k (fb_lo (box a))) < val (fcoord k (fb_hi (box a)))) \/ stable sort ->
  built (fun a => qbox (box a)) sort cost l = Ok t ->
  exists tree, encodes (kt_nodes t) (kt_assets t) 0 (qtree tree) /\ (forall a, In a (fassets tree) <-> In a l) /\
    forall first hit r scene, reports_first first hit -> ray_ok r -> faces_ok r scene ->
      (forall a, In a l -> faces_ok r (box a) /\ inside_of (box a) scene) ->
      exists found best, f_kd box hit (fsize tree) scene tree r = Ok (found, best) /\
        (forall a d p, In a l -> first a r = Some d -> within_box (box a) r p -> fle best d = true \/ fle best p = true) /\
        match found with
        | None => best = f_max
        | Some a => In a l /\ first a r = Some best /\ fle best f_max = true
        end.
Proof.
  intros A box sort cost l t SORT NE FB TH B; destruct l as [|a l]; [congruence |]; clear NE.
  set (qb := fun a => qbox (box a)) in *.
  assert (V : numbers qb (a :: l)) by (intros b _; apply qbox_valid).
  assert (L : (Z.of_nat (length (a :: l)) <= max_assets)%Z).
  { destruct (Z_le_gt_dec (Z.of_nat (length (a :: l))) max_assets) as [L | G]; [exact L |].
    unfold built in B; rewrite addAssets_over in B; [discriminate | apply kd_empty_inv |].
    cbn [kb_assets kd_empty]; change (length (@nil A)) with 0%nat; lia. }
  assert (O : opens_first qb sort (a :: l)).
  { destruct TH as [TH | ST].
    - apply thick_opens_first; try assumption; intros b I k; unfold qb; rewrite qbox_lo, qbox_hi.
      destruct (FB b I k) as (X & Y & _); apply f2q_lt; auto.
    - apply stable_opens_first; try assumption; intros b I k; unfold qb; rewrite qbox_lo, qbox_hi.
      destruct (FB b I k) as (X & Y & Z); destruct (xlt _ _) eqn:E; [| reflexivity].
      apply f2q_lt in E; [lra | assumption | assumption]. }
  pose proof (built_spec qb sort cost SORT a l V L) as H; cbv zeta in H; rewrite B in H.
  pose proof (pbuild_grown qb sort cost kd_max_depth (a :: l) (scene_box qb a l)) as G.
  set (T := pbuild _ _ _ _ _ _) in *; clearbody T; destruct H as (_ & E & _).
  destruct (grown_float box sort SORT _ _ _ G FB O) as (tree & ET & PF & AS & LI).
  exists tree; split; [rewrite ET; exact E |].
  assert (IFF : forall b, In b (fassets tree) <-> In b (a :: l)).
  { intro b; split; [apply AS |]; intro I; apply (listed_in tree b (box b)), LI, I. }
  split; [exact IFF |]; intros first hit r scene HIT OK FS FA.
  assert (PO : planes_ok r tree).
  { clear - PF FA; induction tree as [ls | k s lo IHl up IHu]; cbn [planes_ok planes_from] in *; [exact I |].
    destruct PF as ((b & IB & F) & PL & PU); split; [| split; auto].
    destruct (FA b IB) as (X & _); destruct (X k) as (Y & Z & _); destruct F as [-> | ->]; assumption. }
  destruct (float_kd_complete A box first hit r scene tree OK HIT FS PO) as (f & b & EQ & CO & SO).
  { intros b I; apply IFF in I; destruct (FA b I); auto. }
  exists f, b; split; [exact EQ | split].
  - intros x d p I; apply CO, IFF, I.
  - destruct f as [x |]; [| exact SO]; destruct SO as (I & S); split; [apply IFF, I | exact S].
Qed.
Print Assumptions float_kd_scene.
