(* Specification of the walks in single precision. *)
From Coq Require Import ZArith Reals List.
From Verif Require Import Common FltModel FltFacts FExtFacts FRayModel FRayFacts.
Local Open Scope R_scope.

(* what the construction leaves in the leaves (KdProps.kd_leaves_cover and
   kd_assets_kept_partial, whose comparisons are exact also in single precision): an asset whose
   box reaches beyond a plane is listed on that side, and every asset on one side at least *)
Fixpoint listed {A} (t : ftree A) (a : A) (b : fbox) : Prop :=
  match t with
  | FLeaf l => In a l
  | FNode k s lower upper =>
      (val (fcoord k (fb_lo b)) < val s -> listed lower a b) /\
      (val s < val (fcoord k (fb_hi b)) -> listed upper a b) /\
      (listed lower a b \/ listed upper a b)
  end.

(* every plane of the tree is on an axis, finite, and not one the ray runs in *)
Fixpoint planes_ok {A} (r : fray) (t : ftree A) : Prop :=
  match t with
  | FLeaf _ => True
  | FNode k s lower upper => plane_ok r k s /\ planes_ok r lower /\ planes_ok r upper
  end.

Fixpoint fsize {A} (t : ftree A) : nat :=
  match t with
  | FLeaf _ => 1
  | FNode _ _ lower upper => S (fsize lower + fsize upper)
  end.

Fixpoint fassets {A} (t : ftree A) : list A :=
  match t with
  | FLeaf l => l
  | FNode _ _ lower upper => (fassets lower ++ fassets upper)%list
  end.

(* what is assumed of the intersection of one object: [first] is the distance of its first hit,
   a number; it is reported when it improves on the given distance and not when it is worse *)
Definition reports_first {A} (first : A -> fray -> option f32) (hit : A -> fray -> f32 -> option f32) : Prop :=
  forall a r D, number D ->
    match first a r with
    | None => hit a r D = None
    | Some d =>
        number d /\ (hit a r D = Some d \/ hit a r D = None) /\
        (ev d < ev D -> hit a r D = Some d) /\ (ev D < ev d -> hit a r D = None)
    end.

(* the hit is in front of the origin and not outside what the rounded test of the box allows *)
Definition within_box (b : fbox) (r : fray) (d : f32) : Prop :=
  exists p1 p2, f_slab b r = Some (p1, p2) /\ 0 < ev d /\ ev p1 <= ev d <= ev p2.
