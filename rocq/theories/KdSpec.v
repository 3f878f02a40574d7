(* Specification of the kd-tree: the tree of asset lists that the arrays encode,
   the assets a leaf has to list, and the closest hit. *)
From Coq Require Import Permutation Sorted.
From Verif Require Import Common GeomModel AabbModel AabbSpec KdModel.
Local Open Scope nat_scope.

Inductive ktree (A : Type) :=
| TLeaf (l : list A)
| TNode (axis : nat) (split : xq) (lower upper : ktree A).
Arguments TLeaf {A}.
Arguments TNode {A}.

(* number of interior nodes on the longest path *)
Fixpoint kheight {A} (t : ktree A) : nat :=
  match t with
  | TLeaf _ => 0
  | TNode _ _ l r => 1 + Nat.max (kheight l) (kheight r)
  end.

(* the leaves with the planes that separate each from the rest of the scene: axis,
   whether the leaf is on the lower side, position *)
Fixpoint leaves {A} (t : ktree A) : list (list (nat * bool * xq) * list A) :=
  match t with
  | TLeaf l => [([], l)]
  | TNode k s l r =>
      map (fun c => ((k, true, s) :: fst c, snd c)) (leaves l) ++
      map (fun c => ((k, false, s) :: fst c, snd c)) (leaves r)
  end.

(* total length of the lists of the leaves *)
Fixpoint references {A} (t : ktree A) : nat :=
  match t with
  | TLeaf l => length l
  | TNode _ _ l r => references l + references r
  end.

(* the point is in the region bounded by the planes, away from the planes *)
Definition strictly_inside (p : vec) (planes : list (nat * bool * xq)) : Prop :=
  Forall (fun c => let '(k, lower, s) := c in
            if lower : bool then xlt (Fin (coord k p)) s = true
            else xlt s (Fin (coord k p)) = true) planes.

(* the box reaches the region bounded by the planes, possibly only its border *)
Definition reaches (b : aabb) (planes : list (nat * bool * xq)) : Prop :=
  Forall (fun c => let '(k, lower, s) := c in
            if lower : bool then xlt s (projl k b) = false
            else xlt (projh k b) s = false) planes.

(* the arrays hold the tree, starting from element i: leaves name a range of the
   assets, the lower child of an interior node is the next element *)
Fixpoint encodes {A} (nodes : list (option knode)) (assets : list A) (i : nat) (t : ktree A)
    : Prop :=
  match t with
  | TLeaf l =>
      exists o, nth_error nodes i = Some (Some (kn_leaf o (length l))) /\
                firstn (length l) (skipn o assets) = l
  | TNode k s l r =>
      exists c, nth_error nodes i = Some (Some (kn_interior s k c)) /\
                encodes nodes assets (S i) l /\ encodes nodes assets c r
  end.

(* the guarantee of std::sort: on numbers (no NaN), a permutation without a later
   element smaller than an earlier one *)
Definition sorts {A} (sort : list (event A) -> list (event A)) : Prop :=
  forall l, (forall e, In e l -> ev_pos e <> NaN) ->
    Permutation l (sort l) /\
    StronglySorted (fun a b => xlt (ev_pos b) (ev_pos a) = false) (sort l).

(* the further guarantee of std::stable_sort *)
Definition stable {A} (sort : list (event A) -> list (event A)) : Prop :=
  forall l x, filter (fun e => xeq (ev_pos e) x) (sort l) = filter (fun e => xeq (ev_pos e) x) l.

(* the box has an extent along every axis *)
Definition thick (b : aabb) : Prop := forall k, xlt (projl k b) (projh k b) = true.

(* what is assumed of Asset::intersect: [first] is the distance of the first hit of
   the asset on its own, reported when it improves on the given distance and not
   reported when it is worse *)
Definition intersects_first {A} (first : A -> ray -> option Q)
    (asset_intersect : A -> ray -> xq -> option Q) : Prop :=
  forall a r D,
    match first a r with
    | None => asset_intersect a r D = None
    | Some d =>
        (asset_intersect a r D = Some d \/ asset_intersect a r D = None) /\
        (xlt (Fin d) D = true -> asset_intersect a r D = Some d) /\
        (xlt D (Fin d) = true -> asset_intersect a r D = None)
    end.

(* hits are in front of the origin and in the box of the asset *)
Definition hits_in_box {A} (box : A -> aabb) (first : A -> ray -> option Q) : Prop :=
  forall a r d, first a r = Some d ->
    (0 < d)%Q /\ exists p, on_ray r d p /\ contains (box a) p.

(* the ray does not run inside the plane of a face of the box of an asset *)
Definition off_faces {A} (box : A -> aabb) (assets : list A) (r : ray) : Prop :=
  forall a k q, In a assets -> (coord k (r_d r) == 0)%Q ->
    projl k (box a) = Fin q \/ projh k (box a) = Fin q -> ~ (q == coord k (r_o r))%Q.

(* the answer to "which asset is hit first, closer than the largest float" *)
Definition kd_closest {A} (first : A -> ray -> option Q) (assets : list A) (r : ray)
    (answer : option A * xq) : Prop :=
  match fst answer with
  | Some a =>
      In a assets /\
      exists d, first a r = Some d /\ snd answer = Fin d /\ (d <= flt_max)%Q /\
        forall a' d', In a' assets -> first a' r = Some d' -> (d <= d')%Q
  | None =>
      snd answer = Fin flt_max /\
      forall a d, In a assets -> first a r = Some d -> (flt_max <= d)%Q
  end.
