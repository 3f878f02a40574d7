(* Specification of the bounding volume hierarchy: trees of triangle ranges, the
   array that encodes them, and the closest hit. *)
From Coq Require Import Permutation Sorted.
From Verif Require Import Common GeomModel AabbModel AabbSpec TriModel BvhModel.
Local Open Scope nat_scope.

(* the positions of the triangles in the leaves of a tree *)
Fixpoint members (t : bnode) : list nat :=
  match t with
  | BLeaf _ o n => seq o n
  | BNode _ l r _ => members l ++ members r
  end.

Fixpoint size (t : bnode) : nat :=
  match t with BLeaf _ _ _ => 1 | BNode _ l r _ => 1 + size l + size r end.

(* number of interior nodes on the longest path *)
Fixpoint height (t : bnode) : nat :=
  match t with BLeaf _ _ _ => 0 | BNode _ l r _ => 1 + Nat.max (height l) (height r) end.

(* no leaf is empty (a leaf is recognised by its positive length) and lengths fit
   in a uint8_t *)
Fixpoint full (t : bnode) : Prop :=
  match t with
  | BLeaf _ _ n => 0 < n < 256
  | BNode _ l r _ => full l /\ full r
  end.

Definition inside_of (a b : aabb) : Prop := forall p, contains a p -> contains b p.

(* the box of every node contains the boxes of all the triangles below it *)
Fixpoint encloses (tris : list triangle) (t : bnode) : Prop :=
  valid (bounding t) /\
  (forall i T, In i (members t) -> nth_error tris i = Some T ->
               inside_of (tri_aabb T) (bounding t)) /\
  match t with BLeaf _ _ _ => True | BNode _ l r _ => encloses tris l /\ encloses tris r end.

(* the array encodes the tree at index i: leaves hold a range; the first child of
   an interior node is the next element, the second is at the recorded index *)
Fixpoint encodes (nodes : list (option fnode)) (i : nat) (t : bnode) : Prop :=
  match t with
  | BLeaf b o n => nth_error nodes i = Some (Some (mk_fnode b o n None))
  | BNode b l r a =>
      exists sibling,
        nth_error nodes i = Some (Some (mk_fnode b sibling 0 (Some a))) /\
        encodes nodes (S i) l /\ encodes nodes sibling r
  end.


(* the positions named by the leaves of an array *)
Definition leaf_positions (b : bvh) : list nat :=
  flat_map (fun o => match o with
                     | Some n => if 0 <? fn_len n then seq (fn_link n) (fn_len n) else []
                     | None => []
                     end) (bv_nodes b).

(* the distance at which a triangle is hit on its own, if it is *)
Definition hit_at (masked : hit -> bool) (r : ray) (h : hit) (T : triangle) : option Q :=
  match tri_intersect masked T r PInf h with Some (d, _) => Some d | None => None end.

(* s is the answer to "which of the triangles at the positions P is hit first, no
   further than D0": found or not, the distance, and the hit point of that triangle *)
Definition closest (masked : hit -> bool) (tris : list triangle) (r : ray) (D0 : xq) (h0 : hit)
    (P : nat -> Prop) (s : rstate) : Prop :=
  if rs_found s then
    exists i T d h, P i /\ nth_error tris i = Some T /\
      tri_intersect masked T r PInf h0 = Some (d, h) /\
      rs_dist s = Fin d /\ xlt D0 (Fin d) = false /\
      rs_hit s = with_index h i /\
      forall j Tj dj, P j -> nth_error tris j = Some Tj -> hit_at masked r h0 Tj = Some dj ->
        (d <= dj)%Q
  else
    rs_dist s = D0 /\ rs_hit s = h0 /\
    forall j Tj dj, P j -> nth_error tris j = Some Tj -> hit_at masked r h0 Tj = Some dj ->
      xlt D0 (Fin dj) = true.

(* std::sort puts the elements in an order that is sorted by code *)
Definition sorts (sort : list prim -> list prim) : Prop :=
  forall l, Permutation l (sort l) /\
            Sorted (fun a b => (pr_morton a <= pr_morton b)%N) (sort l).
