(* The kd-tree object over time: assets are added, the tree is built, more assets are added, the
   tree is built again (src/accelerators/kdtree.cpp:129-255; renderer.cpp:87-88 builds it whenever a
   scene is rendered). *)
From Verif Require Import Common GeomModel AabbModel BitsModel KdAddModel KdModel.
Local Open Scope nat_scope.

(* kdtree.hpp:238-259: scene_aabb, the first nodes_index elements of nodesList, and the assets *)
Record live (A : Type) := mk_live { lv_box : aabb; lv_nodes : list (option knode); lv_buf : kdbuf A }.
Arguments mk_live {A}.
Arguments lv_box {A}.
Arguments lv_nodes {A}.
Arguments lv_buf {A}.

(* kdtree.cpp:129-142 *)
Definition kd_new {A} : live A := mk_live aabb_empty [] kd_empty.

(* kdtree.cpp:151-170, repeated *)
Definition live_add {A} (s : live A) (l : list A) : res (live A) :=
  let! k := addAssets (lv_buf s) l in Ok (mk_live (lv_box s) (lv_nodes s) k).

Section Again.
Context {A : Type} (box : A -> aabb).
Variable sort : list (event A) -> list (event A).
Variable cost : aabb -> nat -> xq -> nat -> nat -> xq.

(* kdtree.cpp:212-255: the assets are taken back one by one in the order of the leaves; nodes_index
   keeps its value, so that finalize (kdtree.cpp:172-210) writes after the nodes of the last build *)
Definition live_build (s : live A) : res (live A) :=
  match kb_assets (lv_buf s) with
  | [] => Ok s
  | a :: l =>
      let area := scene_box box a l in
      let! (t, k) := build box sort cost kd_max_depth (length (a :: l)) (a :: l) area (mk_kdbuf [] (kb_alloc (lv_buf s))) in
      Ok (mk_live area (finalize t (lv_nodes s)) k)
  end.
End Again.

(* what intersect reads (kdtree.cpp:415-514) *)
Definition live_tree {A} (s : live A) : kdtree A := mk_kdtree (lv_box s) (lv_nodes s) (kb_assets (lv_buf s)).
