(* Model of src/accelerators/bvh.cpp: construction by agglomerative clustering,
   flattening and ray traversal.

   An access outside of an array, the read of memory never written, and the
   exception thrown by std::vector::at (nobody catches it) are all UB. *)
From Verif Require Export Common GeomModel AabbModel TriModel BitsModel.
Local Open Scope nat_scope.

(* bvh.hpp: AAC_DELTA *)
Definition aac_delta : nat := 4.

(* bvh.cpp:21-23: ceil(4^0.7 * 0.5 * x^0.3) in exact arithmetic, that is the least
   k with k^10 >= 16 * x^3; the search starts at k and makes at most [fuel] steps.
   The functions below take it as a parameter, since the float result may differ
   from the exact one. *)
Fixpoint aac_search (fuel : nat) (k x : N) : N :=
  match fuel with
  | O => k
  | S fuel => if (16 * x ^ 3 <=? k ^ 10)%N then k else aac_search fuel (k + 1)%N x
  end.
Definition aac_f (x : nat) : nat := N.to_nat (aac_search (x + 2) 0 (N.of_nat x)).

(* bvh.cpp:27-37 *)
Record prim := mk_prim { pr_index : nat; pr_morton : N }.

(* bvh.cpp:39-68 *)
Inductive bnode :=
| BLeaf (box : aabb) (offset number : nat)
| BNode (box : aabb) (left right : bnode) (split : nat).

Definition bounding (n : bnode) : aabb :=
  match n with BLeaf b _ _ => b | BNode b _ _ _ => b end.

(* bvh.cpp:50-57; bounding starts as the default box *)
Definition interior (l r : bnode) (axis : nat) : bnode :=
  BNode (engulf (engulf aabb_empty (bounding l)) (bounding r)) l r axis.
(* bvh.cpp:60-67 *)
Definition leaf (box : aabb) (offset number : nat) : bnode :=
  BLeaf (engulf aabb_empty box) offset number.

(* bvh.cpp:71-80, the variant for compilers with __builtin_ffsll: one plus the
   index of the lowest bit set, 0 for 0 *)
Fixpoint ffs_from (fuel : nat) (v : N) : nat :=
  match fuel with
  | O => 0
  | S fuel => if N.odd v then 1 else S (ffs_from fuel (N.div2 v))
  end.
Definition bsf (v : N) : nat := if (v =? 0)%N then 0 else ffs_from 64 v.

Definition at_ {A} (l : list A) (i : nat) : res A :=
  match nth_error l i with Some a => Ok a | None => UB end.

Definition upd {A} (l : list A) (i : nat) (a : A) : list A :=
  firstn i l ++ match skipn i l with [] => [] | _ :: t => a :: t end.

(* surface of the union of two nodes, bvh.cpp:138-139 and 176 *)
Definition join (a b : bnode) : xq := surface (engulf (bounding a) (bounding b)).

(* bvh.cpp:130-148; the nodes of a cluster are distinct pointers, so the test
   c->at(i) != b is a comparison of positions.  [j] is the position of the head
   of [l], [i] the position of [b]. *)
Fixpoint match_from (l : list bnode) (j i : nat) (b : bnode) (best : xq) (ret : nat) : nat :=
  match l with
  | [] => ret
  | n :: l =>
      if j =? i then match_from l (S j) i b best ret
      else
        let val := join n b in
        if xlt val best then match_from l (S j) i b val j
        else match_from l (S j) i b best ret
  end.
Definition findBestMatch (c : list bnode) (i : nat) (b : bnode) : nat :=
  match_from c 0 i b PInf 0.

(* bvh.cpp:173-183: [left] and [right] keep their former values when no pair is
   below infinity; None is the initial 0xFFFFFFFF *)
Fixpoint best_from (c : list bnode) (l : list bnode) (cl : list nat) (i : nat)
    (best : xq) (lr : option (nat * nat)) : res (option (nat * nat)) :=
  match l with
  | [] => Ok lr
  | n :: l =>
      let! k := at_ cl i in
      let! m := at_ c k in
      let val := join n m in
      if xlt val best then best_from c l cl (S i) val (Some (i, k))
      else best_from c l cl (S i) best lr
  end.

(* bvh.cpp:206-217: the entries of [closest] below the size of the cluster *)
Fixpoint refresh_from (c : list bnode) (l : list bnode) (cl : list nat) (i left right : nat)
    : list nat :=
  match l, cl with
  | n :: l, k :: cl =>
      let k := if (k =? left) || (k =? right) then findBestMatch c i n else k in
      let k := if k =? length c then right else k in
      k :: refresh_from c l cl (S i) left right
  | _, cl => cl
  end.

(* bvh.cpp:169-219 *)
Fixpoint combine_loop (fuel : nat) (c : list bnode) (cl : list nat)
    (lr : option (nat * nat)) (n axis created : nat) : res (list bnode * nat) :=
  match fuel with
  | O => OutOfFuel
  | S fuel =>
      if n <? length c then
        let! lr := best_from c c cl 0 PInf lr in
        match lr with
        | None => UB
        | Some (il, ir) =>
            let! a := at_ c il in
            let! b := at_ c ir in
            let node := interior a b axis in
            let c := upd c il node in
            let! back := at_ c (length c - 1) in
            let c := removelast (upd c ir back) in
            let! cl :=
              if n <? length c then
                let! moved := at_ cl (length c) in
                let cl := upd cl ir moved in
                let! l := at_ c il in
                let cl := upd cl il (findBestMatch c il l) in
                Ok (refresh_from c c cl 0 il ir)
              else Ok cl in
            combine_loop fuel c cl lr n axis (S created)
        end
      else Ok (c, created)
  end.

(* bvh.cpp:154-222; closest is not initialised when no pair is needed, and then
   not read either *)
Definition combineCluster (c : list bnode) (n axis : nat) : res (list bnode * nat) :=
  let cl :=
    if n <? length c
    then map (fun ib => findBestMatch c (fst ib) (snd ib)) (combine (seq 0 (length c)) c)
    else repeat 0 (length c) in
  combine_loop (S (length c)) c cl None n axis 0.

(* bvh.cpp:240-248 *)
Fixpoint part_loop (fuel : nat) (mc : list prim) (m : N) (left right : nat) : res nat :=
  match fuel with
  | O => OutOfFuel
  | S fuel =>
      let cur := (left + right) / 2 in
      if left <? cur then
        let! p := at_ mc cur in
        if (N.land (pr_morton p) m =? 0)%N then part_loop fuel mc m cur right
        else part_loop fuel mc m left cur
      else Ok left
  end.

(* bvh.cpp:229-249; the sums of indices do not overflow uint32_t because there
   are at most _MAX_TRIS_ triangles *)
Definition makePartition (mc : list prim) (start end_ : nat) (m : N) : res nat :=
  let! s := at_ mc start in
  let! e := at_ mc end_ in
  if (N.land (pr_morton s) m =? N.land (pr_morton e) m)%N || (m =? 0)%N
  then Ok (start + (end_ - start) / 2)
  else part_loop (S (end_ - start)) mc m start end_.

(* bvh.cpp:272-273: the box of triangles p[offs], ... *)
Fixpoint leaf_box (tris : list triangle) (p : list prim) (offs len : nat) (box : aabb)
    : res aabb :=
  match len with
  | O => Ok box
  | S len =>
      let! q := at_ p offs in
      let! t := at_ tris (pr_index q) in
      leaf_box tris p (S offs) len (engulf box (tri_aabb t))
  end.

(* bvh.cpp:259-293; the result is the cluster and the number of nodes created *)
Fixpoint traverseTree (fuel : nat) (aac : nat -> nat) (tris : list triangle) (p : list prim)
    (offs len : nat) (bit : N) : res (list bnode * nat) :=
  match fuel with
  | O => OutOfFuel
  | S fuel =>
      if len =? 0 then Ok ([], 0)
      else
        let axis := bsf bit mod 3 in
        if len <? aac_delta then
          let! box := leaf_box tris p offs len aabb_empty in
          let! (c, created) := combineCluster [leaf box offs len] (aac aac_delta) axis in
          Ok (c, 1 + created)
        else
          let! part := makePartition p offs (offs + len - 1) bit in
          let bit := N.div2 bit in
          let! (l, nl) := traverseTree fuel aac tris p offs (part - offs) bit in
          let! (r, nr) := traverseTree fuel aac tris p part (offs + len - part) bit in
          let! (c, nc) := combineCluster (l ++ r) (aac len) axis in
          Ok (c, nl + nr + nc)
  end.

(* bvh.hpp:43-64; fn_link is the union of offset and sibling, fn_axis is None when
   it was never written *)
Record fnode := mk_fnode { fn_box : aabb; fn_link : nat; fn_len : nat; fn_axis : option nat }.

(* the array returned by malloc: None is an element never written *)
Definition store {A} (arr : list (option A)) (i : nat) (a : A) : res (list (option A)) :=
  if i <? length arr then Ok (upd arr i (Some a)) else UB.

(* bvh.cpp:376-403; number is at most 3, so its conversion to uint8_t keeps it *)
Fixpoint flatten (t : bnode) (arr : list (option fnode)) (index : nat)
    : res (list (option fnode) * nat) :=
  match t with
  | BLeaf box offset number =>
      let! arr := store arr index (mk_fnode box offset number None) in
      Ok (arr, S index)
  | BNode box l r split =>
      let my := index in
      let! (arr, index) := flatten l arr (S index) in
      let! arr := store arr my (mk_fnode box index 0 (Some split)) in
      flatten r arr index
  end.

Record bvh := mk_bvh { bv_nodes : list (option fnode); bv_tris : list triangle }.

(* bvh.cpp:309-318 *)
Definition build_small (tris : list triangle) : bvh :=
  mk_bvh [Some (mk_fnode (fold_left engulf (map tri_aabb tris) aabb_empty) 0 (length tris) None)]
         tris.

(* bvh.cpp:366-371: tris[i] = tmp[prims[i].index] *)
Fixpoint reorder (tris : list triangle) (p : list prim) : res (list triangle) :=
  match p with
  | [] => Ok []
  | q :: p =>
      let! t := at_ tris (pr_index q) in
      let! l := reorder tris p in
      Ok (t :: l)
  end.

(* bvh.cpp:342: 0x4000000000000000 *)
Definition morton_flag : N := 2 ^ 62.

(* bvh.cpp:342-373, with the sorted primitives *)
Definition build_sorted (aac : nat -> nat) (tris : list triangle) (p : list prim) : res bvh :=
  let! (c, n1) := traverseTree (64 + length tris) aac tris p 0 (length tris) morton_flag in
  let! (c, n2) := combineCluster c 1 (bsf morton_flag mod 3) in
  let! root := at_ c 0 in
  let! (arr, _) := flatten root (repeat None (n1 + n2)) 0 in
  let! tris := reorder tris p in
  Ok (mk_bvh arr tris).

(* bvh.cpp:102-107 with 111-113: conversion of a float to uint64_t, undefined
   outside of its range *)
Definition to_u64 (x : xq) : res N :=
  match x with
  | Fin q =>
      let z := (Z.quot (Qnum q) (Zpos (Qden q)))%Z in
      if ((0 <=? z) && (z <? 2 ^ 64))%Z then Ok (Z.to_N z) else UB
  | _ => UB
  end.

Definition coord_code (x : xq) : res N := to_u64 (xmul x (Fin 2097151)).

(* bvh.cpp:102-115 (both variants agree on codes below 2^21, see BitsProps) *)
Definition mortonCode (d : xvec) : res N :=
  let! x := coord_code (xx d) in
  let! y := coord_code (xy d) in
  let! z := coord_code (xz d) in
  Ok (morton_portable x y z).

(* 1.f/x *)
Definition xrecip (x : xq) : xq :=
  match x with
  | Fin q => recip false q
  | PInf | NInf => Fin 0
  | NaN => NaN
  end.

Definition xvmul (a b : xvec) : xvec :=
  XV (xmul (xx a) (xx b)) (xmul (xy a) (xy b)) (xmul (xz a) (xz b)).

Definition engulf_xpoint (b : aabb) (p : xvec) : aabb :=
  mk_aabb (xpmin (b_lo b) p) (xpmax (b_hi b) p).

Fixpoint codes_of (lo ext : xvec) (cs : list xvec) : res (list N) :=
  match cs with
  | [] => Ok []
  | c :: cs =>
      let! m := mortonCode (xvmul (xvsub c lo) ext) in
      let! l := codes_of lo ext cs in
      Ok (m :: l)
  end.

(* bvh.cpp:319-338 *)
Definition morton_codes (tris : list triangle) : res (list N) :=
  let cs := map (fun t => center (tri_aabb t)) tris in
  let box := fold_left engulf_xpoint cs aabb_empty in
  let e := xvsub (b_hi box) (b_lo box) in
  let ext := XV (xrecip (xx e)) (xrecip (xy e)) (xrecip (xz e)) in
  codes_of (b_lo box) ext cs.

(* bvh.cpp:319-338: the array before std::sort *)
Definition prims_of (codes : list N) : list prim :=
  map (fun ic => mk_prim (fst ic) (snd ic)) (combine (seq 0 (length codes)) codes).

(* bvh.cpp:408-462.  BVH_MAX_DEPTH entries; [top] of the stack is the head. *)
Definition bvh_max_depth : nat := 32.

Record rstate := mk_rs
  { rs_found : bool; rs_dist : xq; rs_hit : hit }.

Definition with_index (h : hit) (i : nat) : hit :=
  mk_hit (h_point h) (h_normal h) (h_dpdu h) (h_dpdv h) i (h_uv h) (h_du h) (h_dv h) (h_diff h).

(* bvh.cpp:426-434 *)
Fixpoint leaf_loop (masked : hit -> bool) (tris : list triangle) (r : ray)
    (offset len : nat) (s : rstate) : res rstate :=
  match len with
  | O => Ok s
  | S len =>
      let! t := at_ tris offset in
      let s :=
        match tri_intersect masked t r (rs_dist s) (rs_hit s) with
        | Some (d, h) => mk_rs true (Fin d) (with_index h offset)
        | None => s
        end in
      leaf_loop masked tris r (S offset) len s
  end.

(* bvh.cpp:442: isXInvNeg + axis *)
Definition neg_axis (p : ray_props) (axis : nat) : bool :=
  match axis with 0 => neg_x p | 1 => neg_y p | _ => neg_z p end.

Definition node_at (b : bvh) (i : nat) : res fnode :=
  match nth_error (bv_nodes b) i with Some (Some n) => Ok n | _ => UB end.

Fixpoint walk (fuel : nat) (masked : hit -> bool) (b : bvh) (r : ray) (node : nat)
    (jobs : list nat) (s : rstate) : res rstate :=
  match fuel with
  | O => OutOfFuel
  | S fuel =>
      let rp := ray_properties r in
      let! n := node_at b node in
      let next s :=
        match jobs with
        | [] => Ok s
        | j :: jobs => walk fuel masked b r j jobs s
        end in
      match intersect2 (fn_box n) r rp with
      | Some (dmin, _) =>
          if negb (rs_found s && xlt (rs_dist s) dmin) then
            if 0 <? fn_len n then
              let! s := leaf_loop masked (bv_tris b) r (fn_link n) (fn_len n) s in
              next s
            else
              match fn_axis n with
              | None => UB
              | Some axis =>
                  if length jobs <? bvh_max_depth then
                    if neg_axis rp axis
                    then walk fuel masked b r (fn_link n) (S node :: jobs) s
                    else walk fuel masked b r (S node) (fn_link n :: jobs) s
                  else UB
              end
          else next s
      | None => next s
      end
  end.

Definition bvh_intersect (masked : hit -> bool) (b : bvh) (r : ray) (distance : xq) (h : hit)
    : res rstate :=
  walk (S (length (bv_nodes b))) masked b r 0 [] (mk_rs false distance h).

(* bvh.cpp:306-374: Bvh::buildTree.  [sort] is std::sort, [aac] the function AAC_F *)
Definition buildTree (sort : list prim -> list prim) (aac : nat -> nat) (tris : list triangle)
    : res bvh :=
  if length tris <? aac_delta then Ok (build_small tris)
  else
    let! codes := morton_codes tris in
    build_sorted aac tris (sort (prims_of codes)).

(* asset.cpp:77-80: Asset::get_material; [assoc] are the indices stored by
   set_materials (asset.cpp:68-75), in the order in which the faces were read *)
Definition get_material {M} (materials : list M) (assoc : list nat) (index : nat) : res M :=
  let! k := at_ assoc index in
  at_ materials k.
