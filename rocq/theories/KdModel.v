(* Model of the construction and the traversal of src/accelerators/kdtree.cpp.
   The asset buffer is the one of KdAddModel, the packing of the nodes the one of
   BitsModel.  What is left abstract: the assets (their box and their own
   intersection routine), std::sort, and the cost of a split, so that the theorems
   hold for every outcome of the floating point heuristic. *)
From Verif Require Import Common GeomModel AabbModel BitsModel KdAddModel.
Local Open Scope nat_scope.

(* kdtree.hpp:25-31 *)
Definition leaf_assets : nat := 3.
Definition sah_intersect : Q := 50.
Definition sah_descend : Q := 1.
Definition kd_max_depth : nat := 15.

(* kdtree.cpp:81-98, KdTreeBuildNode: a leaf holds the offset and the number of its
   assets, an interior node the axis, the position of the plane and the children *)
Inductive kdbuild :=
| KLeaf (offset number : nat)
| KNode (axis : nat) (split : xq) (l r : kdbuild).

(* kdtree.cpp:102-107, SplitCandidate *)
Record event (A : Type) := mk_event { ev_pos : xq; ev_left : bool; ev_who : A }.
Arguments mk_event {A}.
Arguments ev_pos {A}.
Arguments ev_left {A}.
Arguments ev_who {A}.

(* kdtree.hpp:160-175: an element of nodesList; the union holds the split of an
   interior node or the asset offset of a leaf, the packed word is that of
   BitsModel *)
Record knode := mk_knode { kn_union : xq + nat; kn_data : N }.
Definition kn_word (n : knode) : kdnode := mk_kdnode 0 (kn_data n).
(* kdtree.cpp:35-40 *)
Definition kn_leaf (offset number : nat) : knode :=
  mk_knode (inr offset) (kd_data (kd_leaf 0 (N.of_nat number))).
(* kdtree.cpp:21-33 *)
Definition kn_interior (split : xq) (axis other : nat) : knode :=
  mk_knode (inl split) (kd_data (kd_interior 0 (Z.of_nat axis) (N.of_nat other))).

(* kdtree.hpp:238-259: the data a ray needs.  An element of nodesList that was
   allocated and not yet written is None. *)
Record kdtree (A : Type) := mk_kdtree
  { kt_box : aabb; kt_nodes : list (option knode); kt_assets : list A }.
Arguments mk_kdtree {A}.
Arguments kt_box {A}.
Arguments kt_nodes {A}.
Arguments kt_assets {A}.

(* kdtree.cpp:172-210.  nodes_index is the length of the list, whose elements are
   all those below nodes_index; the array is doubled when full, so the stores are
   inside it. *)
Definition put {B} (l : list B) (i : nat) (b : B) : list B :=
  firstn i l ++ b :: skipn (S i) l.
Fixpoint finalize (t : kdbuild) (nodes : list (option knode)) : list (option knode) :=
  match t with
  | KLeaf o n => nodes ++ [Some (kn_leaf o n)]
  | KNode axis split l r =>
      let myindex := length nodes in
      let nodes := finalize l (nodes ++ [None]) in
      let nodes := put nodes myindex (Some (kn_interior split axis (length nodes))) in
      finalize r nodes
  end.

Definition xrecip1 (x : xq) : xq :=
  match x with
  | Fin q => recip false q
  | PInf | NInf => Fin 0
  | NaN => NaN
  end.

(* kdtree.cpp:285-289 and 324-344: the cost of a candidate, without rounding.  The numbers of
   assets are converted to float exactly (they are at most 4096). *)
Definition sah_cost (area : aabb) (axis : nat) (pos : xq) (left_a right_a : nat) : xq :=
  let diag k := xsub (projh k area) (projl k area) in
  let inv_area := xrecip1 (surface area) in
  let o1 := (axis + 1) mod 3 in
  let o2 := (axis + 2) mod 3 in
  let side d :=
    xmul (Fin 2) (xadd (xmul (diag o1) (diag o2)) (xmul d (xadd (diag o1) (diag o2)))) in
  let al := xmul (side (xsub pos (projl axis area))) inv_area in
  let ar := xmul (side (xsub (projh axis area) pos)) inv_area in
  let num n := Fin (inject_Z (Z.of_nat n)) in
  let bonus := if (left_a =? 0) || (right_a =? 0) then 1%Q else 0%Q in
  xadd (Fin sah_descend)
       (xmul (Fin (sah_intersect * (1 - bonus))) (xadd (xmul al (num left_a)) (xmul ar (num right_a)))).

Section Build.
Context {A : Type} (box : A -> aabb).
(* std::sort with compare_sc (kdtree.cpp:110-113) *)
Variable sort : list (event A) -> list (event A).
(* the cost of splitting the area along the axis at the position, with the given
   numbers of assets on the two sides *)
Variable cost : aabb -> nat -> xq -> nat -> nat -> xq.

(* kdtree.cpp:300-309 *)
Definition events (axis : nat) (l : list A) : list (event A) :=
  flat_map (fun a => [mk_event (projl axis (box a)) true a;
                      mk_event (projh axis (box a)) false a]) l.

(* kdtree.cpp:314-354: the candidates of one axis in sorted order.  i is the index
   of the head of the list; best is best_cost with best_split, if one was found.
   right_a is unsigned and cannot go below zero: there are as many right sides as
   assets. *)
Fixpoint scan (area : aabb) (axis : nat) (evs : list (event A)) (i left_a right_a : nat)
    (best : xq * option nat) : xq * option nat :=
  match evs with
  | [] => best
  | e :: evs =>
      let right_a := if ev_left e then right_a else right_a - 1 in
      let best :=
        if xlt (projl axis area) (ev_pos e) && xlt (ev_pos e) (projh axis area) then
          let c := cost area axis (ev_pos e) left_a right_a in
          if xlt c (fst best) then (c, Some i) else best
        else best in
      let left_a := if ev_left e then left_a + 1 else left_a in
      scan area axis evs (i + 1) left_a right_a best
  end.

(* kdtree.cpp:292-362: at most three axes are tried, starting from the longest;
   the first one with a candidate is kept.  The result is best_cost, best_axis,
   the sorted candidates of that axis and best_split. *)
Fixpoint search (tries : nat) (area : aabb) (l : list A) (axis : nat)
    : option (xq * nat * list (event A) * nat) :=
  match tries with
  | O => None
  | S tries =>
      let evs := sort (events axis l) in
      match scan area axis evs 0 0 (length l) (PInf, None) with
      | (c, Some i) => Some (c, axis, evs, i)
      | (_, None) => search tries area l ((axis + 1) mod 3)
      end
  end.

(* kdtree.cpp:385-390: the assets whose left side comes before the split *)
Definition as_left (evs : list (event A)) (split : nat) : list A :=
  map ev_who (filter ev_left (firstn split evs)).
(* kdtree.cpp:391-393: the assets whose right side comes after the split *)
Definition as_right (evs : list (event A)) (split : nat) : list A :=
  map ev_who (filter (fun e => negb (ev_left e)) (skipn (S split) evs)).

Definition with_hi (axis : nat) (v : xq) (b : aabb) : aabb :=
  let h := b_hi b in
  mk_aabb (b_lo b) (match axis with
                    | 0 => XV v (xy h) (xz h)
                    | 1 => XV (xx h) v (xz h)
                    | _ => XV (xx h) (xy h) v
                    end).
Definition with_lo (axis : nat) (v : xq) (b : aabb) : aabb :=
  let h := b_lo b in
  mk_aabb (match axis with
           | 0 => XV v (xy h) (xz h)
           | 1 => XV (xx h) v (xz h)
           | _ => XV (xx h) (xy h) v
           end) (b_hi b).

(* kdtree.cpp:265-280 and 364-375: a leaf; the assets are appended to the buffer *)
Definition make_leaf (l : list A) (k : kdbuf A) : res (kdbuild * kdbuf A) :=
  let! k' := addAssets k l in
  Ok (KLeaf (length (kb_assets k)) (length l), k').

(* kdtree.cpp:257-413.  [levels] is KD_MAX_DEPTH-depth.  [cap] is the number of
   assets the candidate arrays were allocated for (kdtree.cpp:234-238); as_left
   has room for a_n assets and as_right for sixteen times as many. *)
Fixpoint build (levels cap : nat) (l : list A) (area : aabb) (k : kdbuf A)
    : res (kdbuild * kdbuf A) :=
  match levels with
  | O => make_leaf l k
  | S levels =>
      let a_n := length l in
      if a_n <=? leaf_assets then make_leaf l k
      else if cap <? a_n then UB
      else
        match search 3 area l (longest_axis area) with
        | None => make_leaf l k
        | Some (best_cost, axis, evs, split) =>
            if xlt (Fin (4 * (sah_intersect * inject_Z (Z.of_nat a_n)))) best_cost && (a_n <? 16)
            then make_leaf l k
            else
              match nth_error evs split with
              | None => UB
              | Some e =>
                  let ll := as_left evs split in
                  let lr := as_right evs split in
                  if (a_n <? length ll) || (16 * a_n <? length lr) then UB
                  else
                    let! (tl, k) := build levels cap ll (with_hi axis (ev_pos e) area) k in
                    let! (tr, k) := build levels cap lr (with_lo axis (ev_pos e) area) k in
                    Ok (KNode axis (ev_pos e) tl tr, k)
              end
        end
  end.

(* the box of the scene, kdtree.cpp:222-224 *)
Definition scene_box (a : A) (l : list A) : aabb := fold_left engulf (map box l) (box a).

(* kdtree.cpp:212-255, on a tree that was not built before.  Without assets nothing
   is built: the box stays the empty one and the array of nodes is not written. *)
Definition buildTree (k : kdbuf A) : res (kdtree A) :=
  match kb_assets k with
  | [] => Ok (mk_kdtree aabb_empty [None] [])
  | a :: l =>
      let area := scene_box a l in
      let n := length (a :: l) in
      let! (t, k') := build kd_max_depth n (a :: l) area (mk_kdbuf [] (kb_alloc k)) in
      Ok (mk_kdtree area (finalize t []) (kb_assets k'))
  end.
End Build.

(* the largest finite float *)
Definition flt_max : Q := inject_Z ((2 ^ 24 - 1) * 2 ^ 104).

Definition xeq (a b : xq) : bool :=
  match a, b with
  | Fin p, Fin q => Qeq_bool p q
  | PInf, PInf | NInf, NInf => true
  | _, _ => false
  end.

Definition inv_axis (p : ray_props) (k : nat) : xq :=
  match k with 0 => inv_x p | 1 => inv_y p | _ => inv_z p end.

Section Walk.
Context {A : Type} (box : A -> aabb).
(* Asset::intersect (asset.cpp:29-49): the distance of a hit of this asset by the
   ray no further than the given distance *)
Variable asset_intersect : A -> ray -> xq -> option Q.

(* kdtree.cpp:483-499; the answer is the asset recorded last, if any, and
   bestdistance *)
Fixpoint kd_leaf_loop (assets : list A) (r : ray) (p : ray_props) (off n : nat)
    (found : option A) (best : xq) : res (option A * xq) :=
  match n with
  | O => Ok (found, best)
  | S n =>
      match nth_error assets off with
      | None => UB
      | Some a =>
          let skip := kd_leaf_loop assets r p (S off) n found best in
          match intersect2 (box a) r p with
          | None => skip
          | Some (res1, _) =>
              if xlt res1 best then
                match asset_intersect a r best with
                | None => skip
                | Some d => kd_leaf_loop assets r p (S off) n (Some a) (Fin d)
                end
              else skip
          end
      end
  end.

(* kdtree.cpp:432-512.  A node is the index of its element, jobs is the stack with
   its top first. *)
Fixpoint kd_walk (fuel : nat) (t : kdtree A) (r : ray) (p : ray_props) (n : nat)
    (mint maxt : xq) (jobs : list (nat * xq * xq)) (found : option A) (best : xq)
    : res (option A * xq) :=
  match fuel with
  | O => OutOfFuel
  | S fuel =>
      if xlt best mint then Ok (found, best)
      else
        match nth_error (kt_nodes t) n with
        | Some (Some node) =>
            if kd_isLeaf (kn_word node) then
              match kn_union node with
              | inl _ => UB
              | inr off =>
                  let! (found, best) :=
                    kd_leaf_loop (kt_assets t) r p off
                      (N.to_nat (kd_getAssetsNumber (kn_word node))) found best in
                  match jobs with
                  | (n, mint, maxt) :: jobs => kd_walk fuel t r p n mint maxt jobs found best
                  | [] => Ok (found, best)
                  end
              end
            else
              match kn_union node with
              | inr _ => UB
              | inl split =>
                  let axis := N.to_nat (kd_getAxis (kn_word node)) in
                  let other := N.to_nat (kd_getOtherChildOffset (kn_word node)) in
                  let o := Fin (coord axis (r_o r)) in
                  let planet := xmul (xsub split o) (inv_axis p axis) in
                  let leftBelow := xlt o split || (xeq o split &&
                                   negb (qltb 0 (coord axis (r_d r)))) in
                  let near := if leftBelow then S n else other in
                  let far := if leftBelow then other else S n in
                  if xlt maxt planet || xge (Fin 0) planet then
                    kd_walk fuel t r p near mint maxt jobs found best
                  else if xlt planet mint then
                    kd_walk fuel t r p far mint maxt jobs found best
                  else if kd_max_depth <=? length jobs then UB
                  else
                    kd_walk fuel t r p near mint planet ((far, planet, maxt) :: jobs) found best
              end
        | _ => UB
        end
  end.

(* kdtree.cpp:415-514 *)
Definition kd_intersect (t : kdtree A) (r : ray) : res (option A * xq) :=
  let p := ray_properties r in
  match intersect2 (kt_box t) r p with
  | None => Ok (None, Fin flt_max)
  | Some (mint, maxt) =>
      kd_walk (length (kt_nodes t) + 1) t r p 0 mint maxt [] None (Fin flt_max)
  end.
End Walk.
