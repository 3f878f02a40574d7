(* Rays in single precision: boxes, the walks through the kd-tree and the Bvh, triangles,
   spheres and the occlusion test, with the operations of FltModel. *)
From Coq Require Import ZArith List.
From Flocq Require Import IEEE754.BinarySingleNaN.
From Verif Require Import Common FltModel.
Import ListNotations.
Local Open Scope Z_scope.

(* ray.hpp:40-47 and AABB.hpp: an origin and a direction, two corners *)
Record fray := mk_fray { fr_o : fvec; fr_d : fvec }.
Record fbox := mk_fbox { fb_lo : fvec; fb_hi : fvec }.

Definition fcoord (k : nat) (v : fvec) : f32 := match k with 0%nat => fx v | 1%nat => fy v | _ => fz v end.
Definition fneg (x : f32) : f32 := Bopp x.

(* ray.hpp:121-126 *)
Definition f_inv (r : fray) (k : nat) : f32 := fdiv fone (fcoord k (fr_d r)).
Definition f_isneg (r : fray) (k : nat) : bool := flt (f_inv r k) fzero.

(* AABB.cpp:158-161, 170-171, kdtree.cpp:446-447: where the ray meets the plane at [p] across axis k *)
Definition f_meet (r : fray) (k : nat) (p : f32) : f32 := fmul (fsub p (fcoord k (fr_o r))) (f_inv r k).

(* bounds[isInvNeg] and bounds[1-isInvNeg] *)
Definition f_near (b : fbox) (r : fray) (k : nat) : f32 :=
  f_meet r k (fcoord k (if f_isneg r k then fb_hi b else fb_lo b)).
Definition f_far (b : fbox) (r : fray) (k : nat) : f32 :=
  f_meet r k (fcoord k (if f_isneg r k then fb_lo b else fb_hi b)).

(* AABB.cpp:153-182 *)
Definition f_slab (b : fbox) (r : fray) : option (f32 * f32) :=
  let mint := f_near b r 0 in
  let maxt := f_far b r 0 in
  let minyt := f_near b r 1 in
  let maxyt := f_far b r 1 in
  if fgt mint maxyt || fgt minyt maxt then None
  else
    let mint := if fgt minyt mint then minyt else mint in
    let maxt := if flt maxyt maxt then maxyt else maxt in
    let minyt := f_near b r 2 in
    let maxyt := f_far b r 2 in
    if fgt mint maxyt || fgt minyt maxt then None
    else
      let mint := if fgt minyt mint then minyt else mint in
      let maxt := if flt maxyt maxt then maxyt else maxt in
      Some (mint, maxt).

(* FLT_MAX *)
Definition f_max : f32 := fnum 16777215 104.

(* ----- kd-tree ----- *)

(* the tree that nodesList encodes (KdSpec.encodes): a leaf lists its assets, an interior
   node has an axis, a plane and the child below and above the plane *)
Inductive ftree (A : Type) :=
| FLeaf (l : list A)
| FNode (axis : nat) (split : f32) (lower upper : ftree A).
Arguments FLeaf {A}.
Arguments FNode {A}.

Section Kd.
Context {A : Type} (box : A -> fbox).
(* Asset::intersect: the distance of a hit no further than the given one *)
Variable hit : A -> fray -> f32 -> option f32.

(* kdtree.cpp:483-499 *)
Fixpoint f_leaf (l : list A) (r : fray) (found : option A) (best : f32) : option A * f32 :=
  match l with
  | [] => (found, best)
  | a :: l =>
      match f_slab (box a) r with
      | None => f_leaf l r found best
      | Some (res1, _) =>
          if flt res1 best then
            match hit a r best with
            | None => f_leaf l r found best
            | Some d => f_leaf l r (Some a) d
            end
          else f_leaf l r found best
      end
  end.

(* kdtree.cpp:432-512, the stack without its bound (KdProps.kd_intersect_safe) *)
Fixpoint f_walk (fuel : nat) (r : fray) (n : ftree A) (mint maxt : f32)
    (jobs : list (ftree A * f32 * f32)) (found : option A) (best : f32) : res (option A * f32) :=
  match fuel with
  | O => OutOfFuel
  | S fuel =>
      if flt best mint then Ok (found, best)
      else
        match n with
        | FLeaf l =>
            let (found, best) := f_leaf l r found best in
            match jobs with
            | (n, mint, maxt) :: jobs => f_walk fuel r n mint maxt jobs found best
            | [] => Ok (found, best)
            end
        | FNode axis split lower upper =>
            let planet := f_meet r axis split in
            let o := fcoord axis (fr_o r) in
            let leftBelow := flt o split || (Beqb o split && fle (fcoord axis (fr_d r)) fzero) in
            let near := if leftBelow then lower else upper in
            let far := if leftBelow then upper else lower in
            if fgt planet maxt || fle planet fzero then f_walk fuel r near mint maxt jobs found best
            else if flt planet mint then f_walk fuel r far mint maxt jobs found best
            else f_walk fuel r near mint planet ((far, planet, maxt) :: jobs) found best
        end
  end.

(* kdtree.cpp:415-514 for the box of the scene and its tree *)
Definition f_kd (fuel : nat) (scene : fbox) (t : ftree A) (r : fray) : res (option A * f32) :=
  match f_slab scene r with
  | None => Ok (None, f_max)
  | Some (mint, maxt) => f_walk fuel r t mint maxt [] None f_max
  end.
End Kd.

(* ----- Bvh ----- *)

(* the tree that nodesList encodes: every node has a box *)
Inductive fbvh (A : Type) :=
| BLeaf (b : fbox) (l : list A)
| BNode (b : fbox) (axis : nat) (left right : fbvh A).
Arguments BLeaf {A}.
Arguments BNode {A}.
Definition fbvh_box {A} (t : fbvh A) : fbox := match t with BLeaf b _ => b | BNode b _ _ _ => b end.

Section Bvh.
Context {A : Type}.
(* Triangle::intersect *)
Variable hit : A -> fray -> f32 -> option f32.

(* bvh.cpp:426-434 *)
Fixpoint f_tris (l : list A) (r : fray) (found : option A) (distance : f32) : option A * f32 :=
  match l with
  | [] => (found, distance)
  | a :: l =>
      match hit a r distance with
      | None => f_tris l r found distance
      | Some d => f_tris l r (Some a) d
      end
  end.

(* bvh.cpp:408-462: the node, then the stack *)
Fixpoint f_bvh (fuel : nat) (r : fray) (jobs : list (fbvh A)) (found : option A) (distance : f32)
    : res (option A * f32) :=
  match fuel with
  | O => OutOfFuel
  | S fuel =>
      match jobs with
      | [] => Ok (found, distance)
      | n :: jobs =>
          match f_slab (fbvh_box n) r with
          | None => f_bvh fuel r jobs found distance
          | Some (dmin, _) =>
              if match found with Some _ => fgt dmin distance | None => false end
              then f_bvh fuel r jobs found distance
              else
                match n with
                | BLeaf _ l =>
                    let (found, distance) := f_tris l r found distance in
                    f_bvh fuel r jobs found distance
                | BNode _ axis sl sr =>
                    if f_isneg r axis then f_bvh fuel r (sr :: sl :: jobs) found distance
                    else f_bvh fuel r (sl :: sr :: jobs) found distance
                end
          end
      end
  end.
End Bvh.

(* ----- primitives ----- *)

Definition fv_sub (a b : fvec) : fvec := mk_fvec (fsub (fx a) (fx b)) (fsub (fy a) (fy b)) (fsub (fz a) (fz b)).
(* vec3.cpp:92-95 *)
Definition fv_dot (a b : fvec) : f32 := fadd (fadd (fmul (fx a) (fx b)) (fmul (fy a) (fy b))) (fmul (fz a) (fz b)).
(* vec3.cpp:128-133 *)
Definition fv_cross (a b : fvec) : fvec :=
  mk_fvec (fsub (fmul (fy a) (fz b)) (fmul (fz a) (fy b))) (fsub (fmul (fz a) (fx b)) (fmul (fx a) (fz b)))
    (fsub (fmul (fx a) (fy b)) (fmul (fy a) (fx b))).
(* ray.cpp:24-29 *)
Definition f_apply (r : fray) (t : f32) : fvec :=
  let at_ k := fadd (fcoord k (fr_o r)) (fmul (fcoord k (fr_d r)) t) in mk_fvec (at_ 0%nat) (at_ 1%nat) (at_ 2%nat).

(* settings.h:21, 24: 1e-2f and 1e-3f; utility.hpp:293: 1e-4f *)
Definition f_self : f32 := fnum 10737418 (-30).
Definition f_occl : f32 := fnum 8589935 (-33).
Definition f_tangent : f32 := fnum 13743895 (-37).

(* triangle.cpp:55-84, without the mask: distance, u and v *)
Definition f_triangle (a b c : fvec) (r : fray) (distance : f32) : option (f32 * f32 * f32) :=
  let ba := fv_sub b a in
  let ca := fv_sub c a in
  let pv := fv_cross (fr_d r) ca in
  let det := fv_dot pv ba in
  if Beqb det fzero then None
  else
    let invdet := fdiv fone det in
    let tv := fv_sub (fr_o r) a in
    let u := fmul (fv_dot pv tv) invdet in
    if flt u fzero || fgt u fone then None
    else
      let qv := fv_cross tv ba in
      let v := fmul (fv_dot (fr_d r) qv) invdet in
      if flt v fzero || fgt (fadd u v) fone then None
      else
        let dist := fmul (fv_dot ca qv) invdet in
        if flt dist f_self || fgt dist distance then None else Some (dist, u, v).

(* utility.hpp:289-312 *)
Definition f_equation2 (a b c : f32) : option (f32 * f32) :=
  let delta := fsub (fmul b b) (fmul (fmul (of_Z 4) a) c) in
  if fle delta fzero && fle fzero (fadd delta f_tangent) then
    let sol := fdiv (fneg b) (fmul a (of_Z 2)) in Some (sol, sol)
  else if fle fzero delta then
    let q := if flt b fzero then fmul (fnum (-1) (-1)) (fsub b (fsqrt delta))
             else fmul (fnum (-1) (-1)) (fadd b (fsqrt delta)) in
    Some (fdiv q a, fdiv c q)
  else None.

(* sphere.cpp:63-101 and 141-142, a sphere without a mask: the distance and the normal before
   it is normalised, which is the point of the unit sphere that was hit *)
Definition f_sphere (r : fray) (distance : f32) : option (f32 * fvec) :=
  let a := fv_dot (fr_d r) (fr_d r) in
  let b := fmul (of_Z 2) (fv_dot (fr_d r) (fr_o r)) in
  let c := fsub (fv_dot (fr_o r) (fr_o r)) fone in
  match f_equation2 a b c with
  | None => None
  | Some (s1, s2) =>
      let (sol1, sol2) := if flt s2 s1 then (s2, s1) else (s1, s2) in
      if flt distance sol1 then None
      else if flt sol1 f_self then
        if flt sol2 f_self || flt distance sol2 then None else Some (sol2, f_apply r sol2)
      else Some (sol1, f_apply r sol1)
  end.

(* point3.cpp:35-42 *)
Definition fv_distance (a b : fvec) : f32 :=
  let x := fsub (fx b) (fx a) in let y := fsub (fy b) (fy a) in let z := fsub (fz b) (fz a) in
  fsqrt (fadd (fadd (fmul x x) (fmul y y)) (fmul z z)).

(* occlusion_tester.cpp:21, 28: something at [newdistance] hides what is at [distance] *)
Definition f_hides (newdistance distance : f32) : bool := flt (fadd newdistance f_occl) distance.
