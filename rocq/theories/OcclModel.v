(* src/utility/occlusion_tester.{hpp,cpp}: is the way to a light free, with the last
   occluder of every bounce count remembered. *)
From Verif Require Import Common GeomModel AabbModel KdModel.
Local Open Scope nat_scope.

(* settings.h:18 and 24 *)
Definition default_bounces : nat := 5.
Definition occlusion_error : Q := 1 # 1000.

(* occlusion_tester.hpp:59, the array lasthit; NULL is None *)
Definition cache (A : Type) : Type := list (option A).

(* occlusion_tester.cpp:6-11 *)
Definition cache_new {A} : cache A := repeat None default_bounces.

Section Occl.
Context {A : Type} (box : A -> aabb).
Variable asset_intersect : A -> ray -> xq -> option Q.
(* Vec3::length and Point3::distance need a square root: this is the length of a
   direction (a number whose square is the sum of the squares; see the theorems) *)
Variable len : vec -> Q.

Definition cache_put (c : cache A) (i : nat) (a : A) : cache A :=
  firstn i c ++ Some a :: skipn (S i) c.

(* occlusion_tester.cpp:13-33.  [ricochet] is the member of the ray.  The cached
   asset is asked for a hit no further than FLT_MAX and its distance is the
   parameter along the ray; the distance of the hit of the scene is that of the hit
   point from the origin, the parameter times the length of the direction
   (Asset::intersect, asset.cpp:40, maps the point back to world space, where it is
   the point of the ray with the same parameter). *)
Definition is_occluded (t : kdtree A) (c : cache A) (r : ray) (ricochet : nat) (distance : Q)
    : res (bool * cache A) :=
  match nth_error c ricochet with
  | None => UB
  | Some lhit =>
      let cached :=
        match lhit with
        | None => false
        | Some a =>
            match asset_intersect a r (Fin flt_max) with
            | Some d => qltb (d + occlusion_error) distance
            | None => false
            end
        end in
      if cached then Ok (true, c)
      else
        let! (found, best) := kd_intersect box asset_intersect t r in
        match found with
        | Some a =>
            Ok (match best with
                | Fin d => qltb (d * len (r_d r) + occlusion_error) distance
                | _ => false
                end, cache_put c ricochet a)
        | None => Ok (false, c)
        end
  end.

(* a query: the ray, its bounce count and the distance of the light *)
Definition query : Type := (ray * nat * Q)%type.

(* the cache after a sequence of queries *)
Fixpoint after (t : kdtree A) (c : cache A) (qs : list query) : res (cache A) :=
  match qs with
  | [] => Ok c
  | (r, k, d) :: qs => let! (_, c) := is_occluded t c r k d in after t c qs
  end.
End Occl.
