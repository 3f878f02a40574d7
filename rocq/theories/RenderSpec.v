(* Specification of what rendering must produce. *)
From Coq Require Import Permutation.
From Verif Require Import Common TilesModel RenderModel.
Local Open Scope Z_scope.

(* sum of the contributions of a list to pixel (x, y) *)
Fixpoint total (l : list contrib) (x y : Z) : Z :=
  match l with
  | [] => 0
  | c :: l => (if ((c_x c =? x) && (c_y c =? y))%bool then c_v c else 0) + total l x y
  end.

(* all the tiles taken by the workers *)
Definition taken (s : state) : list tile := concat (map th_tiles (st_threads s)).

(* at most one tile contributes to pixel (x, y) *)
Definition pixel_of_one_tile (contribs : tile -> list contrib) (jobs : list tile) (x y : Z) : Prop :=
  NoDup jobs /\
  forall t1 t2 c1 c2, In t1 jobs -> In t2 jobs -> In c1 (contribs t1) -> In c2 (contribs t2) ->
    c_x c1 = x -> c_y c1 = y -> c_x c2 = x -> c_y c2 = y -> t1 = t2.
