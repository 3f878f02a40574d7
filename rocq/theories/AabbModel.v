(* Model of src/geometry/AABB.cpp.  Corners hold finite numbers or infinities
   (the default box is made of infinities). *)
From Verif Require Export Common GeomModel.
Local Open Scope Q_scope.

Record xvec := XV { xx : xq; xy : xq; xz : xq }.
Definition xvec_of (p : vec) : xvec := XV (Fin (vx p)) (Fin (vy p)) (Fin (vz p)).
(* point3.hpp:198-218 *)
Definition xpmin (a b : xvec) : xvec :=
  XV (xmin (xx a) (xx b)) (xmin (xy a) (xy b)) (xmin (xz a) (xz b)).
Definition xpmax (a b : xvec) : xvec :=
  XV (xmax (xx a) (xx b)) (xmax (xy a) (xy b)) (xmax (xz a) (xz b)).
Definition xvsub (a b : xvec) : xvec :=
  XV (xsub (xx a) (xx b)) (xsub (xy a) (xy b)) (xsub (xz a) (xz b)).

(* AABB.hpp: bounds[0] and bounds[1] *)
Record aabb := mk_aabb { b_lo : xvec; b_hi : xvec }.

(* AABB.cpp:6-10 *)
Definition aabb_empty : aabb := mk_aabb (XV PInf PInf PInf) (XV NInf NInf NInf).
(* AABB.cpp:12-16 *)
Definition aabb_point (p : vec) : aabb := mk_aabb (xvec_of p) (xvec_of p).
(* AABB.cpp:18-28 *)
Definition aabb_of (lo hi : vec) : aabb := mk_aabb (xvec_of lo) (xvec_of hi).

(* AABB.cpp:30-34 *)
Definition aabb_expand (b : aabb) (v : Q) : aabb :=
  mk_aabb (xvsub (b_lo b) (XV (Fin v) (Fin v) (Fin v)))
          (XV (xadd (xx (b_hi b)) (Fin v)) (xadd (xy (b_hi b)) (Fin v))
              (xadd (xz (b_hi b)) (Fin v))).

(* AABB.cpp:36-46; operator+ and += with a point (187-192, 202-206) *)
Definition engulf_point (b : aabb) (p : vec) : aabb :=
  mk_aabb (xpmin (b_lo b) (xvec_of p)) (xpmax (b_hi b) (xvec_of p)).

(* AABB.cpp:48-58; operator+ and += with a box (194-200, 208-212) *)
Definition engulf (b c : aabb) : aabb :=
  mk_aabb (xpmin (b_lo b) (b_lo c)) (xpmax (b_hi b) (b_hi c)).

(* AABB.cpp:60-65 *)
Definition inside (b : aabb) (p : vec) : bool :=
  xge (Fin (vx p)) (xx (b_lo b)) && xge (xx (b_hi b)) (Fin (vx p)) &&
  xge (Fin (vy p)) (xy (b_lo b)) && xge (xy (b_hi b)) (Fin (vy p)) &&
  xge (Fin (vz p)) (xz (b_lo b)) && xge (xz (b_hi b)) (Fin (vz p)).

(* AABB.cpp:67-71 *)
Definition surface (b : aabb) : xq :=
  let d := xvsub (b_hi b) (b_lo b) in
  xmul (Fin 2) (xadd (xadd (xmul (xx d) (xy d)) (xmul (xx d) (xz d)))
                     (xmul (xy d) (xz d))).

(* AABB.cpp:73-77 *)
Definition volume (b : aabb) : xq :=
  let d := xvsub (b_hi b) (b_lo b) in xmul (xmul (xx d) (xy d)) (xz d).

(* AABB.cpp:79-88 *)
Definition longest_axis (b : aabb) : nat :=
  let d := xvsub (b_hi b) (b_lo b) in
  if xge (xx d) (xy d) && xge (xx d) (xz d) then 0%nat
  else if xge (xy d) (xz d) then 1%nat else 2%nat.

(* AABB.cpp:90-95 *)
Definition center (b : aabb) : xvec :=
  XV (xmul (xadd (xx (b_lo b)) (xx (b_hi b))) (Fin (1 # 2)))
     (xmul (xadd (xy (b_lo b)) (xy (b_hi b))) (Fin (1 # 2)))
     (xmul (xadd (xz (b_lo b)) (xz (b_hi b))) (Fin (1 # 2))).

(* One axis of the slab tests: entry and exit parameters, with the corners
   swapped when [neg] *)
Definition slab (neg : bool) (lo hi : xq) (o : Q) (inv : xq) : xq * xq :=
  (xmul (xsub (if neg then hi else lo) (Fin o)) inv,
   xmul (xsub (if neg then lo else hi) (Fin o)) inv).

(* The narrowing of an interval by a further axis: None is `return false`.
   AABB.cpp:124-129, 142-147, 163-168 and 173-178 (the two operands of the
   disjunction are exchanged in the first pair, which has no effect) *)
Definition narrow (i s : xq * xq) : option (xq * xq) :=
  if xlt (snd s) (fst i) || xlt (snd i) (fst s) then None
  else Some (if xlt (fst i) (fst s) then fst s else fst i,
             if xlt (snd s) (snd i) then snd s else snd i).

(* AABB.cpp:97-151: the corners are chosen by the sign of the direction;
   r->direction.x>=0 holds for both zeros *)
Definition intersect1 (b : aabb) (r : ray) : option (xq * xq) :=
  let d := r_d r in let o := r_o r in
  let sx := slab (qltb (vx d) 0) (xx (b_lo b)) (xx (b_hi b)) (vx o) (recip (r_nzx r) (vx d)) in
  let sy := slab (qltb (vy d) 0) (xy (b_lo b)) (xy (b_hi b)) (vy o) (recip (r_nzy r) (vy d)) in
  let sz := slab (qltb (vz d) 0) (xz (b_lo b)) (xz (b_hi b)) (vz o) (recip (r_nzz r) (vz d)) in
  match narrow sx sy with
  | None => None
  | Some i => narrow i sz
  end.

(* AABB.cpp:153-182: the corners are chosen by the sign of the reciprocals *)
Definition intersect2 (b : aabb) (r : ray) (p : ray_props) : option (xq * xq) :=
  let o := r_o r in
  let sx := slab (neg_x p) (xx (b_lo b)) (xx (b_hi b)) (vx o) (inv_x p) in
  let sy := slab (neg_y p) (xy (b_lo b)) (xy (b_hi b)) (vy o) (inv_y p) in
  let sz := slab (neg_z p) (xz (b_lo b)) (xz (b_hi b)) (vz o) (inv_z p) in
  match narrow sx sy with
  | None => None
  | Some i => narrow i sz
  end.

(* bounds[0][k] and bounds[1][k], operator[] of Point3, and
   the k-th coordinate of a point *)
Definition projl (k : nat) (b : aabb) : xq :=
  match k with 0%nat => xx (b_lo b) | 1%nat => xy (b_lo b) | _ => xz (b_lo b) end.
Definition projh (k : nat) (b : aabb) : xq :=
  match k with 0%nat => xx (b_hi b) | 1%nat => xy (b_hi b) | _ => xz (b_hi b) end.
Definition coord (k : nat) (p : vec) : Q :=
  match k with 0%nat => vx p | 1%nat => vy p | _ => vz p end.
