(* Model of src/primitives/mesh.cpp: the triangle buffer and the choice of a face
   when a point of the surface is sampled. *)
From Coq Require Export QArith.
From Verif Require Import Common.
Local Open Scope N_scope.

(* settings.h: _MAX_TRIS_ *)
Definition max_tris : N := 1000000.

(* mesh.hpp: tris (its first [count] elements; count is the length) and alloc *)
Record mesh (T : Type) := mk_mesh { ms_tris : list T; ms_alloc : N }.
Arguments mk_mesh {T}.
Arguments ms_tris {T}.
Arguments ms_alloc {T}.

Definition ms_count {T} (m : mesh T) : N := N.of_nat (length (ms_tris m)).

(* mesh.cpp:6-12 *)
Definition mesh_new {T} (size : N) : mesh T := mk_mesh [] size.

(* mesh.cpp:35-57.  memcpy of the old triangles and the store at index count are
   undefined outside of the new buffer.  Allocations are assumed to succeed. *)
Definition add_triangle {T} (m : mesh T) (t : T) : res (mesh T) :=
  let count := ms_count m in
  if count =? max_tris then Ok m
  else
    let! alloc :=
      if count =? ms_alloc m then
        let doubled := u32 (N.shiftl (ms_alloc m) 1) in
        let newsize := if doubled <? max_tris then doubled else max_tris in
        if count <=? newsize then Ok newsize else UB
      else Ok (ms_alloc m) in
    if count <? alloc then Ok (mk_mesh (ms_tris m ++ [t]) alloc) else UB.

Fixpoint add_triangles {T} (m : mesh T) (l : list T) : res (mesh T) :=
  match l with
  | [] => Ok m
  | t :: l => let! m := add_triangle m t in add_triangles m l
  end.

(* mesh.cpp:59-71: the part of finalize that trims the buffer *)
Definition mesh_trim {T} (m : mesh T) : mesh T :=
  if ms_count m <? ms_alloc m then mk_mesh (ms_tris m) (ms_count m) else m.

(* mesh.cpp:160-168; [areas] are the values of tris[i].surface, exact sums *)
Fixpoint densities_from (sum : Q) (areas : list Q) : list Q :=
  match areas with
  | [] => []
  | a :: areas => let sum := (sum + a)%Q in sum :: densities_from sum areas
  end.
Definition get_densities_array (areas : list Q) : list Q := densities_from 0 areas.

(* utility.hpp:192-195 and 207-210, exact *)
Definition lerp (v mi ma : Q) : Q := ((1 - v) * mi + v * ma)%Q.
Definition inverse_lerp (v mi ma : Q) : Q := ((v - mi) / (ma - mi))%Q.

Definition Qltb (x y : Q) : bool := negb (Qle_bool y x).

(* densities[i] *)
Definition dget (d : list Q) (i : Z) : res Q :=
  if (i <? 0)%Z then UB
  else match nth_error d (Z.to_nat i) with Some x => Ok x | None => UB end.

(* mesh.cpp:201-211: the loop; the comparison with densities[mid+1] is evaluated
   only when the first one holds, as in the source *)
Fixpoint search (fuel : nat) (d : list Q) (x : Q) (start end_ : Z) : res Z :=
  match fuel with
  | O => OutOfFuel
  | S fuel =>
    let mid := ((start + end_) / 2)%Z in
    let! dm := dget d mid in
    let! stop :=
      if Qle_bool dm x then let! dn := dget d (mid + 1) in Ok (Qltb x dn) else Ok false in
    if stop then Ok mid
    else if Qltb x dm then search fuel d x start mid
    else search fuel d x mid end_
  end.

(* mesh.cpp:170-217: the index of the face that is sampled and the first argument
   given to its sample_point.  [d] is the array of densities, as long as the number
   of triangles; int arithmetic does not overflow below 2^31 triangles.  Exact
   arithmetic. *)
Definition sample_face (fuel : nat) (d : list Q) (r0 : Q) : res (Z * Q) :=
  let count := Z.of_nat (length d) in
  let! total := dget d (count - 1) in
  let x := lerp r0 0 total in
  let end_ := (count - 1)%Z in
  let! d0 := dget d 0 in
  if Qltb x d0 then Ok (0%Z, inverse_lerp x 0 d0)
  else
    let! dl := dget d (end_ - 1) in
    if Qltb dl x then
      let! de := dget d end_ in
      Ok (end_, inverse_lerp (x - dl) 0 (de - dl))
    else
      let! mid := search fuel d x 0 end_ in
      let! dm := dget d mid in
      let! dn := dget d (mid + 1) in
      Ok (mid, inverse_lerp (x - dm) 0 (dn - dm)).
