(* Model of the kd-tree node encoding (src/accelerators/kdtree.cpp:21-69) and
   of the Morton codes (src/accelerators/bvh.cpp:89-123). *)
From Verif Require Import Common.
Local Open Scope N_scope.

(* kdtree.hpp:140-156: union {float split; uint32_t asset_offset;} and
   uint32_t data.  The union is modelled by its 32 bits: a split is the bit
   pattern of a float. *)
Record kdnode := mk_kdnode { kd_union : N; kd_data : N }.

(* kdtree.cpp:21-33 *)
Definition kd_interior (split : N) (axis : Z) (other_child : N) : kdnode :=
  let data := other_child in
  let data := if (axis =? 1)%Z then N.lor data 0x20000000
              else if (axis =? 2)%Z then N.lor data 0x40000000 else data in
  mk_kdnode split data.

(* kdtree.cpp:35-40 *)
Definition kd_leaf (primitive_offset p_number : N) : kdnode :=
  mk_kdnode primitive_offset (N.lor p_number 0x80000000).

(* kdtree.cpp:42-45 *)
Definition kd_isLeaf (n : kdnode) : bool := negb (N.land (kd_data n) 0x80000000 =? 0).
(* kdtree.cpp:47-50 *)
Definition kd_getAxis (n : kdnode) : N := N.shiftr (N.land (kd_data n) 0x60000000) 29.
(* kdtree.cpp:52-55 *)
Definition kd_getSplit (n : kdnode) : N := kd_union n.
(* kdtree.cpp:57-60 *)
Definition kd_getOtherChildOffset (n : kdnode) : N := N.land (kd_data n) 0x1FFFFFFF.
(* kdtree.cpp:62-65 *)
Definition kd_getAssetOffset (n : kdnode) : N := kd_union n.
(* kdtree.cpp:67-70 *)
Definition kd_getAssetsNumber (n : kdnode) : N := N.land (kd_data n) 0x7FFFFFFF.

(* ---- Morton codes ---- *)
Definition u64 (x : N) : N := x mod 2 ^ 64.

(* val | val << k on uint64_t, then a mask *)
Definition spread_step (k mask val : N) : N := N.land (N.lor val (u64 (N.shiftl val k))) mask.

(* bvh.cpp:90-100 *)
Definition expand (val : N) : N :=
  let val := N.land val 0x1FFFFF in
  let val := spread_step 32 0x1F00000000FFFF val in
  let val := spread_step 16 0x1F0000FF0000FF val in
  let val := spread_step 8 0x100F00f00F00F00F val in
  let val := spread_step 4 0x10C30C30C30C30C3 val in
  spread_step 2 0x1249249249249249 val.

(* bvh.cpp:109-115, on coordinates already converted to integers; the
   conversion inx*0x1FFFFF of lines 105-107 is not modelled *)
Definition morton_portable (x y z : N) : N :=
  let xx := expand x in
  let yy := expand y in
  let zz := expand z in
  N.lor (N.lor xx (u64 (N.shiftl yy 1))) (u64 (N.shiftl zz 2)).

(* The PDEP instruction on 64-bit operands: the low bits of [src], in order, go
   to the positions of the bits set in [mask]; [n] mask positions from [pos]. *)
Fixpoint pdep_from (n : nat) (pos : N) (src mask : N) : N :=
  match n with
  | O => 0
  | S n =>
      if N.testbit mask pos
      then N.lor (N.shiftl (N.land src 1) pos) (pdep_from n (pos + 1) (N.shiftr src 1) mask)
      else pdep_from n (pos + 1) src mask
  end.
Definition pdep (src mask : N) : N := pdep_from 64 0 src mask.

(* bvh.cpp:119-121 *)
Definition morton_bmi2 (x y z : N) : N :=
  N.lor (N.lor (pdep x 0x9249249249249249) (pdep y 0x2492492492492492))
        (pdep z 0x4924924924924924).
