(* Model of the asset buffer of src/accelerators/kdtree.cpp. *)
From Verif Require Import Common.
Local Open Scope Z_scope.

(* settings.h:27 *)
Definition max_assets : Z := 4096.

(* kdtree.hpp:241-247: assetsList (its first assets_number entries; assets_number
   is the length) and assets_allocated *)
Record kdbuf (A : Type) := mk_kdbuf { kb_assets : list A; kb_alloc : Z }.
Arguments mk_kdbuf {A}.
Arguments kb_assets {A}.
Arguments kb_alloc {A}.

(* kdtree.cpp:129-142, KDNODE_ALLOC is 1 *)
Definition kd_empty {A} : kdbuf A := mk_kdbuf [] 1.

(* kdtree.cpp:151-170.  Reaching the maximum is only logged: Console.severe
   prints and returns (console.cpp:111-124).  malloc is assumed to succeed; the
   memcpy of the old entries fits because the new size is at least their number
   whenever the old size is at most the maximum.  The last line stores at index
   assets_number, which is undefined when that is outside the allocation. *)
Definition addAsset {A} (k : kdbuf A) (a : A) : res (kdbuf A) :=
  let n := Z.of_nat (length (kb_assets k)) in
  let alloc :=
    if n =? kb_alloc k then Z.min (Z.shiftl (kb_alloc k) 1) max_assets else kb_alloc k in
  if n <? alloc then Ok (mk_kdbuf (kb_assets k ++ [a]) alloc) else UB.

Fixpoint addAssets {A} (k : kdbuf A) (l : list A) : res (kdbuf A) :=
  match l with
  | [] => Ok k
  | a :: l => let! k := addAsset k a in addAssets k l
  end.
