(* Model of src/utility/array2D.hpp (whole class).

   Heap blocks are functions from index to content, [None] standing for memory
   that was never written; an access outside the block is UB.  malloc is
   assumed to succeed and sizeof(T)*side*side is assumed not to wrap in size_t
   (64-bit), which holds for every side up to 2^28 and sizeof(T) <= 256.
   The block exponent LOG_BS (array2D.hpp:19-24: 5, or 3 in the test build) is
   the parameter [lb]. *)
From Verif Require Import Common.
Local Open Scope N_scope.

Definition LOG_BS : N := 5.                        (* array2D.hpp:20 *)

(* array2D.hpp:26, BLOCK_SIDE (1<<LOG_BS) *)
Definition block_side (lb : N) : N := N.shiftl 1 lb.
(* array2D.hpp:28, BLOCK_MASK (BLOCK_SIDE-1) *)
Definition block_mask (lb : N) : N := block_side lb - 1.

(* array2D.hpp:93-98 and 129-134: side |= side >> 1 ... side |= side >> 16;
   or and right shift of 32-bit words stay within 32 bits. *)
Definition smear (s : N) : N :=
  let s := N.lor s (N.shiftr s 1) in
  let s := N.lor s (N.shiftr s 2) in
  let s := N.lor s (N.shiftr s 4) in
  let s := N.lor s (N.shiftr s 8) in
  N.lor s (N.shiftr s 16).

(* array2D.hpp:85-101 (same code at 123-137); side is a uint32_t. *)
Definition round_side (lb side : N) : N :=
  let side := if side <? block_side lb then block_side lb else side in
  if negb (N.land side (u32 (side + 2 ^ 32 - 1)) =? 0) then
    let side := u32 (side + 2 ^ 32 - 1) in        (* side-- *)
    let side := smear side in
    let side := u32 (side + 1) in                  (* side++ *)
    u32 (side + (if side =? 0 then 1 else 0))      (* side += (side == 0) *)
  else side.

Record arr (T : Type) := mk_arr {
  arr_blocks : N;              (* blocks_no_side, uint32_t, line 228 *)
  arr_len : N;                 (* number of elements malloc-ed *)
  arr_cell : Z -> option T     (* data, line 231 *)
}.
Arguments mk_arr {T}.
Arguments arr_blocks {T}.
Arguments arr_len {T}.
Arguments arr_cell {T}.

(* array2D.hpp:85-104 *)
Definition new {T} (lb side : N) : arr T :=
  let side := round_side lb side in
  mk_arr (N.shiftr side lb) (side * side) (fun _ => None).

(* array2D.hpp:171-180 (same code at 192-201).  x and y are non-negative ints;
   yblock*blocks_no_side+xblock is computed in uint32_t because blocks_no_side
   is a uint32_t, and so is the product with BLOCK_SIDE*BLOCK_SIDE; the result
   is converted to int. *)
Definition index (lb blocks x y : N) : Z :=
  let xblock := N.shiftr x lb in
  let yblock := N.shiftr y lb in
  let xoffset := N.land x (block_mask lb) in
  let yoffset := N.land y (block_mask lb) in
  let block_offset :=
    int32 (u32 (block_side lb * block_side lb *
                u32 (u32 (yblock * blocks) + xblock))) in
  let data_offset := block_side lb * yoffset + xoffset in
  (block_offset + Z.of_N data_offset)%Z.

(* array2D.hpp:169-181 *)
Definition get {T} (lb : N) (a : arr T) (x y : N) : res (option T) :=
  let i := index lb (arr_blocks a) x y in
  if ((0 <=? i) && (i <? Z.of_N (arr_len a)))%Z then Ok (arr_cell a i) else UB.

(* array2D.hpp:190-202 *)
Definition set {T} (lb : N) (a : arr T) (x y : N) (v : T) : res (arr T) :=
  let i := index lb (arr_blocks a) x y in
  if ((0 <=? i) && (i <? Z.of_N (arr_len a)))%Z
  then Ok (mk_arr (arr_blocks a) (arr_len a)
             (fun j => if (j =? i)%Z then Some v else arr_cell a j))
  else UB.

(* array2D.hpp:216-220.  array_len is computed in uint32_t arithmetic (the
   factors are uint32_t and int) before being widened to size_t; [zero] is the
   element whose bytes are all zero. *)
Definition zero_out {T} (lb : N) (zero : T) (a : arr T) : res (arr T) :=
  let b := arr_blocks a in
  let array_len := u32 (u32 (u32 (b * b) * block_side lb) * block_side lb) in
  if array_len <=? arr_len a
  then Ok (mk_arr (arr_blocks a) (arr_len a)
             (fun j => if ((0 <=? j) && (j <? Z.of_N array_len))%Z
                       then Some zero else arr_cell a j))
  else UB.

(* array2D.hpp:147-154 (and operator=, 205-213, which computes the same
   contents): copies array_len elements into a fresh block of that size. *)
Definition copy {T} (lb : N) (a : arr T) : res (arr T) :=
  let b := arr_blocks a in
  let array_len := u32 (u32 (u32 (b * b) * block_side lb) * block_side lb) in
  if array_len <=? arr_len a
  then Ok (mk_arr b array_len
             (fun j => if ((0 <=? j) && (j <? Z.of_N array_len))%Z
                       then arr_cell a j else None))
  else UB.

(* One row of the copy loop array2D.hpp:142-143; [xs] are the x values still to
   visit.  values[y*old_side+x] is read from a block holding [values]; reading
   outside of it is UB. *)
Fixpoint fill_row {T} (lb : N) (values : list T) (old_side y : N)
  (xs : list N) (a : arr T) : res (arr T) :=
  match xs with
  | [] => Ok a
  | x :: xs =>
      match nth_error values (N.to_nat (y * old_side + x)) with
      | None => UB
      | Some v => let! a := set lb a x y v in fill_row lb values old_side y xs a
      end
  end.

(* array2D.hpp:141-143 *)
Fixpoint fill_rows {T} (lb : N) (values : list T) (old_side : N)
  (ys : list N) (a : arr T) : res (arr T) :=
  match ys with
  | [] => Ok a
  | y :: ys =>
      let! a := fill_row lb values old_side y
                  (map N.of_nat (seq 0 (N.to_nat old_side))) a in
      fill_rows lb values old_side ys a
  end.

(* array2D.hpp:118-144 *)
Definition new_from {T} (lb : N) (values : list T) (side : N) : res (arr T) :=
  fill_rows lb values side (map N.of_nat (seq 0 (N.to_nat side)))
    (new lb side).

(* The mutating operations of the interface. *)
Inductive op (T : Type) := OSet (x y : N) (v : T) | OZero.
Arguments OSet {T}.
Arguments OZero {T}.

Definition step {T} (lb : N) (zero : T) (a : arr T) (o : op T) : res (arr T) :=
  match o with
  | OSet x y v => set lb a x y v
  | OZero => zero_out lb zero a
  end.

Fixpoint run {T} (lb : N) (zero : T) (a : arr T) (os : list (op T))
  : res (arr T) :=
  match os with
  | [] => Ok a
  | o :: os => let! a := step lb zero a o in run lb zero a os
  end.
