(* Property theorems about Array2D (C01, C02). *)
From Verif Require Import Common Array2DModel Array2DSpec Array2DProofs.
Local Open Scope N_scope.

(* C01.  For every requested side up to 32768, every sequence of writes and
   clears at coordinates inside the allocated side runs without undefined
   behaviour, and afterwards reading any coordinate yields the last value
   written there. *)
Theorem array2d_is_a_map : forall T lb (zero : T) side os,
  lb <= 15 -> side <= 2 ^ 15 ->
  Forall (op_below (round_side lb side)) os ->
  exists a, run lb zero (new lb side) os = Ok a /\
    forall x y, x < round_side lb side -> y < round_side lb side ->
      get lb a x y = Ok (last_write zero os x y None).
Proof. exact array2d_refines_lemma. Qed.
Print Assumptions array2d_is_a_map.

Example array2d_is_a_map_ex :
  exists a, run LOG_BS 0 (new LOG_BS 100)
              [OSet 3 70 11; OSet 127 0 12; OSet 3 70 13; OZero; OSet 99 99 14] = Ok a
            /\ get LOG_BS a 99 99 = Ok (Some 14) /\ get LOG_BS a 3 70 = Ok (Some 0)
            /\ round_side LOG_BS 100 = 128.
Proof.
  eexists. split; [vm_compute; reflexivity |].
  repeat split; vm_compute; reflexivity.
Qed.

(* C01, copies: a copy behaves as the original did, and later writes to the
   copy act on the copied contents. *)
Theorem array2d_copy_is_a_map : forall T lb (zero : T) side os a,
  lb <= 15 -> side <= 2 ^ 15 ->
  Forall (op_below (round_side lb side)) os ->
  run lb zero (new lb side) os = Ok a ->
  exists a', copy lb a = Ok a' /\
    forall os', Forall (op_below (round_side lb side)) os' ->
    exists b, run lb zero a' os' = Ok b /\
    forall x y, x < round_side lb side -> y < round_side lb side ->
      get lb b x y = Ok (last_write zero (os ++ os') x y None).
Proof. exact array2d_copy_lemma. Qed.
Print Assumptions array2d_copy_is_a_map.

(* C01, constructor from a row-major array. *)
Theorem array2d_from_values : forall T lb (values : list T) side,
  lb <= 15 -> side <= 2 ^ 15 -> length values = N.to_nat (side * side) ->
  exists a, new_from lb values side = Ok a /\
    forall x y, x < round_side lb side -> y < round_side lb side ->
      get lb a x y =
      Ok (if (x <? side) && (y <? side) then nth_error values (N.to_nat (y * side + x))
          else None).
Proof. exact array2d_from_values_lemma. Qed.
Print Assumptions array2d_from_values.

Example array2d_from_values_ex :
  exists a, new_from LOG_BS [1; 2; 3; 4; 5; 6; 7; 8; 9] 3 = Ok a /\
            get LOG_BS a 2 1 = Ok (Some 6) /\ get LOG_BS a 3 1 = Ok None.
Proof.
  eexists. split; [vm_compute; reflexivity |].
  repeat split; vm_compute; reflexivity.
Qed.

(* C01 does not extend to every side: with side 65536 a valid coordinate is
   addressed outside of the block, and a clear clears nothing. *)
Theorem array2d_side_65536_refuted :
  round_side LOG_BS 65536 = 65536 /\
  get LOG_BS (@new N LOG_BS 65536) 0 40000 = UB.
Proof. exact side_65536_ub_lemma. Qed.
Print Assumptions array2d_side_65536_refuted.

Theorem array2d_zero_65536_refuted :
  exists a, zero_out LOG_BS 0 (@new N LOG_BS 65536) = Ok a /\
            get LOG_BS a 0 0 = Ok None.
Proof. exact zero_65536_lemma. Qed.
Print Assumptions array2d_zero_65536_refuted.

(* C02.  The allocated side is the least power of two that is at least the
   block side and at least the requested side. *)
Theorem array2d_side_least_pow2 : forall lb side,
  lb <= 31 -> side <= 2 ^ 31 ->
  exists k, round_side lb side = 2 ^ k /\ lb <= k <= 31 /\ side <= 2 ^ k /\
            (forall j, lb <= j -> side <= 2 ^ j -> k <= j).
Proof. exact round_side_pow2. Qed.
Print Assumptions array2d_side_least_pow2.

Example array2d_side_ex :
  map (round_side LOG_BS) [0; 31; 33; 64; 65; 1000; 1025] = [32; 32; 64; 64; 128; 1024; 2048].
Proof. vm_compute. reflexivity. Qed.

(* C02 fails for the remaining 32-bit arguments: the side collapses to 1. *)
Theorem array2d_side_huge_refuted : forall side,
  2 ^ 31 < side -> side < 2 ^ 32 -> round_side LOG_BS side = 1.
Proof. exact round_side_huge_lemma. Qed.
Print Assumptions array2d_side_huge_refuted.
