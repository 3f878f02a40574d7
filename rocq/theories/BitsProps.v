(* C13, C22: kd-tree node encoding and Morton codes. *)
From Verif Require Import Common DecimalModel BitsModel BitsProofs.
Local Open Scope N_scope.

(* C13.  Leaves: any offset, up to 2^31-1 assets. *)
Theorem kdnode_leaf_lossless : forall off num, num < 2 ^ 31 ->
  kd_isLeaf (kd_leaf off num) = true /\ kd_getAssetOffset (kd_leaf off num) = off /\
  kd_getAssetsNumber (kd_leaf off num) = num.
Proof. exact kd_leaf_pf. Qed.
Print Assumptions kdnode_leaf_lossless.

(* C13.  Interior nodes: any split bit pattern, axes 0, 1, 2, child below 2^29. *)
Theorem kdnode_interior_lossless : forall split axis child,
  (0 <= axis <= 2)%Z -> child < 2 ^ 29 ->
  kd_isLeaf (kd_interior split axis child) = false /\
  kd_getAxis (kd_interior split axis child) = Z.to_N axis /\
  kd_getSplit (kd_interior split axis child) = split /\
  kd_getOtherChildOffset (kd_interior split axis child) = child.
Proof. exact kd_interior_pf. Qed.
Print Assumptions kdnode_interior_lossless.

Example kdnode_ex :
  kd_getAxis (kd_interior 0x3F800000 2 536870911) = 2 /\
  kd_getAssetsNumber (kd_leaf 7 2147483647) = 2147483647.
Proof. split; reflexivity. Qed.

(* C13.  The child range is exact: an index of 2^29 is not kept. *)
Theorem kdnode_child_range_refuted : forall split,
  kd_getOtherChildOffset (kd_interior split 0 (2 ^ 29)) <> 2 ^ 29 /\
  kd_getAxis (kd_interior split 0 (2 ^ 29)) <> 0.
Proof. intros split. split; vm_compute; discriminate. Qed.
Print Assumptions kdnode_child_range_refuted.

(* C22.  Bit 3k of the code is bit k of x, bit 3k+1 bit k of y, bit 3k+2 bit k
   of z, on both code paths. *)
Theorem morton_interleaves : forall x y z, x < 2 ^ 21 -> y < 2 ^ 21 -> z < 2 ^ 21 ->
  morton_bmi2 x y z = morton_portable x y z /\
  morton_portable x y z < 2 ^ 63 /\
  forall k, N.testbit (morton_portable x y z) (3 * k) = N.testbit x k /\
            N.testbit (morton_portable x y z) (3 * k + 1) = N.testbit y k /\
            N.testbit (morton_portable x y z) (3 * k + 2) = N.testbit z k.
Proof.
  intros x y z Hx Hy Hz. pose proof (morton_portable_pf x y z Hx Hy Hz) as H.
  split; [| split].
  - apply (interleaves_fun _ _ x y z); [now apply morton_bmi2_pf | exact H].
  - destruct (N.lt_ge_cases (morton_portable x y z) (2 ^ 63)) as [Hl | Hg]; [exact Hl | exfalso].
    set (c := morton_portable x y z) in *.
    assert (Hz0 : c <> 0) by (intros E; rewrite E in Hg; vm_compute in Hg; now apply Hg).
    pose proof (N.bit_log2 c Hz0) as B. rewrite H in B.
    assert (L : 63 <= N.log2 c) by (apply N.log2_le_pow2; lia).
    assert (Q : 21 <= N.log2 c / 3) by (apply N.div_le_lower_bound; lia).
    rewrite (bits_small x 21), (bits_small y 21), (bits_small z 21) in B by assumption.
    destruct (N.log2 c mod 3 =? 0); [discriminate |].
    destruct (N.log2 c mod 3 =? 1); discriminate.
  - exact (interleaves_bits _ _ _ _ H).
Qed.
Print Assumptions morton_interleaves.

(* C22.  The code determines the cell. *)
Theorem morton_injective : forall x y z x' y' z',
  x < 2 ^ 21 -> y < 2 ^ 21 -> z < 2 ^ 21 -> x' < 2 ^ 21 -> y' < 2 ^ 21 -> z' < 2 ^ 21 ->
  morton_portable x y z = morton_portable x' y' z' -> x = x' /\ y = y' /\ z = z'.
Proof.
  intros x y z x' y' z' Hx Hy Hz Hx' Hy' Hz' E.
  apply (interleaves_inj (morton_portable x y z)); [now apply morton_portable_pf |].
  rewrite E. now apply morton_portable_pf.
Qed.
Print Assumptions morton_injective.

(* C22.  Octree order: dropping 3j bits of the code gives the code of the
   enclosing cell j levels up. *)
Theorem morton_octree : forall x y z j, x < 2 ^ 21 -> y < 2 ^ 21 -> z < 2 ^ 21 ->
  morton_portable x y z / 8 ^ j = morton_portable (x / 2 ^ j) (y / 2 ^ j) (z / 2 ^ j).
Proof.
  intros x y z j Hx Hy Hz.
  assert (Hd : forall v, v < 2 ^ 21 -> v / 2 ^ j < 2 ^ 21).
  { intros v Hv. apply N.le_lt_trans with v; [| exact Hv].
    apply N.div_le_upper_bound; [apply N.pow_nonzero; lia |].
    pose proof (N.pow_nonzero 2 j ltac:(lia)). nia. }
  apply (interleaves_fun _ _ (x / 2 ^ j) (y / 2 ^ j) (z / 2 ^ j)).
  - pose proof (interleaves_shift _ _ _ _ j (morton_portable_pf x y z Hx Hy Hz)) as S.
    rewrite !N.shiftr_div_pow2 in S. rewrite N.pow_mul_r in S. exact S.
  - apply morton_portable_pf; now apply Hd.
Qed.
Print Assumptions morton_octree.

(* C22.  The code never decreases when coordinates grow. *)
Theorem morton_monotone : forall x y z x' y' z',
  x' < 2 ^ 21 -> y' < 2 ^ 21 -> z' < 2 ^ 21 -> x <= x' -> y <= y' -> z <= z' ->
  morton_portable x y z <= morton_portable x' y' z'.
Proof.
  intros x y z x' y' z' Hx Hy Hz Lx Ly Lz.
  apply (interleaves_mono (N.size_nat (morton_portable x y z)) _ _ x y z x' y' z').
  - apply size_nat_bound.
  - apply morton_portable_pf; lia.
  - now apply morton_portable_pf.
  - exact Lx.
  - exact Ly.
  - exact Lz.
Qed.
Print Assumptions morton_monotone.

Example morton_ex : morton_portable 5 3 6 = 371 /\ morton_bmi2 2097151 2097151 2097151 = 2 ^ 63 - 1.
Proof. split; vm_compute; reflexivity. Qed.
