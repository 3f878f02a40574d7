(* C16: capacity of the kd-tree. *)
From Verif Require Import Common KdAddModel.
Local Open Scope Z_scope.

Definition kb_inv {A} (k : kdbuf A) : Prop :=
  Z.of_nat (length (kb_assets k)) <= kb_alloc k /\ 1 <= kb_alloc k <= max_assets.

Lemma addAsset_ok : forall A (k : kdbuf A) a, kb_inv k -> Z.of_nat (length (kb_assets k)) < max_assets ->
  exists k', addAsset k a = Ok k' /\ kb_assets k' = kb_assets k ++ [a] /\ kb_inv k'.
Proof.
  intros A [l al] a [H1 H2] H. unfold addAsset, kb_inv in *. cbn [kb_assets kb_alloc] in *.
  rewrite Z.shiftl_mul_pow2 by lia. unfold max_assets in *.
  destruct (Z.eqb_spec (Z.of_nat (length l)) al) as [E | E].
  - replace (Z.of_nat (length l) <? Z.min (al * 2 ^ 1) 4096) with true by lia.
    eexists. split; [reflexivity |]. cbn [kb_assets kb_alloc]. rewrite app_length. cbn [length]. repeat split; lia.
  - replace (Z.of_nat (length l) <? al) with true by lia.
    eexists. split; [reflexivity |]. cbn [kb_assets kb_alloc]. rewrite app_length. cbn [length]. repeat split; lia.
Qed.

Lemma addAsset_full : forall A (k : kdbuf A) a, kb_inv k -> Z.of_nat (length (kb_assets k)) = max_assets ->
  addAsset k a = UB.
Proof.
  intros A [l al] a [H1 H2] H. unfold addAsset, kb_inv in *. cbn [kb_assets kb_alloc] in *.
  rewrite Z.shiftl_mul_pow2 by lia. rewrite H. unfold max_assets in *.
  destruct (Z.eqb_spec 4096 al) as [E | E].
  - replace (4096 <? Z.min (al * 2 ^ 1) 4096) with false by lia. reflexivity.
  - lia.
Qed.

Lemma addAssets_inv : forall A (l : list A) k, kb_inv k ->
  Z.of_nat (length (kb_assets k)) + Z.of_nat (length l) <= max_assets ->
  exists k', addAssets k l = Ok k' /\ kb_assets k' = kb_assets k ++ l /\ kb_inv k'.
Proof.
  induction l as [| a l IH]; intros k I H; cbn [addAssets].
  - exists k. rewrite app_nil_r. auto.
  - cbn [length] in H. destruct (addAsset_ok A k a I) as (k' & E & L & I'); [lia |].
    rewrite E. cbn [bind]. destruct (IH k' I') as (k'' & E2 & L2 & I2).
    + rewrite L, app_length. cbn [length]. lia.
    + exists k''. rewrite L2, L, <- app_assoc. auto.
Qed.

Lemma addAssets_over : forall A (l : list A) k, kb_inv k ->
  max_assets < Z.of_nat (length (kb_assets k)) + Z.of_nat (length l) -> addAssets k l = UB.
Proof.
  induction l as [| a l IH]; intros k I H; cbn [addAssets].
  - destruct I. cbn [length] in H. lia.
  - cbn [length] in H.
    destruct (Z.eq_dec (Z.of_nat (length (kb_assets k))) max_assets) as [E | E].
    + rewrite addAsset_full by auto. reflexivity.
    + destruct (addAsset_ok A k a I) as (k' & E' & L & I'); [destruct I; lia |].
      rewrite E'. cbn [bind]. apply IH; auto. rewrite L, app_length. cbn [length]. lia.
Qed.

Lemma kd_empty_inv : forall A, kb_inv (@kd_empty A).
Proof. intros A. unfold kb_inv, max_assets; cbn. lia. Qed.

(* C16.  Up to the documented maximum every asset is stored, in order, inside the
   buffer. *)
Theorem kd_add_within_capacity : forall A (l : list A), Z.of_nat (length l) <= max_assets ->
  exists k, addAssets kd_empty l = Ok k /\ kb_assets k = l /\
    Z.of_nat (length l) <= kb_alloc k <= max_assets.
Proof.
  intros A l H. destruct (addAssets_inv A l kd_empty) as (k & E & L & I1 & I2).
  - apply kd_empty_inv.
  - cbn [kb_assets kd_empty length]. lia.
  - exists k. cbn [kb_assets kd_empty app] in L. rewrite L in I1. repeat split; auto; lia.
Qed.
Print Assumptions kd_add_within_capacity.

Example kd_add_within_capacity_ex :
  exists k, addAssets kd_empty [7; 8; 9; 10; 11] = Ok k /\ kb_assets k = [7; 8; 9; 10; 11] /\ kb_alloc k = 8.
Proof. eexists. split; [reflexivity |]. split; reflexivity. Qed.

(* The maximum is not enforced: one more addition writes past the buffer. *)
Theorem kd_add_over_capacity_refuted : forall A (l : list A), max_assets < Z.of_nat (length l) ->
  addAssets kd_empty l = UB.
Proof. intros A l H. apply addAssets_over; [apply kd_empty_inv |]. cbn [kb_assets kd_empty length]. lia. Qed.
Print Assumptions kd_add_over_capacity_refuted.

Example kd_add_over_capacity_ex : addAssets kd_empty (repeat true (Z.to_nat 4097)) = UB.
Proof. apply kd_add_over_capacity_refuted. rewrite repeat_length. unfold max_assets. lia. Qed.
