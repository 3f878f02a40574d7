(* Cases for the walks in single precision: a row of boxes and a ray through all of them. *)
From Coq Require Import ZArith Reals Lra Lia List Bool.
From Flocq Require Import Core.Core IEEE754.BinarySingleNaN.
From Verif Require Import Common GeomModel AabbModel KdAddModel KdModel KdSpec KdBuild KdFacts KdProps.
From Verif Require Import FltModel FltFacts FExtFacts FRayModel FRayFacts FRayProps FKdSpec FKdProps FKdBuildProps FBvhProps FBoxMarginProps.
Import ListNotations.
Local Open Scope R_scope.

(* box number n of the row, hit in its middle *)
Definition f_row_box (n : nat) : fbox := let x := (4 * Z.of_nat (min n 10))%Z in mk_fbox (ivec x 0 0) (ivec (x + 2) 3 3).
Definition f_row_first (n : nat) (r : fray) : option f32 := Some (of_Z (4 * Z.of_nat (min n 10) + 5)).
Definition f_row_hit (n : nat) (r : fray) (D : f32) : option f32 :=
  let d := of_Z (4 * Z.of_nat (min n 10) + 5) in if fle d D then Some d else None.

Lemma row_reports : reports_first f_row_first f_row_hit.
Proof.
  intros n r D ND; unfold f_row_first, f_row_hit.
  assert (B : (Z.of_nat (min n 10) <= 10)%Z) by (pose proof (Nat.le_min_r n 10); lia).
  destruct (of_Z_exact (4 * Z.of_nat (min n 10) + 5)) as [F V]; [lia |].
  set (d := of_Z _) in *; clearbody d; pose proof (fin_number d F) as N; pose proof (fle_ev d D N ND) as L.
  split; [exact N |]; destruct (fle d D); split; try (left; reflexivity); try (right; reflexivity); split; intro H; try reflexivity.
  - assert (ev d <= ev D) by (apply L; reflexivity); lra.
  - assert (C : ev d <= ev D) by lra; apply L in C; discriminate.
Qed.

Lemma row_faces : forall n, faces_ok ray_x (f_row_box n).
Proof.
  intro n; assert (B : (Z.of_nat (min n 10) <= 10)%Z) by (pose proof (Nat.le_min_r n 10); lia).
  apply ray_x_faces; lia.
Qed.

Definition row_scene : fbox := mk_fbox (ivec 0 0 0) (ivec 42 3 3).
Lemma row_inside : forall n, inside_of (f_row_box n) row_scene.
Proof.
  intros n k; assert (B : (Z.of_nat (min n 10) <= 10)%Z) by (pose proof (Nat.le_min_r n 10); lia).
  unfold f_row_box, row_scene; cbn [fb_lo fb_hi].
  destruct (ivec_val (4 * Z.of_nat (min n 10)) 0 0 k) as [_ ->]; try lia.
  destruct (ivec_val (4 * Z.of_nat (min n 10) + 2) 3 3 k) as [_ ->]; try lia.
  destruct (ivec_val 0 0 0 k) as [_ ->]; try lia; destruct (ivec_val 42 3 3 k) as [_ ->]; try lia.
  destruct k as [|[|k]]; cbn [icoord]; split; apply IZR_le; lia.
Qed.

Ltac go :=
  match goal with
  | |- _ /\ _ => split; go
  | |- _ -> _ => intro; go
  | |- _ \/ _ => first [left; go | right; go]
  | _ => first [reflexivity | exfalso; cbn in *; lra]
  end.

Definition row_tree : ftree nat := FNode 0 (of_Z 8) (FLeaf [1; 0]%nat) (FNode 0 (of_Z 14) (FLeaf [3; 2]%nat) (FLeaf [4]%nat)).

(* the walk finds the first box although the tree lists the second before it *)
Example float_kd_complete_case :
  ray_ok ray_x /\ reports_first f_row_first f_row_hit /\ faces_ok ray_x row_scene /\ planes_ok ray_x row_tree /\
  (forall a, In a (fassets row_tree) -> faces_ok ray_x (f_row_box a) /\ inside_of (f_row_box a) row_scene /\ listed row_tree a (f_row_box a)) /\
  match f_kd f_row_box f_row_hit (fsize row_tree) row_scene row_tree ray_x with
  | Ok (Some a, d) => (a =? 0)%nat && Beqb d (of_Z 5)
  | _ => false
  end = true.
Proof.
  split; [exact ray_x_ok | split; [exact row_reports | split; [apply ray_x_faces; lia | split; [| split]]]].
  - destruct (of_Z_exact 8 ltac:(lia)) as [F8 _], (of_Z_exact 14 ltac:(lia)) as [F14 _].
    cbn [row_tree planes_ok]; unfold plane_ok; split; [split; [exact F8 | left; vm_compute; reflexivity] |].
    split; [exact I |]; split; [split; [exact F14 | left; vm_compute; reflexivity] | split; exact I].
  - intros a IA; split; [apply row_faces | split; [apply row_inside |]].
    destruct (of_Z_exact 8 ltac:(lia)) as [_ V8], (of_Z_exact 14 ltac:(lia)) as [_ V14].
    cbn [row_tree fassets app] in IA; cbn [row_tree listed]; unfold f_row_box; cbn [fb_lo fb_hi]; rewrite V8, V14.
    destruct IA as [<- | [<- | [<- | [<- | [<- | []]]]]]; cbn [Nat.min];
      ivals; cbn [icoord];
      cbn [In]; go.
  - vm_compute; reflexivity.
Qed.

Definition row_bvh : fbvh nat :=
  BNode row_scene 0 (BLeaf (mk_fbox (ivec 0 0 0) (ivec 10 3 3)) [1; 2; 0]%nat) (BLeaf (mk_fbox (ivec 0 0 0) (ivec 42 3 3)) [3; 4]%nat).

Example float_bvh_complete_case :
  (forall a, faces_ok ray_x (f_row_box a)) /\ boxed f_row_box ray_x row_bvh /\ number f_max /\
  match f_bvh f_row_hit (S (bsize row_bvh)) ray_x [row_bvh] None f_max with
  | Ok (Some a, d) => (a =? 0)%nat && Beqb d (of_Z 5)
  | _ => false
  end = true.
Proof.
  split; [exact row_faces | split; [| split; vm_compute; reflexivity]].
  cbn [row_bvh boxed fbvh_box btris app]; split; [apply ray_x_faces; lia | split; [intros a _; apply row_inside |]].
  split.
  - split; [apply ray_x_faces; lia | split; [| exact I]].
    intros a IA k; destruct IA as [<- | [<- | [<- | []]]]; unfold f_row_box; cbn [fb_lo fb_hi Nat.min];
      ivals;
      destruct k as [|[|k]]; cbn; lra.
  - split; [apply ray_x_faces; lia | split; [intros a _; apply row_inside | exact I]].
Qed.

(* the hypothesis of float_kd_margin on the objects *)
Example float_kd_margin_case : tame ray_x (f_row_box 1) /\ f_row_first 1 ray_x = Some (of_Z 9) /\ crossed ray_x (f_row_box 1) (val (of_Z 9)).
Proof.
  destruct (of_Z_exact 9 ltac:(lia)) as [_ V9].
  split; [| split; [reflexivity |]].
  - intro k; unfold f_row_box, ray_x; cbn [fb_lo fb_hi fr_o fr_d Nat.min]; ivals.
    assert (B : IZR 100 <= bpow radix2 60) by (change (bpow radix2 60) with (IZR (2 ^ 60)); apply IZR_le; lia).
    destruct k as [|[|k]]; cbn [icoord]; rewrite <- !minus_IZR, <- !abs_IZR;
      (split; [apply Rle_trans with (2 := B), IZR_le; cbn; lia | split; [apply Rle_trans with (2 := B), IZR_le; cbn; lia |]]); [right | left; lra | left; lra].
    apply Rle_trans with (bpow radix2 0); [apply bpow_le; lia | cbn; lra].
  - rewrite V9; exists 0%nat; split; [lia | split].
    + left; unfold crosses_well, crosses, margin, f_row_box, ray_x; cbn [fb_lo fb_hi fr_o fr_d Nat.min]; ivals; cbn; lra.
    + intros k K N; unfold crosses_well, crosses, margin, f_row_box, ray_x; cbn [fb_lo fb_hi fr_o fr_d Nat.min]; ivals.
      destruct k as [|[|k]]; [lia | |]; cbn; lra.
Qed.

(* and the tree that the construction makes of the row *)
Example float_kd_scene_case :
  sorts (ev_sort (@in_order nat)) /\ stable (ev_sort (@in_order nat)) /\ (forall a, box_fin (f_row_box a)) /\
  match built (fun a => qbox (f_row_box a)) (ev_sort in_order) sah_cost [0; 1; 2; 3; 4]%nat with
  | Ok t => (3 <=? length (kt_nodes t))%nat
  | _ => false
  end = true.
Proof.
  split; [apply in_order_sorts | split; [apply in_order_stable | split; [| vm_compute; reflexivity]]].
  intros a k; destruct (row_faces a k) as ((F & _) & (G & _) & L); auto.
Qed.
