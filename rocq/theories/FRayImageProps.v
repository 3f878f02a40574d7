(* Transformed rays in single precision. *)
From Coq Require Import ZArith Reals List Lra Lia Bool.
From Flocq Require Import Core.Core IEEE754.BinarySingleNaN.
From Verif Require Import Common FltModel FltFacts FltProps FExtFacts FRayModel FRayFacts FSphereProps FBoxMarginProps FMatModel FMatProps FMatBoundProps FFilmProps FQuadProps.
Import ListNotations.
Local Open Scope R_scope.

(* ----- specification: the sum of the absolute values of the terms of a row at the point t along a ray ----- *)

Definition spread (q : frow) (r : fray) (t : R) : R :=
  Rabs (val (q0 q)) * (Rabs (val (fx (fr_o r))) + Rabs (t * val (fx (fr_d r)))) +
  Rabs (val (q1 q)) * (Rabs (val (fy (fr_o r))) + Rabs (t * val (fy (fr_d r)))) +
  Rabs (val (q2 q)) * (Rabs (val (fz (fr_o r))) + Rabs (t * val (fz (fr_d r)))) + Rabs (val (q3 q)).

Lemma rnd_again : forall x, rnd (rnd x) = rnd x.
Proof. intro x. apply rnd_fits. apply generic_format_round; [apply valid32|typeclasses eauto]. Qed.

Lemma rowvec_val : forall q v, modest_row q -> modest_vec v ->
  fin (f_rowvec q v) /\ val (f_rowvec q v) = rrow (val (q0 q)) (val (q1 q)) (val (q2 q)) 0 (val (fx v)) (val (fy v)) (val (fz v)).
Proof.
  intros q v (A & B & C & _) (X & Y & Z). destruct A as (FA & BA), B as (FB & BB), C as (FC & BC), X as (FX & BX), Y as (FY & BY), Z as (FZ & BZ).
  pose proof (bound_mul _ _ BA BX) as M1. pose proof (bound_mul _ _ BB BY) as M2. pose proof (bound_mul _ _ BC BZ) as M3.
  destruct (fmul_val _ _ FA FX) as (F1 & V1); [apply (small_127 _ 120); [lia|exact M1]|].
  destruct (fmul_val _ _ FB FY) as (F2 & V2); [apply (small_127 _ 120); [lia|exact M2]|].
  destruct (fmul_val _ _ FC FZ) as (F3 & V3); [apply (small_127 _ 120); [lia|exact M3]|].
  assert (R1 : Rabs (val (fmul (q0 q) (fx v))) <= bpow radix2 120) by (rewrite V1; apply rnd_abs; [lia|exact M1]).
  assert (R2 : Rabs (val (fmul (q1 q) (fy v))) <= bpow radix2 120) by (rewrite V2; apply rnd_abs; [lia|exact M2]).
  assert (R3 : Rabs (val (fmul (q2 q) (fz v))) <= bpow radix2 121) by (rewrite V3; apply rnd_abs; [lia|]; eapply Rle_trans; [exact M3|apply bpow_le; lia]).
  pose proof (sum_bound _ _ 120 R1 R2) as S1. change (120 + 1)%Z with 121%Z in S1.
  destruct (fadd_val _ _ F1 F2) as (F4 & V4); [apply (small_127 _ 121); [lia|exact S1]|].
  assert (R4 : Rabs (val (fadd (fmul (q0 q) (fx v)) (fmul (q1 q) (fy v)))) <= bpow radix2 121) by (rewrite V4; apply rnd_abs; [lia|exact S1]).
  pose proof (sum_bound _ _ 121 R4 R3) as S2. change (121 + 1)%Z with 122%Z in S2.
  destruct (fadd_val _ _ F4 F3) as (F5 & V5); [apply (small_127 _ 122); [lia|exact S2]|].
  split; [exact F5|]. unfold f_rowvec, rrow. rewrite V5, V4, V1, V2, V3, Rplus_0_r, rnd_again. reflexivity.
Qed.

Lemma coord_vec : forall k m v, fcoord k (f_vec m v) = f_rowvec (row_of k m) v.
Proof. intros k m v. destruct k as [|[|k]]; reflexivity. Qed.

(* the transformed ray is, at every distance, at the image of the point that the ray is at: up to
   rounding, distances mean the same in the world and in the space of a shape *)
Theorem float_ray_image : forall m r t k, affine m -> modest_vec (fr_o r) -> modest_vec (fr_d r) ->
  let w := f_ray m r in let q := row_of k m in
  fin (fcoord k (fr_o w)) /\ fin (fcoord k (fr_d w)) /\
  Rabs (val (fcoord k (fr_o w)) + t * val (fcoord k (fr_d w)) -
    image q (val (fx (fr_o r)) + t * val (fx (fr_d r))) (val (fy (fr_o r)) + t * val (fy (fr_d r))) (val (fz (fr_o r)) + t * val (fz (fr_d r)))) <=
    / 2097152 * spread q r t + (1 + Rabs t) * bpow radix2 (-146).
Proof.
  intros m r t k A O D w q. unfold w, f_ray; cbn [fr_o fr_d].
  rewrite coord_point, coord_vec by assumption. fold q. pose proof (row_modest k m A) as Q. fold q in Q. clearbody q.
  destruct (rowpoint_val q (fr_o r) Q O) as (F1 & V1). destruct (rowvec_val q (fr_d r) Q D) as (F2 & V2).
  split; [exact F1|]. split; [exact F2|]. rewrite V1, V2.
  pose proof (row_error (val (q0 q)) (val (q1 q)) (val (q2 q)) (val (q3 q)) (val (fx (fr_o r))) (val (fy (fr_o r))) (val (fz (fr_o r)))
    _ _ _ (Rle_refl _) (Rle_refl _) (Rle_refl _)) as E1.
  pose proof (row_error (val (q0 q)) (val (q1 q)) (val (q2 q)) 0 (val (fx (fr_d r))) (val (fy (fr_d r))) (val (fz (fr_d r)))
    _ _ _ (Rle_refl _) (Rle_refl _) (Rle_refl _)) as E2.
  rewrite Rabs_R0 in E2. unfold image, spread. rewrite !Rabs_mult.
  set (p := rrow _ _ _ (val (q3 q)) _ _ _) in *. set (d := rrow _ _ _ 0 _ _ _) in *. clearbody p d.
  set (a := val (q0 q)) in *. set (b := val (q1 q)) in *. set (c := val (q2 q)) in *. set (s := val (q3 q)) in *.
  set (ox := val (fx (fr_o r))) in *. set (oy := val (fy (fr_o r))) in *. set (oz := val (fz (fr_o r))) in *.
  set (dx := val (fx (fr_d r))) in *. set (dy := val (fy (fr_d r))) in *. set (dz := val (fz (fr_d r))) in *.
  replace (p + t * d - (a * (ox + t * dx) + b * (oy + t * dy) + c * (oz + t * dz) + s)) with
    ((p - (a * ox + b * oy + c * oz + s)) + t * (d - (a * dx + b * dy + c * dz + 0))) by ring.
  eapply Rle_trans; [apply Rabs_triang|]. rewrite Rabs_mult.
  assert (T : Rabs t * Rabs (d - (a * dx + b * dy + c * dz + 0)) <= Rabs t * (/ 2097152 * (Rabs a * Rabs dx + Rabs b * Rabs dy + Rabs c * Rabs dz + 0) + bpow radix2 (-146)))
    by (apply Rmult_le_compat_l; [apply Rabs_pos|exact E2]).
  lra.
Qed.
Print Assumptions float_ray_image.

(* a ray is not changed by the identity, and only moved by a translation, up to the rounding of the sum *)
Definition one_row (k : nat) (t : f32) : frow :=
  mk_frow (if Nat.eqb k 0 then fone else fzero) (if Nat.eqb k 1 then fone else fzero) (if Nat.eqb k 2 then fone else fzero) t.
Definition move (x y z : f32) : fmat := mk_fmat (one_row 0 x) (one_row 1 y) (one_row 2 z) (one_row 3 fone).

Lemma move_affine : forall x y z, modest x -> modest y -> modest z -> affine (move x y z).
Proof.
  intros x y z X Y Z. destruct fone_val as (F1 & V1). destruct fzero_val as (F0 & V0).
  assert (M1 : modest fone) by (split; [exact F1|]; rewrite V1, Rabs_R1; change 1 with (bpow radix2 0); apply bpow_le; lia).
  assert (M0 : modest fzero) by (split; [exact F0|]; rewrite V0, Rabs_R0; apply bpow_ge_0).
  unfold affine, move, one_row, modest_row; cbn [m_x m_y m_z m_w q0 q1 q2 q3 Nat.eqb]. rewrite V0, V1. auto 20.
Qed.

Lemma one_row_val : forall k t x y z, fits x -> fits y -> fits z ->
  rrow (val (q0 (one_row k t))) (val (q1 (one_row k t))) (val (q2 (one_row k t))) (val t) x y z =
  rnd (match k with 0%nat => x | 1%nat => y | 2%nat => z | _ => 0 end + val t).
Proof.
  intros k t x y z X Y Z. destruct fone_val as (_ & V1). destruct fzero_val as (_ & V0).
  destruct k as [|[|[|k]]]; unfold one_row; cbn [q0 q1 q2 q3 Nat.eqb]; unfold rrow; rewrite ?V0, ?V1, ?Rmult_0_l, ?Rmult_1_l, ?rnd_0, ?Rplus_0_l, ?Rplus_0_r;
    rewrite ?(rnd_fits x X), ?(rnd_fits y Y), ?(rnd_fits z Z), ?Rplus_0_l, ?Rplus_0_r, ?rnd_0, ?Rplus_0_l; rewrite ?(rnd_fits x X), ?(rnd_fits y Y), ?(rnd_fits z Z); reflexivity.
Qed.

Theorem float_ray_moved : forall x y z r k, modest x -> modest y -> modest z -> modest_vec (fr_o r) -> modest_vec (fr_d r) ->
  let w := f_ray (move x y z) r in
  val (fcoord k (fr_o w)) = rnd (val (fcoord k (fr_o r)) + val (fcoord k (mk_fvec x y z))) /\
  val (fcoord k (fr_d w)) = val (fcoord k (fr_d r)).
Proof.
  intros x y z r k X Y Z O D w. unfold w, f_ray; cbn [fr_o fr_d].
  pose proof (move_affine x y z X Y Z) as A. pose proof (row_modest k _ A) as Q.
  rewrite coord_point, coord_vec by assumption.
  destruct (rowpoint_val _ (fr_o r) Q O) as (F1 & V1). destruct (rowvec_val _ (fr_d r) Q D) as (F2 & V2). rewrite V1, V2.
  destruct fzero_val as (_ & V0).
  assert (E : row_of k (move x y z) = one_row (match k with 0%nat => 0 | 1%nat => 1 | _ => 2 end)%nat (fcoord k (mk_fvec x y z))) by (destruct k as [|[|k]]; reflexivity).
  rewrite E. split.
  - replace (val (q3 (one_row (match k with 0%nat => 0 | 1%nat => 1 | _ => 2 end)%nat (fcoord k (mk_fvec x y z))))) with (val (fcoord k (mk_fvec x y z))) by reflexivity.
    rewrite one_row_val by apply fits_val. destruct k as [|[|k]]; reflexivity.
  - pose proof (one_row_val (match k with 0%nat => 0 | 1%nat => 1 | _ => 2 end)%nat fzero (val (fx (fr_d r))) (val (fy (fr_d r))) (val (fz (fr_d r))) (fits_val _) (fits_val _) (fits_val _)) as V.
    rewrite V0 in V. unfold one_row in *; cbn [q0 q1 q2] in *. rewrite V, Rplus_0_r. destruct k as [|[|k]]; apply rnd_fits, fits_val.
Qed.
Print Assumptions float_ray_moved.

Example float_ray_image_case : affine turn /\ modest_vec (ivec 1 2 3) /\ modest_vec (ivec 0 (-1) 7) /\ modest (of_Z 5).
Proof. split; [exact turn_affine|]. split; [apply ivec_modest; lia|]. split; [apply ivec_modest; lia|apply modest_Z; lia]. Qed.
