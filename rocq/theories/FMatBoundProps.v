(* How far the exact image of a shape can leave its rounded box, and cases for FMatProps. *)
From Coq Require Import ZArith Reals List Lra Lia.
From Flocq Require Import Core.Core IEEE754.BinarySingleNaN.
From Verif Require Import Common FltModel FltFacts FltProps FExtFacts FRayModel FSphereProps FBoxMarginProps FMatModel FMatProps.
Import ListNotations.
Local Open Scope R_scope.

(* ----- specification ----- *)

(* row k of a matrix *)
Definition row_of (k : nat) (m : fmat) : frow := match k with 0%nat => m_x m | 1%nat => m_y m | _ => m_z m end.
(* the image of a point under a row, without rounding *)
Definition image (q : frow) (x y z : R) : R := val (q0 q) * x + val (q1 q) * y + val (q2 q) * z + val (q3 q).
(* the sum of the absolute values of the terms of the image at the corner furthest from 0 *)
Definition reach (b : fbox) (k : nat) : R := Rmax (Rabs (val (fcoord k (fb_lo b)))) (Rabs (val (fcoord k (fb_hi b)))).
Definition size (q : frow) (b : fbox) : R :=
  Rabs (val (q0 q)) * reach b 0 + Rabs (val (q1 q)) * reach b 1 + Rabs (val (q2 q)) * reach b 2 + Rabs (val (q3 q)).

Lemma h150_small : 0 < h150 /\ 16 * h150 = bpow radix2 (-146).
Proof.
  unfold h150. split; [apply bpow_gt_0|]. change 16 with (bpow radix2 4). rewrite <- bpow_plus. reflexivity.
Qed.

Lemma abs_both : forall a b, Rabs a <= b -> - b <= a <= b.
Proof. intros a b H. split_Rabs; lra. Qed.

Lemma row_error_lin : forall h p q s t p' q' s1 s' s2 s3 P Q S T, 0 < h ->
  -P <= p <= P -> -Q <= q <= Q -> -S <= s <= S -> -T <= t <= T -> 0 <= P -> 0 <= Q -> 0 <= S -> 0 <= T ->
  Rabs (p' - p) <= / 16777216 * Rabs p + h -> Rabs (q' - q) <= / 16777216 * Rabs q + h -> Rabs (s' - s) <= / 16777216 * Rabs s + h ->
  Rabs (s1 - (p' + q')) <= / 16777216 * Rabs (p' + q') + h -> Rabs (s2 - (s1 + s')) <= / 16777216 * Rabs (s1 + s') + h ->
  Rabs (s3 - (s2 + t)) <= / 16777216 * Rabs (s2 + t) + h ->
  Rabs (s3 - (p + q + s + t)) <= / 2097152 * (P + Q + S + T) + 16 * h.
Proof.
  intros h p q s t p' q' s1 s' s2 s3 P Q S T H Hp Hq Hs Ht P0 Q0 S0 T0 E1 E2 E3 E4 E5 E6.
  assert (D : forall x y X, -X <= x <= X -> Rabs (y - x) <= / 16777216 * Rabs x + h -> - (/ 16777216 * X + h) <= y - x <= / 16777216 * X + h).
  { clear - H. intros x y X A B. assert (Rabs x <= X) by (apply Rabs_le; exact A). apply abs_both in B. lra. }
  apply (D _ _ P Hp) in E1. apply (D _ _ Q Hq) in E2. apply (D _ _ S Hs) in E3.
  apply (D _ _ (P + Q + / 16777216 * (P + Q) + 2 * h)) in E4; [|lra].
  set (X1 := P + Q + / 16777216 * (P + Q) + 2 * h) in *.
  apply (D _ _ (X1 + / 16777216 * X1 + h + S + / 16777216 * S + h)) in E5; [|unfold X1 in *; lra].
  set (X2 := X1 + / 16777216 * X1 + h + S + / 16777216 * S + h) in *.
  apply (D _ _ (X2 + / 16777216 * X2 + h + T)) in E6; [|unfold X2, X1 in *; lra].
  unfold X2, X1 in *. clear X2 X1 D. apply Rabs_le. lra.
Qed.

Lemma row_error : forall a b c t x y z X Y Z, Rabs x <= X -> Rabs y <= Y -> Rabs z <= Z ->
  Rabs (rrow a b c t x y z - (a * x + b * y + c * z + t)) <=
    / 2097152 * (Rabs a * X + Rabs b * Y + Rabs c * Z + Rabs t) + bpow radix2 (-146).
Proof.
  intros a b c t x y z X Y Z HX HY HZ. destruct h150_small as (H & <-).
  assert (B : forall u v V, Rabs v <= V -> - (Rabs u * V) <= u * v <= Rabs u * V /\ 0 <= Rabs u * V).
  { intros u v V HV. pose proof (Rabs_pos u). pose proof (Rabs_pos v).
    assert (E : Rabs (u * v) <= Rabs u * V) by (rewrite Rabs_mult; apply Rmult_le_compat_l; lra).
    split; [apply abs_both; exact E|]. apply Rmult_le_pos; lra. }
  destruct (B a x X HX) as (B1 & N1). destruct (B b y Y HY) as (B2 & N2). destruct (B c z Z HZ) as (B3 & N3).
  unfold rrow.
  assert (U : forall w, Rabs (rnd w - w) <= / 16777216 * Rabs w + h150) by (intro w; pose proof (rerr w) as E; unfold u24 in E; exact E).
  eapply (row_error_lin h150 (a * x) (b * y) (c * z) t (rnd (a * x)) (rnd (b * y)) (rnd (rnd (a * x) + rnd (b * y))) (rnd (c * z))
    (rnd (rnd (rnd (a * x) + rnd (b * y)) + rnd (c * z)))); try apply U; try assumption.
  - apply abs_both, Rle_refl.
  - apply Rabs_pos.
Qed.

Lemma coord_point : forall k m p, affine m -> modest_vec p -> fcoord k (f_point m p) = f_rowpoint (row_of k m) p.
Proof. intros k m p A P. rewrite point_affine by assumption. destruct k as [|[|k]]; reflexivity. Qed.

Lemma row_modest : forall k m, affine m -> modest_row (row_of k m).
Proof. intros k m (A & B & C & _). destruct k as [|[|k]]; assumption. Qed.

Lemma below_coord : forall k p q, below p q -> val (fcoord k p) <= val (fcoord k q).
Proof. intros k p q (A & B & C). destruct k as [|[|k]]; assumption. Qed.

Lemma corner_reach : forall b c, In c (f_corners b) ->
  Rabs (val (fx c)) <= reach b 0 /\ Rabs (val (fy c)) <= reach b 1 /\ Rabs (val (fz c)) <= reach b 2.
Proof.
  intros b c IN. unfold reach; cbn [fcoord].
  repeat (destruct IN as [<-|IN]; [cbn [fx fy fz]; repeat split; first [apply Rmax_l | apply Rmax_r]|]). destruct IN.
Qed.

Lemma corner_image : forall k m b c, affine m -> modest_vec (fb_lo b) -> modest_vec (fb_hi b) -> In c (f_corners b) ->
  Rabs (val (fcoord k (f_point m c)) - image (row_of k m) (val (fx c)) (val (fy c)) (val (fz c))) <=
    / 2097152 * size (row_of k m) b + bpow radix2 (-146).
Proof.
  intros k m b c A LO HI IN. pose proof (box_modest _ _ LO HI IN) as MC. rewrite (coord_point k m c A MC).
  rewrite (proj2 (rowpoint_val _ _ (row_modest k m A) MC)). destruct (corner_reach b c IN) as (X & Y & Z).
  unfold image, size. apply row_error; assumption.
Qed.

(* the exact image of every point of the box, corner or not, is within a relative margin of the rounded box *)
Theorem float_box_image : forall m b x y z, affine m -> modest_vec (fb_lo b) -> modest_vec (fb_hi b) ->
  val (fx (fb_lo b)) <= x <= val (fx (fb_hi b)) -> val (fy (fb_lo b)) <= y <= val (fy (fb_hi b)) ->
  val (fz (fb_lo b)) <= z <= val (fz (fb_hi b)) ->
  forall k, let q := row_of k m in let e := / 2097152 * size q b + bpow radix2 (-146) in
  val (fcoord k (fb_lo (f_worldbox m b))) - e <= image q x y z <= val (fcoord k (fb_hi (f_worldbox m b))) + e.
Proof.
  intros m b x y z A LO HI X Y Z k q e.
  destruct (images_bound m b A LO HI) as (F & G & I).
  assert (J : forall c, In c (f_corners b) -> val (fcoord k (fb_lo (f_worldbox m b))) <= val (fcoord k (f_point m c)) <=
    val (fcoord k (fb_hi (f_worldbox m b)))).
  { intros c IN. destruct (I c IN) as (I1 & I2). unfold f_worldbox. destruct (f_images m b) as [pmi pma]. cbn [fst snd fb_lo fb_hi] in *.
    destruct (pmin_fin _ _ F G) as (_ & S & _). destruct (pmax_fin _ _ F G) as (_ & _ & T).
    split; apply below_coord; eapply below_trans; eassumption. }
  split.
  - pose proof (some_corner b (if Rle_dec 0 (val (q0 q)) then true else false) (if Rle_dec 0 (val (q1 q)) then true else false)
      (if Rle_dec 0 (val (q2 q)) then true else false)) as IN.
    pose proof (J _ IN) as (J1 & _). pose proof (corner_image k m b _ A LO HI IN) as E. fold q in E. fold e in E.
    eapply Rle_trans; [|apply Rplus_le_compat_r, Rplus_le_compat; [apply Rplus_le_compat|]].
    2: apply (least_end (val (q0 q)) _ _ _ X). 2: apply (least_end (val (q1 q)) _ _ _ Y). 2: apply (least_end (val (q2 q)) _ _ _ Z).
    unfold image in E. cbn [fx fy fz] in E.
    destruct (Rle_dec 0 (val (q0 q))), (Rle_dec 0 (val (q1 q))), (Rle_dec 0 (val (q2 q))); apply abs_both in E; clear - J1 E; lra.
  - pose proof (some_corner b (if Rle_dec 0 (val (q0 q)) then false else true) (if Rle_dec 0 (val (q1 q)) then false else true)
      (if Rle_dec 0 (val (q2 q)) then false else true)) as IN.
    pose proof (J _ IN) as (_ & J1). pose proof (corner_image k m b _ A LO HI IN) as E. fold q in E. fold e in E.
    eapply Rle_trans; [apply Rplus_le_compat_r, Rplus_le_compat; [apply Rplus_le_compat|]|].
    1: apply (most_end (val (q0 q)) _ _ _ X). 1: apply (most_end (val (q1 q)) _ _ _ Y). 1: apply (most_end (val (q2 q)) _ _ _ Z).
    unfold image in E. cbn [fx fy fz] in E.
    destruct (Rle_dec 0 (val (q0 q))), (Rle_dec 0 (val (q1 q))), (Rle_dec 0 (val (q2 q))); apply abs_both in E; clear - J1 E; lra.
Qed.
Print Assumptions float_box_image.

(* ----- a sphere far away has a flat box ----- *)

Definition translation (t : f32) : fmat :=
  mk_fmat (mk_frow fone fzero fzero t) (mk_frow fzero fone fzero fzero) (mk_frow fzero fzero fone fzero) (mk_frow fzero fzero fzero fone).

Lemma modest_small : forall x, fin x -> Rabs (val x) <= 1 -> modest x.
Proof. intros x F H. split; [exact F|]. eapply Rle_trans; [exact H|]. change 1 with (bpow radix2 0). apply bpow_le; lia. Qed.

Lemma translation_affine : forall t, modest t -> affine (translation t).
Proof.
  intros t T. destruct fone_val as (F1 & V1), fzero_val as (F0 & V0).
  assert (M1 : modest fone) by (apply modest_small; [exact F1|rewrite V1, Rabs_R1; lra]).
  assert (M0 : modest fzero) by (apply modest_small; [exact F0|rewrite V0, Rabs_R0; lra]).
  repeat split; cbn [translation m_x m_y m_z m_w q0 q1 q2 q3]; try apply M1; try apply M0; try apply T; assumption.
Qed.

Lemma far_row : forall t x y z, fits t -> bpow radix2 26 <= t -> fits x -> Rabs x <= 1 -> rrow 1 0 0 t x y z = t.
Proof.
  intros t x y z FT T FX X. unfold rrow. rewrite !Rmult_0_l, Rmult_1_l, rnd_0, !Rplus_0_r, (rnd_fits x FX), (rnd_fits x FX), (rnd_fits x FX).
  assert (B4 : bpow radix2 (26 - 24) = 4) by reflexivity. assert (B2 : bpow radix2 (25 - 24) = 2) by reflexivity.
  assert (B : bpow radix2 25 < bpow radix2 26) by (apply bpow_lt; lia).
  destruct (Rle_dec 0 x).
  - rewrite Rplus_comm. apply absorb_above with (e := 26%Z); try assumption; [lia|]. rewrite B4. split_Rabs; lra.
  - replace (x + t) with (t - (- x)) by ring. apply absorb_below with (e := 25%Z); try assumption; [lia|lra|lra|]. rewrite B2. split_Rabs; lra.
Qed.

Theorem float_box_far_refuted : forall t, fin t -> bpow radix2 26 <= val t <= bpow radix2 60 ->
  affine (translation t) /\
  val (fx (fb_lo (f_spherebox (translation t)))) = val t /\ val (fx (fb_hi (f_spherebox (translation t)))) = val t /\
  exists x, -1 <= x <= 1 /\ ~ val (fx (fb_lo (f_spherebox (translation t)))) <= image (m_x (translation t)) x 0 0.
Proof.
  intros t F (T & T'). assert (MT : modest t).
  { split; [exact F|]. rewrite Rabs_pos_eq; [exact T'|]. eapply Rle_trans; [apply bpow_ge_0|exact T]. }
  pose proof (translation_affine t MT) as A. split; [exact A|].
  destruct (of_Z_exact 1 ltac:(lia)) as (F1 & V1). destruct (of_Z_exact (-1) ltac:(lia)) as (F2 & V2).
  set (b := mk_fbox (mk_fvec (of_Z (-1)) (of_Z (-1)) (of_Z (-1))) (mk_fvec (of_Z 1) (of_Z 1) (of_Z 1))).
  assert (M1 : modest (of_Z 1)) by (apply modest_small; [exact F1|rewrite V1, Rabs_R1; lra]).
  assert (M2 : modest (of_Z (-1))) by (apply modest_small; [exact F2|rewrite V2, Rabs_left; lra]).
  assert (LO : modest_vec (fb_lo b)) by (repeat split; apply M2). assert (HI : modest_vec (fb_hi b)) by (repeat split; apply M1).
  destruct (images_bound _ b A LO HI) as (_ & _ & I).
  (* every corner has the image t *)
  assert (C : forall c, In c (f_corners b) -> val (fx (f_point (translation t) c)) = val t).
  { intros c IN. pose proof (box_modest _ _ LO HI IN) as MC. rewrite (point_affine _ c A MC). cbn [fx].
    rewrite (proj2 (rowpoint_val _ _ (proj1 A) MC)). cbn [translation m_x q0 q1 q2 q3].
    rewrite (proj2 fone_val), (proj2 fzero_val). apply far_row; [apply fits_val|exact T|apply fits_val|].
    destruct (corner_reach b c IN) as (X & _). eapply Rle_trans; [exact X|]. unfold reach, b. cbn [fb_lo fb_hi fcoord fx].
    rewrite V1, V2. apply Rmax_lub; rewrite ?Rabs_R1, ?Rabs_left; lra. }
  assert (MIN : forall l p, (forall c, In c (p :: l) -> fin_vec c /\ val (fx c) = val t) ->
    val (fx (fold_left f_pmin l p)) = val t /\ val (fx (fold_left f_pmax l p)) = val t).
  { clear. induction l as [|h l IH]; intros p H; cbn [fold_left].
    - split; apply H; left; reflexivity.
    - destruct (H p (or_introl eq_refl)) as (PF & PV). destruct (H h (or_intror (or_introl eq_refl))) as (HF & HV).
      split; [apply (IH (f_pmin p h))|apply (IH (f_pmax p h))]; (intros c [<-|IN]; [|apply H; right; right; exact IN]).
      + split; [apply pmin_fin; assumption|]. cbn [f_pmin fx]. destruct (fmin_pick (fx p) (fx h)) as [->| ->]; assumption.
      + split; [apply pmax_fin; assumption|]. cbn [f_pmax fx]. destruct (fmax_pick (fx p) (fx h)) as [->| ->]; assumption. }
  assert (IMG : val (fx (fst (f_images (translation t) b))) = val t /\ val (fx (snd (f_images (translation t) b))) = val t).
  { assert (D : forall c, In c (map (f_point (translation t)) (f_corners b)) -> fin_vec c /\ val (fx c) = val t).
    { intros c IN. apply in_map_iff in IN. destruct IN as (d & <- & IN). split; [|apply C; exact IN].
      apply point_fin; [exact A|exact (box_modest _ _ LO HI IN)]. }
    unfold f_images. destruct (map (f_point (translation t)) (f_corners b)) as [|p l] eqn:E; [discriminate E|].
    cbn [fst snd]. apply MIN. exact D. }
  assert (LOX : val (fx (fb_lo (f_spherebox (translation t)))) = val t).
  { unfold f_spherebox. fold b. destruct (f_images (translation t) b) as [u v]. apply IMG. }
  split; [exact LOX|]. split.
  { unfold f_spherebox. fold b. destruct (f_images (translation t) b) as [u v]. apply IMG. }
  exists (-1). split; [lra|]. rewrite LOX. unfold image. cbn [translation m_x q0 q1 q2 q3].
  rewrite (proj2 fone_val), (proj2 fzero_val). lra.
Qed.
Print Assumptions float_box_far_refuted.

(* ----- cases ----- *)

(* a quarter turn about the third axis, scaled by 2, 2 and 3 and moved by 5, -3 and 1 *)
Definition turn : fmat :=
  mk_fmat (mk_frow (of_Z 0) (of_Z (-2)) (of_Z 0) (of_Z 5)) (mk_frow (of_Z 2) (of_Z 0) (of_Z 0) (of_Z (-3)))
    (mk_frow (of_Z 0) (of_Z 0) (of_Z 3) (of_Z 1)) (mk_frow (of_Z 0) (of_Z 0) (of_Z 0) (of_Z 1)).

Lemma modest_Z : forall n, (Z.abs n <= 2 ^ 24)%Z -> modest (of_Z n).
Proof.
  intros n N. destruct (of_Z_exact n N) as (F & V). split; [exact F|]. rewrite V, <- abs_IZR.
  eapply Rle_trans; [apply IZR_le; exact N|]. change (IZR (2 ^ 24)) with (bpow radix2 24). apply bpow_le; lia.
Qed.

Lemma turn_affine : affine turn.
Proof.
  unfold affine, modest_row, turn; cbn [m_x m_y m_z m_w q0 q1 q2 q3].
  repeat match goal with |- _ /\ _ => split end; try (apply modest_Z; lia);
    match goal with |- val (of_Z ?n) = _ => exact (proj2 (of_Z_exact n ltac:(lia))) end.
Qed.

Lemma ivec_modest : forall a b c, (Z.abs a <= 2 ^ 24)%Z -> (Z.abs b <= 2 ^ 24)%Z -> (Z.abs c <= 2 ^ 24)%Z -> modest_vec (ivec a b c).
Proof. intros. unfold ivec. repeat split; apply modest_Z; assumption. Qed.

Definition same_vec (p q : fvec) : bool := Beqb (fx p) (fx q) && Beqb (fy p) (fy q) && Beqb (fz p) (fz q).

Example float_box_transform_case : affine turn /\ modest_vec (fb_lo small_box) /\ modest_vec (fb_hi small_box) /\
  modest_vec (ivec 1 1 2) /\ within (ivec 1 1 2) small_box /\
  same_vec (f_point turn (ivec 1 1 2)) (ivec 3 (-1) 7) = true /\
  same_vec (fb_lo (f_worldbox turn small_box)) (ivec (-1) (-3) 1) = true /\
  same_vec (fb_hi (f_worldbox turn small_box)) (ivec 5 1 10) = true.
Proof.
  split; [exact turn_affine|]. split; [apply ivec_modest; lia|]. split; [apply ivec_modest; lia|]. split; [apply ivec_modest; lia|].
  split; [|vm_compute; auto].
  intro k. split; [apply ivec_val; lia|]. unfold small_box; cbn [fb_lo fb_hi]; ivals; destruct k as [|[|k]]; cbn [icoord]; lra.
Qed.

Definition two_faces : list (fvec * fvec * fvec) :=
  [(ivec 0 0 0, ivec 4 0 0, ivec 0 3 0); (ivec 4 0 0, ivec 4 3 (-1), ivec 0 3 0)].

Example float_mesh_box_case : affine turn /\ modest_mesh two_faces /\
  same_vec (fb_lo (f_meshbox two_faces)) (ivec 0 0 (-1)) = true /\ same_vec (fb_hi (f_meshbox two_faces)) (ivec 4 3 0) = true /\
  same_vec (fb_lo (f_worldbox turn (f_meshbox two_faces))) (ivec (-1) (-3) (-2)) = true /\
  same_vec (fb_hi (f_worldbox turn (f_meshbox two_faces))) (ivec 5 5 1) = true.
Proof.
  split; [exact turn_affine|]. split; [|vm_compute; auto].
  intros t v IN V. repeat (destruct IN as [<-|IN]; [destruct V as [->|[->| ->]]; apply ivec_modest; lia|]). destruct IN.
Qed.

Example float_sphere_box_case : affine turn /\
  (forall k, fin (fcoord k (ivec 0 1 0)) /\ Rabs (val (fcoord k (ivec 0 1 0))) <= 1) /\
  same_vec (fb_lo (f_spherebox turn)) (ivec 3 (-5) (-2)) = true /\ same_vec (fb_hi (f_spherebox turn)) (ivec 7 (-1) 4) = true.
Proof.
  split; [exact turn_affine|]. split; [|vm_compute; auto].
  intro k. destruct (ivec_val 0 1 0 k) as (F & V); try lia. split; [exact F|]. rewrite V. destruct k as [|[|k]]; cbn [icoord]; rewrite Rabs_pos_eq; lra.
Qed.

(* a sphere moved by 2^27 *)
Example float_box_far_case : fin (of_Z (2 ^ 27)) /\ bpow radix2 26 <= val (of_Z (2 ^ 27)) <= bpow radix2 60.
Proof.
  destruct (of_Z_val (2 ^ 27) ltac:(lia)) as (F & V). split; [exact F|]. rewrite V.
  change (IZR (2 ^ 27)) with (bpow radix2 27). rewrite rnd_fits by (apply fits_bpow; lia). split; apply bpow_le; lia.
Qed.
