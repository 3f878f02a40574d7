From Coq Require Import QArith Qround Qminmax Qabs Lqa.
From Verif Require Import Common Array2DModel Array2DProps ImgModel ImgSpec.
Local Open Scope N_scope.

(* ----- lists ----- *)

Lemma nth_range : forall n i, i < n -> nth_error (range n) (N.to_nat i) = Some i.
Proof.
  intros n i L; unfold range; rewrite nth_error_map.
  assert (E : nth_error (seq 0 (N.to_nat n)) (N.to_nat i) = Some (N.to_nat i)).
  { rewrite (nth_error_nth' _ O) by (rewrite seq_length; lia).
    rewrite seq_nth by lia; reflexivity. }
  rewrite E; cbn; rewrite N2Nat.id; reflexivity.
Qed.

Lemma range_length : forall n, length (range n) = N.to_nat n.
Proof. intro n; unfold range; rewrite map_length, seq_length; reflexivity. Qed.

Lemma in_range : forall n i, In i (range n) -> i < n.
Proof. intros n i H; apply in_map_iff in H; destruct H as (k & <- & K); apply in_seq in K; lia. Qed.

Lemma nth_flat : forall (B : Type) (g : N -> list B) (l : list N) k,
  (forall a, In a l -> length (g a) = k) -> forall i j, (j < k)%nat ->
  nth_error (flat_map g l) (i * k + j) =
  match nth_error l i with Some a => nth_error (g a) j | None => None end.
Proof.
  intros B g l k; induction l as [| a l IH]; intros H i j J.
  - destruct (i * k + j)%nat; destruct i; reflexivity.
  - cbn [flat_map]; assert (LA : length (g a) = k) by (apply H; left; reflexivity).
    destruct i as [| i]; cbn [nth_error].
    + rewrite nth_error_app1 by lia; reflexivity.
    + rewrite nth_error_app2 by lia; rewrite LA.
      replace (S i * k + j - k)%nat with (i * k + j)%nat by lia.
      apply IH; [intros b B'; apply H; right; exact B' | exact J].
Qed.

Lemma grid_nth : forall n x y, x < n -> y < n -> nth_error (grid n) (N.to_nat (y * n + x)) = Some (x, y).
Proof.
  intros n x y X Y; unfold grid.
  replace (N.to_nat (y * n + x)) with (N.to_nat y * N.to_nat n + N.to_nat x)%nat by lia.
  rewrite (nth_flat _ _ _ (N.to_nat n)).
  - rewrite nth_range by exact Y; rewrite nth_error_map, nth_range by exact X; reflexivity.
  - intros a _; rewrite map_length, range_length; reflexivity.
  - lia.
Qed.

Lemma flat_length : forall (B : Type) (g : N -> list B) (l : list N) k,
  (forall a, In a l -> length (g a) = k) -> length (flat_map g l) = (length l * k)%nat.
Proof.
  intros B g l k; induction l as [| a l IH]; intro H; [reflexivity |].
  cbn [flat_map length]; rewrite app_length, IH by (intros b B'; apply H; right; exact B').
  rewrite (H a) by (left; reflexivity); lia.
Qed.

Lemma grid_length : forall n, length (grid n) = N.to_nat (n * n).
Proof.
  intro n; unfold grid; rewrite (flat_length _ _ _ (N.to_nat n)).
  - rewrite range_length; lia.
  - intros a _; rewrite map_length, range_length; reflexivity.
Qed.

Lemma in_grid : forall n x y, In (x, y) (grid n) -> x < n /\ y < n.
Proof.
  intros n x y H; apply in_flat_map in H; destruct H as (b & B & H).
  apply in_map_iff in H; destruct H as (a & E & A); injection E as <- <-.
  split; apply in_range; assumption.
Qed.

Lemma map_res_ok : forall (A B : Type) (f : A -> res B) (g : A -> B) l,
  (forall a, In a l -> f a = Ok (g a)) -> map_res f l = Ok (map g l).
Proof.
  intros A B f g l; induction l as [| a l IH]; intro H; [reflexivity |].
  cbn [map_res map]; rewrite (H a) by (left; reflexivity); cbn [bind].
  rewrite IH by (intros b I; apply H; right; exact I); reflexivity.
Qed.

(* ----- levels ----- *)

Definition pic (values : list texel) (side : N) (f : picture) : Prop :=
  length values = N.to_nat (side * side) /\
  forall x y, x < side -> y < side -> nth_error values (N.to_nat (y * side + x)) = Some (f x y).

Lemma flat_index : forall s x y, x < s -> y < s -> y * s + x < s * s.
Proof. intros s x y X Y; nia. Qed.

Lemma pic_of : forall values side, length values = N.to_nat (side * side) -> pic values side (picture_of values side).
Proof.
  intros values side L; split; [exact L |]; intros x y X Y; unfold picture_of.
  apply nth_error_nth'; pose proof (flat_index side x y X Y); lia.
Qed.

Definition halve (f : picture) : picture :=
  fun x y => mean_texel (f (2 * x) (2 * y)) (f (2 * x) (2 * y + 1)) (f (2 * x + 1) (2 * y)) (f (2 * x + 1) (2 * y + 1)).

Lemma halve_halves : forall f, halves f (halve f).
Proof.
  intros f c [-> | [-> | [-> | ->]]] x y; cbn; unfold mean4; f_equal; lia.
Qed.

Lemma down_ok : forall values side f, pic values side f ->
  exists r, downsample values side = Ok r /\ pic r (side / 2) (halve f).
Proof.
  intros values side f [L H]; unfold downsample.
  rewrite N.shiftr_div_pow2; change (2 ^ 1) with 2.
  assert (SZ : 2 * (side / 2) <= side) by dlia.
  exists (map (fun p => halve f (fst p) (snd p)) (grid (side / 2))); split.
  - apply map_res_ok; intros [x y] I; apply in_grid in I; destruct I as [X Y].
    unfold down_texel, texel_at, halve; cbn [fst snd].
    rewrite !H by lia; reflexivity.
  - split; [rewrite map_length, grid_length; reflexivity |].
    intros x y X Y; rewrite nth_error_map, grid_nth by assumption; reflexivity.
Qed.

Lemma array_shows : forall values side f, pic values side f -> side <= 2 ^ 15 ->
  exists a, new_from LOG_BS values side = Ok a /\ shows (mk_level side a) side f.
Proof.
  intros values side f [L H] S.
  destruct (array2d_from_values texel LOG_BS values side) as (a & E & G); [unfold LOG_BS; lia | exact S | exact L |].
  exists a; split; [exact E |]; split; [reflexivity |]; intros x y X Y; unfold fetch.
  destruct (array2d_side_least_pow2 LOG_BS side) as (k & R & _ & K & _); [unfold LOG_BS; lia | |].
  { change (2 ^ 31) with 2147483648; change (2 ^ 15) with 32768 in S; lia. }
  replace ((Z.of_N x <? 0) || (Z.of_N y <? 0))%Z with false by lia.
  rewrite !N2Z.id; cbn [l_map].
  rewrite G by (rewrite R; lia).
  replace ((x <? side) && (y <? side)) with true by lia.
  rewrite H by assumption; reflexivity.
Qed.

Lemma iter_in : forall n (f : picture), Nat.iter (S n) halve f = Nat.iter n halve (halve f).
Proof.
  induction n as [| n IH]; intro f; [reflexivity |].
  change (Nat.iter (S (S n)) halve f) with (halve (Nat.iter (S n) halve f)); rewrite IH; reflexivity.
Qed.

Lemma levels_ok : forall n values side f, pic values side f -> side <= 2 ^ 15 ->
  exists m, levels n values side = Ok m /\ length m = n /\
    forall i, (i < n)%nat -> exists l, nth_error m i = Some l /\
      shows l (side / 2 ^ N.of_nat (S i)) (Nat.iter (S i) halve f).
Proof.
  induction n as [| n IH]; intros values side f P S; [exists []; split; [reflexivity | split; [reflexivity | intros i L; lia]] |].
  cbn [levels]; rewrite N.shiftr_div_pow2; change (2 ^ 1) with 2.
  destruct (down_ok values side f P) as (r & -> & Pr); cbn [bind].
  assert (S2 : side / 2 <= 2 ^ 15) by (change (2 ^ 15) with 32768 in *; dlia).
  destruct (array_shows r _ _ Pr S2) as (a & -> & Sh); cbn [bind].
  destruct (IH r (side / 2) (halve f) Pr S2) as (m & -> & Lm & H); cbn [bind].
  exists (mk_level (side / 2) a :: m); split; [reflexivity | split; [cbn; congruence |]].
  intros [| i] L; cbn [nth_error].
  - exists (mk_level (side / 2) a); split; [reflexivity |].
    change (2 ^ N.of_nat 1) with 2; exact Sh.
  - destruct (H i ltac:(lia)) as (l & E & Sl); exists l; split; [exact E |].
    assert (EQ : side / 2 / 2 ^ N.of_nat (Datatypes.S i) = side / 2 ^ N.of_nat (Datatypes.S (Datatypes.S i))).
    { rewrite (Nat2N.inj_succ (Datatypes.S i)), N.pow_succ_r by lia; rewrite N.div_div by (try apply N.pow_nonzero; lia); reflexivity. }
    rewrite <- EQ, iter_in; exact Sl.
Qed.

Lemma image_map_ok : forall values side, 1 <= side -> side <= 2 ^ 15 ->
  side * side <= N.of_nat (length values) ->
  exists m, image_map values side = Ok m /\ length m = S (N.to_nat (N.log2 side)) /\
    forall i, (i < length m)%nat -> exists l, nth_error m i = Some l /\
      shows l (side / 2 ^ N.of_nat i) (Nat.iter i halve (picture_of (firstn (N.to_nat (side * side)) values) side)).
Proof.
  intros values side L S V; unfold image_map.
  replace (side =? 0) with false by lia; replace (N.of_nat (length values) <? side * side) with false by lia.
  set (o := firstn (N.to_nat (side * side)) values).
  assert (LO : length o = N.to_nat (side * side)) by (unfold o; rewrite firstn_length; lia).
  pose proof (pic_of o side LO) as P.
  destruct (array_shows o side _ P S) as (a & -> & Sh); cbn [bind].
  destruct (levels_ok (N.to_nat (N.log2 side)) o side _ P S) as (m & -> & Lm & H); cbn [bind].
  exists (mk_level side a :: m); split; [reflexivity | split; [cbn; congruence |]].
  intros [| i] I; cbn [nth_error].
  - exists (mk_level side a); split; [reflexivity |].
    change (2 ^ N.of_nat 0) with 1; rewrite N.div_1_r; exact Sh.
  - cbn [length] in I; apply H; lia.
Qed.

Lemma picture_firstn : forall values side x y, x < side -> y < side ->
  picture_of (firstn (N.to_nat (side * side)) values) side x y = picture_of values side x y.
Proof.
  intros values side x y X Y; unfold picture_of; pose proof (flat_index side x y X Y) as L.
  assert (G : forall (l : list texel) n i d, (i < n)%nat -> nth i (firstn n l) d = nth i l d).
  { induction l as [| a l IH]; intros [| n] [| i] d I; try lia; try reflexivity; cbn; apply IH; lia. }
  apply G; lia.
Qed.

Lemma last_side : forall side, 1 <= side -> side / 2 ^ N.log2 side = 1.
Proof.
  intros side L; destruct (N.log2_spec side ltac:(lia)) as [A B].
  rewrite N.pow_succ_r in B by lia.
  symmetry; apply (N.div_unique _ _ 1 (side - 2 ^ N.log2 side)); lia.
Qed.

Lemma halve_within : forall f side lo hi, within f side lo hi -> within (halve f) (side / 2) lo hi.
Proof.
  intros f side lo hi W c C x y X Y; assert (SZ : 2 * (side / 2) <= side) by dlia.
  rewrite (halve_halves f c C x y).
  pose proof (W c C (2 * x) (2 * y) ltac:(lia) ltac:(lia)).
  pose proof (W c C (2 * x + 1) (2 * y) ltac:(lia) ltac:(lia)).
  pose proof (W c C (2 * x) (2 * y + 1) ltac:(lia) ltac:(lia)).
  pose proof (W c C (2 * x + 1) (2 * y + 1) ltac:(lia) ltac:(lia)).
  clear - H H0 H1 H2; dlia.
Qed.

Lemma iter_within : forall i f side lo hi, within f side lo hi ->
  within (Nat.iter i halve f) (side / 2 ^ N.of_nat i) lo hi.
Proof.
  induction i as [| i IH]; intros f side lo hi W.
  - change (2 ^ N.of_nat 0) with 1; rewrite N.div_1_r; exact W.
  - rewrite Nat2N.inj_succ, N.pow_succ_r, N.mul_comm, <- N.div_div by (try apply N.pow_nonzero; lia).
    change (Nat.iter (S i) halve f) with (halve (Nat.iter i halve f)).
    apply halve_within, IH, W.
Qed.

(* ----- rationals ----- *)

Lemma trunc_pos : forall q, (0 <= q)%Q -> qtrunc q = Qfloor q.
Proof. intros q H; unfold qtrunc; rewrite (proj2 (Qle_bool_iff 0 q) H); reflexivity. Qed.

Lemma trunc_neg : forall q, (q < 0)%Q -> qtrunc q = Qceiling q.
Proof.
  intros q H; unfold qtrunc; destruct (Qle_bool 0 q) eqn:E; [| reflexivity].
  apply Qle_bool_iff in E; lra.
Qed.

Lemma floor_le : forall q, (inject_Z (Qfloor q) <= q)%Q.
Proof. exact Qfloor_le. Qed.
Lemma floor_lt : forall q, (q < inject_Z (Qfloor q) + 1)%Q.
Proof. intro q; pose proof (Qlt_floor q) as H; rewrite inject_Z_plus in H; exact H. Qed.

Lemma floor_ge : forall q z, (inject_Z z <= q)%Q -> (z <= Qfloor q)%Z.
Proof.
  intros q z H; rewrite <- (Qfloor_Z z); apply Qfloor_resp_le, H.
Qed.

Lemma inject_lt : forall a b, (inject_Z a < inject_Z b)%Q <-> (a < b)%Z.
Proof. intros a b; rewrite <- Zlt_Qlt; reflexivity. Qed.
Lemma inject_le : forall a b, (inject_Z a <= inject_Z b)%Q <-> (a <= b)%Z.
Proof. intros a b; rewrite <- Zle_Qle; reflexivity. Qed.

Lemma inv_lt : forall a b, (inject_Z a < inject_Z b)%Q -> (a < b)%Z.
Proof. intros a b; apply (proj1 (inject_lt a b)). Qed.
Lemma inv_le : forall a b, (inject_Z a <= inject_Z b)%Q -> (a <= b)%Z.
Proof. intros a b; apply (proj1 (inject_le a b)). Qed.

Lemma floor_below : forall q z, (q < inject_Z z)%Q -> (Qfloor q < z)%Z.
Proof. intros q z H; pose proof (floor_le q); apply inject_lt; lra. Qed.

Lemma floor_is : forall q z, (inject_Z z <= q)%Q -> (q < inject_Z z + 1)%Q -> Qfloor q = z.
Proof.
  intros q z A B; pose proof (floor_ge q z A).
  assert (Qfloor q < z + 1)%Z; [| lia].
  apply floor_below; rewrite inject_Z_plus; exact B.
Qed.

Lemma trunc_zero : forall q, (-(1) < q)%Q -> (q < 1)%Q -> qtrunc q = 0%Z.
Proof.
  intros q A B; destruct (Qlt_le_dec q 0) as [N | P].
  - rewrite trunc_neg by exact N; unfold Qceiling.
    rewrite (floor_is (- q) 0); [reflexivity | change (inject_Z 0) with 0%Q; lra ..].
  - rewrite trunc_pos by exact P; apply floor_is; change (inject_Z 0) with 0%Q; lra.
Qed.

Lemma to_u8_ok : forall q, (0 <= q)%Q -> (q < 256)%Q -> to_u8 q = Ok (Z.to_N (Qfloor q)).
Proof.
  intros q A B; unfold to_u8, to_range; rewrite trunc_pos by exact A.
  pose proof (floor_ge q 0 A); pose proof (floor_below q 256 B).
  replace ((0 <=? Qfloor q) && (Qfloor q <? 256))%Z with true by lia; reflexivity.
Qed.

Lemma qN_pos : forall n, (0 <= qN n)%Q.
Proof. intro n; unfold qN; change 0%Q with (inject_Z 0); apply inject_le; lia. Qed.

Lemma qN_le : forall a b, a <= b -> (qN a <= qN b)%Q.
Proof. intros a b H; apply inject_le; lia. Qed.

(* the column read for a coordinate, and the weight of its neighbour *)
Lemma coord : forall side u, 1 <= side -> side <= 2 ^ 15 -> (0 <= u)%Q -> (u <= 1)%Q ->
  exists x, to_int (u * qN side - (1 # 2)) = Ok (Z.of_N x) /\ to_u16 (u * qN side - (1 # 2)) = Ok (Z.of_N x) /\
    x < side /\
    (0 <= Qabs (u * qN side - (1 # 2) - inject_Z (Z.of_N x)) < 1)%Q /\
    ((1 # 2) <= u * qN side -> (qN x <= u * qN side - (1 # 2) /\ u * qN side - (1 # 2) < qN x + 1))%Q /\
    ((u * qN side < (1 # 2))%Q -> x = 0).
Proof.
  intros side u L S U0 U1.
  assert (SQ : (1 <= qN side)%Q) by (change 1%Q with (qN 1); apply qN_le, L).
  assert (P0 : (0 <= u * qN side)%Q) by (apply Qmult_le_0_compat; lra).
  assert (P1 : (u * qN side <= qN side)%Q).
  { rewrite <- (Qmult_1_l (qN side)) at 2; apply Qmult_le_compat_r; lra. }
  set (p := (u * qN side - (1 # 2))%Q); set (w := (u * qN side)%Q) in *.
  assert (PW : (p == w - (1 # 2))%Q) by (unfold p, w; reflexivity).
  clearbody p w.
  assert (R : (0 <= qtrunc p < Z.of_N side)%Z /\ (0 <= Qabs (p - inject_Z (qtrunc p)) < 1)%Q /\
    ((1 # 2) <= w -> (inject_Z (qtrunc p) <= p /\ p < inject_Z (qtrunc p) + 1))%Q /\
    ((w < (1 # 2))%Q -> qtrunc p = 0%Z)).
  { destruct (Qlt_le_dec p 0) as [N | P].
    - rewrite trunc_zero by lra; split; [lia |].
      assert (A : (Qabs (p - inject_Z 0) == - p)%Q).
      { rewrite Qabs_neg; change (inject_Z 0) with 0%Q; lra. }
      rewrite A; split; [lra | split; [intro; lra | reflexivity]].
    - rewrite trunc_pos by exact P; pose proof (floor_le p) as FL; pose proof (floor_lt p) as FG.
      split; [| split; [| split]].
      + split; [apply floor_ge; exact P |]; apply floor_below; unfold qN in P1; lra.
      + rewrite Qabs_pos by lra; lra.
      + intro; lra.
      + intro; lra. }
  destruct R as (R1 & R2 & R3 & R4).
  change (2 ^ 15) with 32768 in S.
  exists (Z.to_N (qtrunc p)); rewrite Z2N.id by lia.
  unfold to_int, to_u16, to_range.
  replace ((- 2 ^ 31 <=? qtrunc p) && (qtrunc p <? 2 ^ 31))%Z with true by (clear - R1 S; change (2 ^ 31)%Z with 2147483648%Z; lia).
  replace ((0 <=? qtrunc p) && (qtrunc p <? 2 ^ 16))%Z with true by (clear - R1 S; change (2 ^ 16)%Z with 65536%Z; lia).
  split; [reflexivity | split; [reflexivity | split; [lia | split; [exact R2 | split]]]].
  - intro W; unfold qN; rewrite Z2N.id by lia; exact (R3 W).
  - intro W; rewrite (R4 W); reflexivity.
Qed.

(* a mixture of four values with weights between zero and one *)
Lemma mix_bounds : forall a b c d lo hi du dv, (0 <= du)%Q -> (du <= 1)%Q -> (0 <= dv)%Q -> (dv <= 1)%Q ->
  (lo <= a)%Q -> (lo <= b)%Q -> (lo <= c)%Q -> (lo <= d)%Q ->
  (a <= hi)%Q -> (b <= hi)%Q -> (c <= hi)%Q -> (d <= hi)%Q ->
  (lo <= (a * (1 - du) + b * du) * (1 - dv) + (c * (1 - du) + d * du) * dv)%Q /\
  ((a * (1 - du) + b * du) * (1 - dv) + (c * (1 - du) + d * du) * dv <= hi)%Q.
Proof.
  assert (L : forall a b lo t, (0 <= t)%Q -> (t <= 1)%Q -> (lo <= a)%Q -> (lo <= b)%Q -> (lo <= a * (1 - t) + b * t)%Q).
  { intros a b lo t T0 T1 A B.
    assert (X : (lo * (1 - t) <= a * (1 - t))%Q) by (apply Qmult_le_compat_r; lra).
    assert (Y : (lo * t <= b * t)%Q) by (apply Qmult_le_compat_r; lra); lra. }
  assert (U : forall a b hi t, (0 <= t)%Q -> (t <= 1)%Q -> (a <= hi)%Q -> (b <= hi)%Q -> (a * (1 - t) + b * t <= hi)%Q).
  { intros a b hi t T0 T1 A B.
    assert (X : (a * (1 - t) <= hi * (1 - t))%Q) by (apply Qmult_le_compat_r; lra).
    assert (Y : (b * t <= hi * t)%Q) by (apply Qmult_le_compat_r; lra); lra. }
  intros a b c d lo hi du dv; intros; split; [apply L | apply U]; auto.
Qed.

Lemma floor_within : forall q lo hi, (qN lo <= q)%Q -> (q <= qN hi)%Q -> lo <= Z.to_N (Qfloor q) <= hi.
Proof.
  intros q lo hi A B; pose proof (floor_ge q _ A).
  assert (Qfloor q < Z.of_N hi + 1)%Z; [| lia].
  apply floor_below; rewrite inject_Z_plus; change (inject_Z 1) with 1%Q; unfold qN in B; lra.
Qed.

Lemma mix_ok : forall a b c d lo hi du dv, (0 <= du)%Q -> (du < 1)%Q -> (0 <= dv)%Q -> (dv < 1)%Q ->
  hi < 256 -> lo <= a <= hi -> lo <= b <= hi -> lo <= c <= hi -> lo <= d <= hi ->
  let w := ((qN a * (1 - du) + qN b * du) * (1 - dv) + (qN c * (1 - du) + qN d * du) * dv)%Q in
  mix a b c d (1 - du) du (1 - dv) dv = Ok (Z.to_N (Qfloor w)) /\ lo <= Z.to_N (Qfloor w) <= hi.
Proof.
  intros a b c d lo hi du dv U0 U1 V0 V1 H A B C D w.
  destruct (mix_bounds (qN a) (qN b) (qN c) (qN d) (qN lo) (qN hi) du dv) as [X Y]; try lra; try (apply qN_le; lia).
  fold w in X, Y; split.
  - apply to_u8_ok.
    + pose proof (qN_pos lo); fold w; lra.
    + assert (HQ : (qN hi <= 255)%Q) by (change 255%Q with (qN 255); apply qN_le; lia).
      fold w; lra.
  - apply floor_within; assumption.
Qed.

Lemma bilinear_ok : forall m lev l side f lo hi u v,
  level_at m lev = Ok l -> shows l side f -> 1 <= side -> side <= 2 ^ 15 -> within f side lo hi -> hi < 256 ->
  (0 <= u)%Q -> (u <= 1)%Q -> (0 <= v)%Q -> (v <= 1)%Q ->
  exists x y t, let nx := if x + 1 <? side then x + 1 else 0 in
    let ny := if y + 1 <? side then y + 1 else 0 in
    let du := Qabs (place side u - qN x) in
    let dv := Qabs (place side v - qN y) in
    bilinear m u v lev = Ok t /\
    to_int (place side u) = Ok (Z.of_N x) /\ to_int (place side v) = Ok (Z.of_N y) /\ x < side /\ y < side /\
    forall c, channel c -> lo <= c t <= hi /\
      c t = Z.to_N (Qfloor ((qN (c (f x y)) * (1 - du) + qN (c (f nx y)) * du) * (1 - dv) +
                            (qN (c (f x ny)) * (1 - du) + qN (c (f nx ny)) * du) * dv)).
Proof.
  intros m lev l side f lo hi u v EL [SL SF] L S W H U0 U1 V0 V1.
  destruct (coord side u L S U0 U1) as (x & EX & _ & X & DX & _ & _).
  destruct (coord side v L S V0 V1) as (y & EY & _ & Y & DY & _ & _).
  change (inject_Z (Z.of_N x)) with (qN x) in DX; change (inject_Z (Z.of_N y)) with (qN y) in DY.
  fold (place side u) in EX, DX; fold (place side v) in EY, DY.
  set (nx := if x + 1 <? side then x + 1 else 0); set (ny := if y + 1 <? side then y + 1 else 0).
  assert (NX : nx < side) by (unfold nx; destruct (x + 1 <? side) eqn:Q; lia).
  assert (NY : ny < side) by (unfold ny; destruct (y + 1 <? side) eqn:Q; lia).
  set (du := Qabs (place side u - qN x)) in *; set (dv := Qabs (place side v - qN y)) in *.
  assert (MX : forall c, channel c ->
    let w := ((qN (c (f x y)) * (1 - du) + qN (c (f nx y)) * du) * (1 - dv) +
              (qN (c (f x ny)) * (1 - du) + qN (c (f nx ny)) * du) * dv)%Q in
    mix (c (f x y)) (c (f nx y)) (c (f x ny)) (c (f nx ny)) (1 - du) du (1 - dv) dv = Ok (Z.to_N (Qfloor w)) /\
    lo <= Z.to_N (Qfloor w) <= hi).
  { intros c C; apply mix_ok; try tauto; apply W; assumption. }
  set (w := fun c => Z.to_N (Qfloor ((qN (c (f x y)) * (1 - du) + qN (c (f nx y)) * du) * (1 - dv) +
              (qN (c (f x ny)) * (1 - du) + qN (c (f nx ny)) * du) * dv))).
  exists x, y, (mk_texel (w t_a) (w t_r) (w t_g) (w t_b)); cbv zeta; fold nx ny du dv.
  split; [| split; [exact EX | split; [exact EY | split; [exact X | split; [exact Y |]]]]].
  - unfold bilinear; rewrite EL; cbn [bind]; rewrite SL.
    fold (place side u) (place side v); rewrite EX; cbn [bind]; rewrite EY; cbn [bind].
    change (inject_Z (Z.of_N x)) with (qN x); change (inject_Z (Z.of_N y)) with (qN y); fold du dv.
    assert (ENX : (if Z.of_N x + 1 <=? Z.of_N side - 1 then Z.of_N x + 1 else 0)%Z = Z.of_N nx).
    { unfold nx; destruct (x + 1 <? side) eqn:Q.
      - replace (Z.of_N x + 1 <=? Z.of_N side - 1)%Z with true by lia; lia.
      - replace (Z.of_N x + 1 <=? Z.of_N side - 1)%Z with false by lia; reflexivity. }
    assert (ENY : (if Z.of_N y + 1 <=? Z.of_N side - 1 then Z.of_N y + 1 else 0)%Z = Z.of_N ny).
    { unfold ny; destruct (y + 1 <? side) eqn:Q.
      - replace (Z.of_N y + 1 <=? Z.of_N side - 1)%Z with true by lia; lia.
      - replace (Z.of_N y + 1 <=? Z.of_N side - 1)%Z with false by lia; reflexivity. }
    rewrite ENX, ENY; rewrite !SF by assumption; cbn [bind].
    rewrite (proj1 (MX t_r (or_intror (or_introl eq_refl)))); cbn [bind].
    rewrite (proj1 (MX t_g (or_intror (or_intror (or_introl eq_refl))))); cbn [bind].
    rewrite (proj1 (MX t_b (or_intror (or_intror (or_intror eq_refl))))); cbn [bind].
    rewrite (proj1 (MX t_a (or_introl eq_refl))); cbn [bind]; reflexivity.
  - intros c C.
    assert (E : c (mk_texel (w t_a) (w t_r) (w t_g) (w t_b)) = w c).
    { destruct C as [-> | [-> | [-> | ->]]]; reflexivity. }
    rewrite E; split; [exact (proj2 (MX c C)) | reflexivity].
Qed.

Lemma floor_add_below : forall p q lo hi, (0 <= p)%Q -> (0 <= q)%Q -> (qN lo <= p + q)%Q -> (p + q <= qN hi)%Q ->
  lo <= Z.to_N (Qfloor p) + Z.to_N (Qfloor q) + 1 /\ Z.to_N (Qfloor p) + Z.to_N (Qfloor q) <= hi.
Proof.
  intros p q lo hi P Q A B.
  pose proof (floor_ge p 0 P); pose proof (floor_ge q 0 Q).
  pose proof (floor_le p); pose proof (floor_le q); pose proof (floor_lt p); pose proof (floor_lt q).
  assert (X : (Z.of_N lo < Qfloor p + Qfloor q + 2)%Z).
  { apply inject_lt; rewrite !inject_Z_plus; change (inject_Z 2) with 2%Q; unfold qN in A; lra. }
  assert (Y : (Qfloor p + Qfloor q <= Z.of_N hi)%Z).
  { apply inject_le; rewrite !inject_Z_plus; unfold qN in B; lra. }
  lia.
Qed.

Lemma blend_ok : forall a b d lo hi, (0 <= d)%Q -> (d <= 1)%Q -> hi < 256 -> lo <= a <= hi -> lo <= b <= hi ->
  exists r, blend a b d = Ok r /\ r = Z.to_N (Qfloor (qN a * (1 - d))) + Z.to_N (Qfloor (qN b * d)) /\ lo <= r + 1 /\ r <= hi.
Proof.
  intros a b d lo hi D0 D1 H A B.
  assert (A0 : (0 <= qN a * (1 - d))%Q) by (apply Qmult_le_0_compat; [apply qN_pos | lra]).
  assert (B0 : (0 <= qN b * d)%Q) by (apply Qmult_le_0_compat; [apply qN_pos | lra]).
  assert (LA : (qN lo * (1 - d) <= qN a * (1 - d))%Q) by (apply Qmult_le_compat_r; [apply qN_le; lia | lra]).
  assert (LB : (qN lo * d <= qN b * d)%Q) by (apply Qmult_le_compat_r; [apply qN_le; lia | lra]).
  assert (UA : (qN a * (1 - d) <= qN hi * (1 - d))%Q) by (apply Qmult_le_compat_r; [apply qN_le; lia | lra]).
  assert (UB' : (qN b * d <= qN hi * d)%Q) by (apply Qmult_le_compat_r; [apply qN_le; lia | lra]).
  assert (HQ : (qN hi <= 255)%Q) by (change 255%Q with (qN 255); apply qN_le; lia).
  unfold blend; rewrite !to_u8_ok by lra; cbn [bind].
  destruct (floor_add_below (qN a * (1 - d)) (qN b * d) lo hi A0 B0) as [X Y]; [lra | lra |].
  eexists; split; [reflexivity |]; unfold u8; rewrite N.mod_small by (change (2 ^ 8) with 256; lia).
  split; [reflexivity | split; [exact X | exact Y]].
Qed.

Lemma blend_texel_ok : forall a b d lo hi, (0 <= d)%Q -> (d <= 1)%Q -> hi < 256 ->
  (forall c, channel c -> lo <= c a <= hi /\ lo <= c b <= hi) ->
  exists t, blend_texel a b d = Ok t /\ forall c, channel c -> blend (c a) (c b) d = Ok (c t) /\ lo <= c t + 1 /\ c t <= hi.
Proof.
  intros a b d lo hi D0 D1 H W.
  assert (G : forall c, channel c -> exists r, blend (c a) (c b) d = Ok r /\ lo <= r + 1 /\ r <= hi).
  { intros c C; destruct (blend_ok (c a) (c b) d lo hi D0 D1 H (proj1 (W c C)) (proj2 (W c C))) as (r & E & _ & B); exists r; auto. }
  destruct (G t_r (or_intror (or_introl eq_refl))) as (r & Er & Br).
  destruct (G t_g (or_intror (or_intror (or_introl eq_refl)))) as (g & Eg & Bg).
  destruct (G t_b (or_intror (or_intror (or_intror eq_refl)))) as (b' & Eb & Bb).
  destruct (G t_a (or_introl eq_refl)) as (al & Ea & Ba).
  exists (mk_texel al r g b'); split.
  - unfold blend_texel; rewrite Er, Eg, Eb, Ea; reflexivity.
  - intros c [-> | [-> | [-> | ->]]]; cbn; auto.
Qed.
