From Coq Require Import QArith Qround Lqa.
From Coq Require FinFun.
From Verif Require Import Common ArrayIO TilesModel TilesSpec.
Local Open Scope Z_scope.

Definition cover (px py : Z) (l : list tile) : nat := length (filter (in_tile px py) l).

Lemma cover_app : forall px py a b, cover px py (a ++ b) = (cover px py a + cover px py b)%nat.
Proof. intros. unfold cover. now rewrite filter_app, app_length. Qed.

Lemma cols_ok : forall fuel x w sy ey,
  0 <= x <= w -> (w - x) mod 32 = 0 -> w - x < Z.of_nat fuel -> w < 2 ^ 31 - 32 ->
  exists l, tile_cols fuel x w sy ey = Ok l /\
    (forall t, In t l -> x <= startx t /\ endx t = startx t + 32 /\ endx t <= w /\
       starty t = sy /\ endy t = ey) /\
    (forall px py, cover px py l =
       if ((x <=? px) && (px <? w) && (sy <=? py) && (py <? ey))%bool then 1%nat else 0%nat).
Proof.
  intros fuel. induction fuel as [| fuel IH]; intros x w sy ey Hx Hm Hf Hw; [lia |].
  cbn [tile_cols]. destruct (Z.ltb_spec x w) as [Hlt | Hge].
  - unfold SPLIT_SIZE.
    assert (H32 : x + 32 <= w).
    { pose proof (Z.div_mod (w - x) 32 ltac:(lia)). rewrite Hm in *. lia. }
    rewrite ck_ok by lia. cbn [bind].
    destruct (IH (x + 32) w sy ey) as (l & E & Hin & Hc); [lia | | lia | lia |].
    { replace (w - (x + 32)) with (w - x + (-1) * 32) by lia. now rewrite Z.mod_add by lia. }
    rewrite E. cbn [bind]. eexists. split; [reflexivity |]. split.
    + intros t [<- | Ht]; [cbn; lia |]. destruct (Hin t Ht) as (A & B & C & D). lia.
    + intros px py. change (cover px py (?a :: l)) with (cover px py ([a] ++ l)).
      rewrite (cover_app px py [_] l), Hc. unfold cover, in_tile. cbn [filter startx endx starty endy].
      destruct (Z.leb_spec x px); destruct (Z.ltb_spec px (x + 32)); destruct (Z.leb_spec (x + 32) px);
        destruct (Z.ltb_spec px w); try lia; cbn [andb];
        destruct ((sy <=? py) && (py <? ey))%bool eqn:Ey;
        repeat rewrite <- andb_assoc; rewrite ?Ey; cbn [length andb]; try reflexivity; try lia.
  - exists []. split; [reflexivity |]. split; [intros t [] |].
    intros px py. destruct (Z.leb_spec x px); destruct (Z.ltb_spec px w); try lia; reflexivity.
Qed.

Lemma rows_ok : forall fuel y w h,
  0 <= w < 2 ^ 31 - 32 -> w mod 32 = 0 -> 0 <= y -> h < 2 ^ 31 - 32 ->
  Z.max 0 (h - y) < Z.of_nat fuel ->
  exists l, tile_rows fuel y w h = Ok l /\
    (forall t, In t l -> y <= starty t /\ tile_fits w h t) /\
    (forall px py, cover px py l =
       if ((0 <=? px) && (px <? w) && (y <=? py) && (py <? h))%bool then 1%nat else 0%nat).
Proof.
  intros fuel. induction fuel as [| fuel IH]; intros y w h Hw Hm Hy Hh Hf; [lia |].
  cbn [tile_rows]. destruct (Z.ltb_spec y h) as [Hlt | Hge].
  - unfold SPLIT_SIZE. rewrite ck_ok by lia. cbn [bind].
    set (ey := if y + 32 <? h then y + 32 else h).
    assert (Hey : y < ey <= h /\ ey <= y + 32 /\ (ey = h \/ ey = y + 32)).
    { unfold ey. destruct (Z.ltb_spec (y + 32) h); lia. }
    destruct (cols_ok (S (Z.to_nat w)) 0 w y ey) as (row & Er & Hr & Cr);
      [lia | now rewrite Z.sub_0_r | lia | lia |].
    rewrite Er. cbn [bind].
    destruct (IH (y + 32) w h Hw Hm) as (rest & Es & Hs & Cs); [lia | lia | lia |].
    rewrite Es. cbn [bind]. eexists. split; [reflexivity |]. split.
    + intros t Ht. apply in_app_or in Ht. destruct Ht as [Ht | Ht].
      * destruct (Hr t Ht) as (A & B & C & D & E). unfold tile_fits. lia.
      * destruct (Hs t Ht) as (A & B). split; [lia | exact B].
    + intros px py. rewrite cover_app, Cr, Cs. clearbody ey.
      destruct ((0 <=? px) && (px <? w))%bool; cbn [andb]; [| reflexivity].
      destruct (Z.leb_spec y py); destruct (Z.ltb_spec py ey); destruct (Z.leb_spec (y + 32) py);
        destruct (Z.ltb_spec py h); cbn [andb]; try reflexivity; lia.
  - exists []. split; [reflexivity |]. split; [intros t [] |].
    intros px py. destruct (Z.leb_spec y py); destruct (Z.ltb_spec py h); try lia;
      rewrite ?andb_false_r; reflexivity.
Qed.

Lemma cover_rev : forall px py l, cover px py (rev l) = cover px py l.
Proof.
  intros px py l. induction l as [| t l IH]; [reflexivity |].
  cbn [rev]. rewrite cover_app, IH. change (t :: l) with ([t] ++ l). rewrite cover_app. lia.
Qed.

Lemma render_jobs_pf : forall w h,
  0 <= w < 2 ^ 31 - 32 -> w mod 32 = 0 -> h < 2 ^ 31 - 32 ->
  exists jobs, render_jobs w h = Ok jobs /\
    (forall t, In t jobs -> tile_fits w h t) /\
    (forall px py, cover px py jobs =
       if ((0 <=? px) && (px <? w) && (0 <=? py) && (py <? h))%bool then 1%nat else 0%nat).
Proof.
  intros w h Hw Hm Hh. unfold render_jobs, renderer_size, SPLIT_SIZE.
  rewrite Z.rem_mod_nonneg, Hm by lia. cbn [Z.eqb].
  destruct (rows_ok (S (Z.to_nat h)) 0 w h Hw Hm ltac:(lia) Hh ltac:(lia)) as (l & E & F & C).
  rewrite E. cbn [bind]. exists (rev l). split; [reflexivity |]. split.
  - intros t Ht. apply in_rev in Ht. now apply F.
  - intros px py. rewrite cover_rev. apply C.
Qed.

Lemma render_jobs_rejected : forall w h, Z.rem w 32 <> 0 -> render_jobs w h = Ok [].
Proof.
  intros w h H. unfold render_jobs, renderer_size, SPLIT_SIZE.
  destruct (Z.eqb_spec (Z.rem w 32) 0) as [E | _]; [contradiction | reflexivity].
Qed.

Lemma cover_unique : forall px py l, cover px py l = 1%nat ->
  exists k t, nth_error l k = Some t /\ in_tile px py t = true /\
    forall k' t', nth_error l k' = Some t' -> in_tile px py t' = true -> k' = k.
Proof.
  intros px py l. induction l as [| a l IH]; intros H; [discriminate |].
  unfold cover in H. cbn [filter] in H. destruct (in_tile px py a) eqn:Ea.
  - exists 0%nat, a. split; [reflexivity |]. split; [exact Ea |].
    intros [| k'] t' E Hin; [reflexivity | exfalso]. cbn [nth_error] in E.
    assert (Hl : In t' (filter (in_tile px py) l)).
    { apply filter_In. split; [eapply nth_error_In; exact E | exact Hin]. }
    cbn [length] in H. destruct (filter (in_tile px py) l); [exact Hl | discriminate].
  - destruct (IH H) as (k & t & E & Ht & U). exists (S k), t. split; [exact E |].
    split; [exact Ht |]. intros [| k'] t' E' Hin.
    + cbn [nth_error] in E'. congruence.
    + f_equal. now apply (U k' t').
Qed.

(* no tile twice *)
Lemma cover_nodup : forall l, (forall t, In t l -> exists px py, in_tile px py t = true) ->
  (forall px py, (cover px py l <= 1)%nat) -> NoDup l.
Proof.
  intros l. induction l as [| a l IH]; intros Hne Hc; [constructor |].
  constructor.
  - intros Hin. destruct (Hne a (or_introl eq_refl)) as (px & py & Hp). specialize (Hc px py).
    unfold cover in Hc. cbn [filter] in Hc. rewrite Hp in Hc. cbn [length] in Hc.
    assert (Hl : In a (filter (in_tile px py) l)) by now apply filter_In.
    destruct (filter (in_tile px py) l); [exact Hl | cbn [length] in Hc; lia].
  - apply IH; [intros t Ht; apply Hne; now right |].
    intros px py. specialize (Hc px py). unfold cover in *. cbn [filter] in Hc.
    destruct (in_tile px py a); cbn [length] in Hc; lia.
Qed.

(* ---- samplers ---- *)

Section Samplers.
  Variable get : sampler -> sampler * option (list (Q * Q)).
  Variable out : Z -> Z -> nat -> list (Q * Q).
  Variable draws : nat.
  Hypothesis get_spec : forall s, get s =
    if (s_nexty s =? endy (s_tile s)) then (s, None)
    else (sampler_advance s (s_drawn s + draws),
          Some (out (s_nextx s) (s_nexty s) (s_drawn s))).

  Lemma run_done : forall n s, s_nexty s = endy (s_tile s) ->
    sampler_run get n s = repeat None n.
  Proof.
    intros n. induction n as [| n IH]; intros s Hs; [reflexivity |].
    cbn [sampler_run repeat]. rewrite get_spec, Hs, Z.eqb_refl. f_equal. now apply IH.
  Qed.

  Lemma run_from : forall m s i t,
    s_tile s = t -> startx t < endx t -> starty t < endy t ->
    s_nextx s = fst (tile_pixel t i) -> s_nexty s = snd (tile_pixel t i) ->
    s_drawn s = (i * draws)%nat ->
    Z.of_nat i + Z.of_nat m = (endx t - startx t) * (endy t - starty t) ->
    forall n, sampler_run get (m + n) s =
      map (fun j => Some (out (fst (tile_pixel t j)) (snd (tile_pixel t j)) (j * draws))) (seq i m)
      ++ repeat None n.
  Proof.
    intros m. induction m as [| m IH]; intros s i t Ht Hx Hy E1 E2 E3 Hc n.
    - cbn [seq map app Nat.add]. apply run_done. rewrite E2, Ht. unfold tile_pixel. cbn [snd].
      replace (Z.of_nat i) with ((endy t - starty t) * (endx t - startx t)) by lia.
      rewrite Z.div_mul by lia. lia.
    - cbn [Nat.add sampler_run seq map app]. rewrite get_spec.
      set (W := endx t - startx t) in *. assert (HW : 0 < W) by (unfold W; lia).
      pose proof (Z.div_mod (Z.of_nat i) W ltac:(lia)) as D.
      pose proof (Z.mod_pos_bound (Z.of_nat i) W HW) as M.
      assert (Hq : Z.of_nat i / W < endy t - starty t).
      { apply Z.div_lt_upper_bound; lia. }
      assert (Hne : s_nexty s <> endy (s_tile s)).
      { rewrite E2, Ht. unfold tile_pixel. cbn [snd]. fold W. lia. }
      destruct (Z.eqb_spec (s_nexty s) (endy (s_tile s))) as [Hc' | _]; [contradiction |].
      rewrite E1, E2, E3. f_equal.
      assert (Ht' : s_tile (sampler_advance s (i * draws + draws)) = t).
      { unfold sampler_advance. destruct (_ =? _); cbn; exact Ht. }
      assert (Ed : s_drawn (sampler_advance s (i * draws + draws)) = (S i * draws)%nat).
      { unfold sampler_advance. destruct (_ =? _); cbn; lia. }
      assert (Ep : s_nextx (sampler_advance s (i * draws + draws)) = fst (tile_pixel t (S i)) /\
                   s_nexty (sampler_advance s (i * draws + draws)) = snd (tile_pixel t (S i))).
      { unfold sampler_advance. rewrite E1, E2, Ht. unfold tile_pixel. cbn [fst snd]. fold W.
        assert (Si : Z.of_nat (S i) = Z.of_nat i + 1) by lia. rewrite Si.
        set (q := Z.of_nat i / W) in *. set (r := Z.of_nat i mod W) in *.
        destruct (Z.eqb_spec (startx t + r + 1) (endx t)) as [He | He]; cbn [s_nextx s_nexty].
        - assert (Er : r + 1 = W) by (unfold W; lia).
          assert (Q1 : (Z.of_nat i + 1) / W = q + 1)
            by (symmetry; apply (Z.div_unique _ _ _ 0); lia).
          assert (R1 : (Z.of_nat i + 1) mod W = 0)
            by (symmetry; apply (Z.mod_unique _ _ (q + 1) 0); lia).
          rewrite Q1, R1. lia.
        - assert (Hlt : r + 1 < W) by (unfold W in *; lia).
          assert (Q1 : (Z.of_nat i + 1) / W = q)
            by (symmetry; apply (Z.div_unique _ _ _ (r + 1)); lia).
          assert (R1 : (Z.of_nat i + 1) mod W = r + 1)
            by (symmetry; apply (Z.mod_unique _ _ q (r + 1)); lia).
          rewrite Q1, R1. lia. }
      destruct Ep as [Ep1 Ep2].
      apply (IH _ (S i) t); try assumption. lia.
  Qed.
End Samplers.

Lemma tile_pixel_inj : forall t i j, startx t < endx t -> tile_pixel t i = tile_pixel t j -> i = j.
Proof.
  intros t i j Hx E. unfold tile_pixel in E. injection E as E1 E2.
  set (W := endx t - startx t) in *. assert (HW : W <> 0) by (unfold W; lia).
  pose proof (Z.div_mod (Z.of_nat i) W HW). pose proof (Z.div_mod (Z.of_nat j) W HW).
  replace (Z.of_nat i / W) with (Z.of_nat j / W) in * by lia.
  replace (Z.of_nat i mod W) with (Z.of_nat j mod W) in * by lia. lia.
Qed.

Lemma tile_pixel_onto : forall t px py, in_tile px py t = true ->
  exists i, Z.of_nat i < tile_area t /\ tile_pixel t i = (px, py).
Proof.
  intros t px py H. unfold in_tile in H. rewrite !andb_true_iff, !Z.leb_le, !Z.ltb_lt in H.
  destruct H as (((A & B) & C) & D).
  exists (Z.to_nat ((py - starty t) * (endx t - startx t) + (px - startx t))).
  unfold tile_area, tile_pixel. rewrite Z2Nat.id by nia.
  set (W := endx t - startx t). assert (HW : 0 < W) by (unfold W; lia).
  split; [unfold W in *; nia |].
  assert (Q1 : ((py - starty t) * W + (px - startx t)) / W = py - starty t)
    by (symmetry; apply (Z.div_unique _ _ _ (px - startx t)); unfold W in *; lia).
  assert (R1 : ((py - starty t) * W + (px - startx t)) mod W = px - startx t)
    by (symmetry; apply (Z.mod_unique _ _ (py - starty t) (px - startx t)); unfold W in *; lia).
  rewrite Q1, R1. f_equal; lia.
Qed.

Lemma tile_pixel_in : forall t i, startx t < endx t -> Z.of_nat i < tile_area t ->
  in_tile (fst (tile_pixel t i)) (snd (tile_pixel t i)) t = true.
Proof.
  intros t i Hx Hi. unfold tile_area in Hi. unfold in_tile, tile_pixel. cbn [fst snd].
  set (W := endx t - startx t) in *. assert (HW : 0 < W) by (unfold W; lia).
  pose proof (Z.mod_pos_bound (Z.of_nat i) W HW).
  assert (0 <= Z.of_nat i / W) by (apply Z.div_pos; lia).
  assert (Z.of_nat i / W < endy t - starty t) by (apply Z.div_lt_upper_bound; lia).
  rewrite !andb_true_iff, !Z.leb_le, !Z.ltb_lt. unfold W in *. lia.
Qed.

Definition random_out (rng : nat -> Q) (spp : Z) (x y : Z) (d : nat) : list (Q * Q) :=
  map (fun i => (inject_Z x + rng (d + 2 * i)%nat, inject_Z y + rng (d + 2 * i + 1)%nat)%Q)
      (seq 0 (Z.to_nat spp)).

Definition stratified_out (rng : nat -> Q) (spp : Z) (px py : Z) (d : nat) : list (Q * Q) :=
  let k := Z.to_nat (strata spp) in
  let dx := (1 / inject_Z (strata spp))%Q in
  flat_map (fun y => map (fun x =>
      let i := (y * k + x)%nat in
      (inject_Z px + (inject_Z (Z.of_nat x) + rng (d + 2 * i)%nat) * dx,
       inject_Z py + (inject_Z (Z.of_nat y) + rng (d + 2 * i + 1)%nat) * dx)%Q)
      (seq 0 k)) (seq 0 k).

(* the runs, for a sampler whose spp is fixed *)
Lemma advance_spp : forall s d, s_spp (sampler_advance s d) = s_spp s.
Proof. intros s d. unfold sampler_advance. destruct (_ =? _); reflexivity. Qed.

Lemma run_random : forall rng spp n s, s_spp s = spp ->
  sampler_run (random_get rng) n s =
  sampler_run (fun s => if (s_nexty s =? endy (s_tile s)) then (s, None)
    else (sampler_advance s (s_drawn s + 2 * Z.to_nat spp),
          Some (random_out rng spp (s_nextx s) (s_nexty s) (s_drawn s)))) n s.
Proof.
  intros rng spp n. induction n as [| n IH]; intros s Hs; [reflexivity |].
  cbn [sampler_run]. unfold random_get at 1. rewrite Hs.
  destruct (s_nexty s =? endy (s_tile s)); f_equal; apply IH; [exact Hs |].
  rewrite advance_spp. exact Hs.
Qed.

Lemma run_stratified : forall rng spp n s, s_spp s = spp ->
  sampler_run (stratified_get rng) n s =
  sampler_run (fun s => if (s_nexty s =? endy (s_tile s)) then (s, None)
    else (sampler_advance s (s_drawn s + 2 * (Z.to_nat (strata spp) * Z.to_nat (strata spp))),
          Some (stratified_out rng spp (s_nextx s) (s_nexty s) (s_drawn s)))) n s.
Proof.
  intros rng spp n. induction n as [| n IH]; intros s Hs; [reflexivity |].
  cbn [sampler_run]. unfold stratified_get at 1. rewrite Hs.
  destruct (s_nexty s =? endy (s_tile s)); f_equal; apply IH; [exact Hs |].
  rewrite advance_spp. exact Hs.
Qed.

Lemma run_init : forall get out draws t spp n,
  (forall s, get s = if (s_nexty s =? endy (s_tile s)) then (s, None)
    else (sampler_advance s (s_drawn s + draws),
          Some (out (s_nextx s) (s_nexty s) (s_drawn s)))) ->
  startx t < endx t -> starty t < endy t ->
  sampler_run get (Z.to_nat (tile_area t) + n) (sampler_init t spp) =
  map (fun j => Some (out (fst (tile_pixel t j)) (snd (tile_pixel t j)) (j * draws)%nat))
      (seq 0 (Z.to_nat (tile_area t))) ++ repeat None n.
Proof.
  intros get out draws t spp n G Hx Hy.
  apply (run_from get out draws G _ _ 0%nat t); unfold sampler_init; cbn [s_tile s_nextx s_nexty s_drawn];
    try assumption; try reflexivity.
  - unfold tile_pixel. cbn [fst]. rewrite Z.mod_0_l by lia. lia.
  - unfold tile_pixel. cbn [snd]. rewrite Z.div_0_l by lia. lia.
  - unfold tile_area. rewrite Z2Nat.id; nia.
Qed.

Lemma nth_run : forall A (f : nat -> A) m n i,
  nth_error (map (fun j => Some (f j)) (seq 0 m) ++ repeat None n) i =
  if (i <? m)%nat then Some (Some (f i)) else if (i <? m + n)%nat then Some None else None.
Proof.
  intros A f m n i. destruct (Nat.ltb_spec i m) as [H | H].
  - rewrite nth_error_app1 by (rewrite map_length, seq_length; lia).
    rewrite nth_error_map, (nth_error_nth' (seq 0 m) 0%nat) by (rewrite seq_length; lia).
    rewrite seq_nth by lia. reflexivity.
  - rewrite nth_error_app2; rewrite map_length, seq_length; [| lia].
    destruct (Nat.ltb_spec i (m + n)).
    + rewrite (nth_error_nth' _ None) by (rewrite repeat_length; lia). now rewrite nth_repeat.
    + apply nth_error_None. rewrite repeat_length. lia.
Qed.

Local Open Scope Q_scope.

Lemma random_out_len : forall rng spp x y d, length (random_out rng spp x y d) = Z.to_nat spp.
Proof. intros. unfold random_out. now rewrite map_length, seq_length. Qed.

Lemma random_out_cell : forall rng spp x y d, (forall i, 0 <= rng i <= 1) ->
  Forall (in_cell (x, y)) (random_out rng spp x y d).
Proof.
  intros rng spp x y d H. apply Forall_forall. intros p Hp. unfold random_out in Hp.
  apply in_map_iff in Hp. destruct Hp as (i & <- & _). unfold in_cell. cbn [fst snd].
  pose proof (H (d + 2 * i)%nat). pose proof (H (d + 2 * i + 1)%nat).
  rewrite !inject_Z_plus. change (inject_Z 1) with 1. lra.
Qed.

Lemma stratified_len : forall rng spp x y d,
  length (stratified_out rng spp x y d) = (Z.to_nat (strata spp) * Z.to_nat (strata spp))%nat.
Proof.
  intros. unfold stratified_out. set (k := Z.to_nat (strata spp)).
  cbv zeta.
  assert (F : forall (f : nat -> nat -> Q * Q) m n,
    length (flat_map (fun y => map (f y) (seq 0 k)) (seq m n)) = (n * k)%nat).
  { intros f m n. revert m. induction n as [| n IH]; intros m; [reflexivity |].
    cbn [seq flat_map]. rewrite app_length, map_length, seq_length, IH. lia. }
  apply (F (fun y x => _)).
Qed.

Lemma frac_in : forall k x r, (0 < k)%Z -> (0 <= x < k)%Z -> 0 <= r <= 1 ->
  0 <= (inject_Z x + r) * (1 / inject_Z k) <= 1.
Proof.
  intros k x r Hk Hx Hr.
  assert (K : 0 < inject_Z k) by (change 0 with (inject_Z 0); now rewrite <- Zlt_Qlt).
  assert (X0 : 0 <= inject_Z x) by (change 0 with (inject_Z 0); now rewrite <- Zle_Qle).
  assert (X1 : inject_Z x + 1 <= inject_Z k).
  { change 1 with (inject_Z 1). rewrite <- inject_Z_plus, <- Zle_Qle. lia. }
  assert (E : (inject_Z x + r) * (1 / inject_Z k) == (inject_Z x + r) / inject_Z k)
    by (field; intros F; rewrite F in K; discriminate K).
  rewrite E. split.
  - apply Qle_shift_div_l; [exact K |]. lra.
  - apply Qle_shift_div_r; [exact K |]. lra.
Qed.

Lemma stratum_of : forall k px py x y r1 r2, (0 < k)%Z -> 0 <= r1 < 1 -> 0 <= r2 < 1 ->
  stratum k (px, py) (inject_Z px + (inject_Z x + r1) * (1 / inject_Z k),
                      inject_Z py + (inject_Z y + r2) * (1 / inject_Z k)) = (x, y).
Proof.
  intros k px py x y r1 r2 Hk H1 H2.
  assert (K : ~ inject_Z k == 0).
  { change 0 with (inject_Z 0). rewrite inject_Z_injective. lia. }
  assert (F : forall z a r, 0 <= r < 1 ->
    Qfloor ((inject_Z z + (inject_Z a + r) * (1 / inject_Z k) - inject_Z z) * inject_Z k) = a).
  { intros z a r Hr.
    assert (E : (inject_Z z + (inject_Z a + r) * (1 / inject_Z k) - inject_Z z) * inject_Z k
                == inject_Z a + r) by (field; exact K).
    rewrite E. pose proof (Qfloor_le (inject_Z a + r)) as L. pose proof (Qlt_floor (inject_Z a + r)) as U.
    set (f := Qfloor (inject_Z a + r)) in *.
    assert (A1 : inject_Z f < inject_Z (a + 1)) by (rewrite inject_Z_plus; change (inject_Z 1) with 1; lra).
    assert (A2 : inject_Z a < inject_Z (f + 1)) by lra.
    rewrite <- Zlt_Qlt in A1, A2. lia. }
  unfold stratum. cbn [fst snd]. rewrite !F by assumption. reflexivity.
Qed.

Lemma in_stratified : forall rng spp px py d p, In p (stratified_out rng spp px py d) ->
  exists x y i j, (0 <= x < strata spp)%Z /\ (0 <= y < strata spp)%Z /\
    p = (inject_Z px + (inject_Z x + rng i) * (1 / inject_Z (strata spp)),
         inject_Z py + (inject_Z y + rng j) * (1 / inject_Z (strata spp))).
Proof.
  intros rng spp px py d p H. unfold stratified_out in H. apply in_flat_map in H.
  destruct H as (y & Hy & H). apply in_map_iff in H. destruct H as (x & <- & Hx).
  apply in_seq in Hx. apply in_seq in Hy.
  exists (Z.of_nat x), (Z.of_nat y). do 2 eexists. split; [lia |]. split; [lia |]. reflexivity.
Qed.

Lemma stratified_cell : forall rng spp px py d, (forall i, 0 <= rng i <= 1) ->
  Forall (in_cell (px, py)) (stratified_out rng spp px py d).
Proof.
  intros rng spp px py d H. apply Forall_forall. intros p Hp.
  destruct (in_stratified _ _ _ _ _ _ Hp) as (x & y & i & j & Hx & Hy & ->).
  unfold in_cell. cbn [fst snd].
  pose proof (frac_in (strata spp) x (rng i) ltac:(lia) Hx (H i)).
  pose proof (frac_in (strata spp) y (rng j) ltac:(lia) Hy (H j)).
  rewrite !inject_Z_plus. change (inject_Z 1) with 1. lra.
Qed.

Lemma map_flat_map : forall A B C (g : B -> C) (f : A -> list B) l,
  map g (flat_map f l) = flat_map (fun a => map g (f a)) l.
Proof.
  intros A B C g f l. induction l as [| a l IH]; [reflexivity |].
  cbn [flat_map]. now rewrite map_app, IH.
Qed.

Lemma stratified_strata : forall rng spp px py d, (forall i, 0 <= rng i < 1) ->
  map (stratum (strata spp) (px, py)) (stratified_out rng spp px py d) =
  flat_map (fun y => map (fun x => (Z.of_nat x, Z.of_nat y)) (seq 0 (Z.to_nat (strata spp))))
           (seq 0 (Z.to_nat (strata spp))).
Proof.
  intros rng spp px py d H. unfold stratified_out. rewrite map_flat_map.
  apply flat_map_ext. intros y. rewrite map_map. apply map_ext_in. intros x Hx.
  apply in_seq in Hx. cbv zeta. apply stratum_of; [lia | apply H | apply H].
Qed.

Lemma grid_nodup : forall k m n,
  NoDup (flat_map (fun y => map (fun x => (Z.of_nat x, Z.of_nat y)) (seq 0 k)) (seq m n)).
Proof.
  intros k m n. revert m. induction n as [| n IH]; intros m; [constructor |].
  cbn [seq flat_map].
  assert (A : forall a b : list (Z * Z), NoDup a -> NoDup b -> (forall x, In x a -> ~ In x b) -> NoDup (a ++ b)).
  { intros a. induction a as [| h a IHa]; intros b Ha Hb Hd; [exact Hb |].
    cbn [app]. inversion Ha; subst. constructor.
    - intros Hin. apply in_app_or in Hin. destruct Hin as [Hin | Hin]; [contradiction |].
      apply (Hd h (or_introl eq_refl) Hin).
    - apply IHa; try assumption. intros x Hx. apply Hd. now right. }
  apply A; [| apply IH |].
  - apply FinFun.Injective_map_NoDup; [| apply seq_NoDup].
    intros a b E. injection E as E. lia.
  - intros p Hp Hq. apply in_map_iff in Hp. destruct Hp as (x & <- & _).
    apply in_flat_map in Hq. destruct Hq as (y & Hy & Hq). apply in_map_iff in Hq.
    destruct Hq as (x' & E & _). injection E as E1 E2. apply in_seq in Hy. lia.
Qed.
