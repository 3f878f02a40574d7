(* C23, C28: tiles and samplers. *)
From Coq Require Import QArith.
From Verif Require Import Common TilesModel TilesSpec TilesProofs.
Local Open Scope Z_scope.

(* C23.  For every accepted width and every height the jobs are non-empty tiles
   inside the image, and every pixel lies in exactly one of them. *)
Theorem tiles_partition : forall w h,
  0 <= w < 2 ^ 31 - 32 -> w mod 32 = 0 -> h < 2 ^ 31 - 32 ->
  exists jobs, render_jobs w h = Ok jobs /\
    Forall (tile_fits w h) jobs /\ NoDup jobs /\
    forall px py, 0 <= px < w -> 0 <= py < h ->
      exists k t, nth_error jobs k = Some t /\ in_tile px py t = true /\
        forall k' t', nth_error jobs k' = Some t' -> in_tile px py t' = true -> k' = k.
Proof.
  intros w h Hw Hm Hh. destruct (render_jobs_pf w h Hw Hm Hh) as (jobs & E & F & C).
  exists jobs. split; [exact E |]. split; [apply Forall_forall; exact F |]. split.
  - apply cover_nodup.
    + intros t Ht. exists (startx t), (starty t). destruct (F t Ht) as (A & B & _ & D & G & _).
      unfold in_tile. rewrite !andb_true_iff, !Z.leb_le, !Z.ltb_lt. lia.
    + intros px py. rewrite C. destruct (_ && _)%bool; lia.
  - intros px py Hx Hy. apply cover_unique. rewrite C.
    destruct (Z.leb_spec 0 px); destruct (Z.ltb_spec px w); destruct (Z.leb_spec 0 py);
      destruct (Z.ltb_spec py h); try lia. reflexivity.
Qed.
Print Assumptions tiles_partition.

Example tiles_ex : render_jobs 64 33 =
  Ok [mk_tile 32 64 32 33; mk_tile 0 32 32 33; mk_tile 32 64 0 32; mk_tile 0 32 0 32].
Proof. vm_compute. reflexivity. Qed.

(* C23.  Any other width renders nothing at all. *)
Theorem tiles_rejected_width : forall w h, Z.rem w 32 <> 0 -> render_jobs w h = Ok [].
Proof. exact render_jobs_rejected. Qed.
Print Assumptions tiles_rejected_width.
Example tiles_rejected_ex : render_jobs 800 600 <> Ok [] /\ render_jobs 801 600 = Ok [].
Proof. split; [vm_compute; discriminate | reflexivity]. Qed.

(* C28.  The order of visit enumerates the tile: each of its pixels once. *)
Theorem tile_order_bijective : forall t, startx t < endx t ->
  (forall i, Z.of_nat i < tile_area t ->
     in_tile (fst (tile_pixel t i)) (snd (tile_pixel t i)) t = true) /\
  (forall i j, tile_pixel t i = tile_pixel t j -> i = j) /\
  (forall px py, in_tile px py t = true ->
     exists i, Z.of_nat i < tile_area t /\ tile_pixel t i = (px, py)).
Proof.
  intros t Hx. split; [intros i Hi; now apply tile_pixel_in |].
  split; [intros i j; now apply tile_pixel_inj | apply tile_pixel_onto].
Qed.
Print Assumptions tile_order_bijective.

(* C28.  Random sampler: call number i delivers spp samples of pixel i, and
   every call after the last pixel reports exhaustion. *)
Theorem random_sampler_order : forall rng t spp n i,
  (forall k, 0 <= rng k <= 1)%Q -> startx t < endx t -> starty t < endy t -> 0 <= spp ->
  let run := sampler_run (random_get rng) (Z.to_nat (tile_area t) + n) (sampler_init t spp) in
  (Z.of_nat i < tile_area t -> exists l, nth_error run i = Some (Some l) /\
     Z.of_nat (length l) = spp /\ Forall (in_cell (tile_pixel t i)) l) /\
  ((Z.to_nat (tile_area t) <= i < Z.to_nat (tile_area t) + n)%nat -> nth_error run i = Some None).
Proof.
  intros rng t spp n i Hr Hx Hy Hs run. unfold run. rewrite (run_random rng spp) by reflexivity.
  rewrite (run_init _ (random_out rng spp) (2 * Z.to_nat spp) t spp n (fun s => eq_refl) Hx Hy).
  rewrite nth_run. split.
  - intros Hi. destruct (Nat.ltb_spec i (Z.to_nat (tile_area t))) as [_ | ?]; [| lia].
    eexists. split; [reflexivity |]. rewrite random_out_len. split; [lia |].
    destruct (tile_pixel t i) as [px py]. cbn [fst snd]. now apply random_out_cell.
  - intros Hi. destruct (Nat.ltb_spec i (Z.to_nat (tile_area t))) as [? | _]; [lia |].
    destruct (Nat.ltb_spec i (Z.to_nat (tile_area t) + n)); [reflexivity | lia].
Qed.
Print Assumptions random_sampler_order.

(* C28.  Stratified sampler, for a perfect square of samples: same order, and
   the samples of a pixel use each of its strata exactly once (random values
   below 1). *)
Theorem stratified_sampler_order : forall rng t k n i,
  (forall j, 0 <= rng j <= 1)%Q -> startx t < endx t -> starty t < endy t -> 1 <= k ->
  let run := sampler_run (stratified_get rng) (Z.to_nat (tile_area t) + n)
               (sampler_init t (k * k)) in
  (Z.of_nat i < tile_area t -> exists l, nth_error run i = Some (Some l) /\
     Z.of_nat (length l) = k * k /\ Forall (in_cell (tile_pixel t i)) l /\
     ((forall j, rng j < 1)%Q ->
        NoDup (map (stratum k (tile_pixel t i)) l) /\
        forall x y, 0 <= x < k -> 0 <= y < k -> In (x, y) (map (stratum k (tile_pixel t i)) l))) /\
  ((Z.to_nat (tile_area t) <= i < Z.to_nat (tile_area t) + n)%nat -> nth_error run i = Some None).
Proof.
  intros rng t k n i Hr Hx Hy Hk run. unfold run. rewrite (run_stratified rng (k * k)) by reflexivity.
  assert (Ek : strata (k * k) = k) by (unfold strata; apply Z.sqrt_square; lia).
  rewrite (run_init _ (stratified_out rng (k * k))
             (2 * (Z.to_nat (strata (k * k)) * Z.to_nat (strata (k * k)))) t (k * k) n
             (fun s => eq_refl) Hx Hy).
  rewrite nth_run. split.
  - intros Hi. destruct (Nat.ltb_spec i (Z.to_nat (tile_area t))) as [_ | ?]; [| lia].
    eexists. split; [reflexivity |]. rewrite stratified_len, Ek. split; [nia |].
    destruct (tile_pixel t i) as [px py]. cbn [fst snd].
    split; [now apply stratified_cell |]. intros Hlt.
    assert (Hrl : forall j, (0 <= rng j < 1)%Q) by (intros j; split; [apply Hr | apply Hlt]).
    pose proof (stratified_strata rng (k * k) px py
      (i * (2 * (Z.to_nat k * Z.to_nat k)))%nat Hrl) as S.
    rewrite Ek in S. rewrite S. split; [apply grid_nodup |].
    intros x y Hx' Hy'. apply in_flat_map. exists (Z.to_nat y). split; [apply in_seq; lia |].
    apply in_map_iff. exists (Z.to_nat x). split; [rewrite !Z2Nat.id by lia; reflexivity |].
    apply in_seq. lia.
  - intros Hi. destruct (Nat.ltb_spec i (Z.to_nat (tile_area t))) as [? | _]; [lia |].
    destruct (Nat.ltb_spec i (Z.to_nat (tile_area t) + n)); [reflexivity | lia].
Qed.
Print Assumptions stratified_sampler_order.

(* C28.  When spp is not a perfect square the stratified sampler fills fewer
   than spp samples although the caller uses spp of them. *)
Theorem stratified_unfilled_refuted : forall rng t spp s' l,
  0 <= spp -> (forall k, spp <> k * k) -> starty t < endy t ->
  stratified_get rng (sampler_init t spp) = (s', Some l) -> Z.of_nat (length l) < spp.
Proof.
  intros rng t spp s' l H0 Hn Hy E.
  assert (El : l = stratified_out rng spp (startx t) (starty t) 0).
  { unfold stratified_get, sampler_init in E. cbn [s_nexty s_tile s_spp s_drawn s_nextx] in E.
    destruct (Z.eqb_spec (starty t) (endy t)); [discriminate |]. injection E as _ <-. reflexivity. }
  subst l. rewrite stratified_len. unfold strata.
  pose proof (Z.sqrt_spec spp H0) as S. cbv zeta in S. pose proof (Z.sqrt_nonneg spp).
  specialize (Hn (Z.sqrt spp)). rewrite Nat2Z.inj_mul, Z2Nat.id by lia. lia.
Qed.
Print Assumptions stratified_unfilled_refuted.

Example stratified_ex :
  let t := mk_tile 32 64 0 32 in
  map (option_map (@length _)) (firstn 2 (sampler_run (stratified_get (fun _ => (1 # 2)%Q)) 2
        (sampler_init t 10))) = [Some 9%nat; Some 9%nat] /\
  (forall k, 10 <> k * k).
Proof. split; [vm_compute; reflexivity |]. intros k H.
  assert (-4 < k < 4) by nia. assert (k = -3 \/ k = -2 \/ k = -1 \/ k = 0 \/ k = 1 \/ k = 2 \/ k = 3) by lia. nia.
Qed.
