(* The progress bar tells the truth once a tile was taken; before, it is undefined. *)
From Coq Require Import Permutation Qround.
From Verif Require Import Common TilesModel RenderModel RenderSpec RenderProofs RenderProps BarModel BarSpec.
Local Open Scope Z_scope.

Lemma floor_div : forall a b, 0 < b -> Qfloor (inject_Z a / inject_Z b) = a / b.
Proof. intros a b H; exact (eq_sym (Zdiv_Qdiv a b)). Qed.

Lemma floor_unique : forall q k, (inject_Z k <= q)%Q -> (q < inject_Z (k + 1))%Q -> Qfloor q = k.
Proof.
  intros q k L H; pose proof (Qfloor_le q) as A; pose proof (Qlt_floor q) as B.
  assert (inject_Z (Qfloor q) < inject_Z (k + 1))%Q by (eapply Qle_lt_trans; eauto).
  assert (inject_Z k < inject_Z (Qfloor q + 1))%Q by (eapply Qle_lt_trans; eauto).
  rewrite <- Zlt_Qlt in *; lia.
Qed.

Lemma floor_share : forall parts n m, 0 < m -> share parts n m (Qfloor (inject_Z n / inject_Z m * inject_Z parts)).
Proof.
  intros parts n m M.
  assert (E : (inject_Z n / inject_Z m * inject_Z parts == inject_Z (parts * n) / inject_Z m)%Q).
  { rewrite inject_Z_mult; field; intro Z; unfold Qeq in Z; cbn in Z; lia. }
  rewrite E, floor_div by exact M; unfold share.
  pose proof (Z.div_mod (parts * n) m ltac:(lia)); pose proof (Z.mod_pos_bound (parts * n) m M); nia.
Qed.

Lemma bar_blocks : forall k, 0 <= k <= 20 ->
  blocks 20 k (repeat true (Z.to_nat k) ++ repeat false (20 - Z.to_nat k)).
Proof.
  intros k K; split; [rewrite app_length, !repeat_length; lia |].
  intros i I; destruct (Z.ltb_spec (Z.of_nat i) k) as [L | L].
  - rewrite nth_error_app1 by (rewrite repeat_length; lia); apply nth_error_repeat; lia.
  - rewrite nth_error_app2 by (rewrite repeat_length; lia); rewrite repeat_length; apply nth_error_repeat; lia.
Qed.

Lemma share_range : forall parts n m k, 0 <= n <= m -> 0 < m -> 0 < parts -> share parts n m k -> 0 <= k <= parts.
Proof. intros parts n m k N M P [A B]; split; nia. Qed.

Lemma shown : forall n m eta, 0 <= n <= m -> 0 < m ->
  let b := progress_bar (inject_Z n / inject_Z m) eta in
  (exists k, share 20 n m k /\ blocks 20 k (b_blocks b)) /\ share 100 n m (b_percent b) /\ b_eta b = eta.
Proof.
  intros n m eta N M b; unfold b, progress_bar; cbn [b_blocks b_percent b_eta].
  split; [| split; [| reflexivity]].
  - exists (Qfloor (inject_Z n / inject_Z m * 20)); pose proof (floor_share 20 n m M) as S; split; [exact S |].
    apply bar_blocks; eapply share_range; eauto; lia.
  - assert (E : (inject_Z n / inject_Z m * 20 * 5 == inject_Z n / inject_Z m * inject_Z 100)%Q).
    { change (inject_Z 100) with (20 * 5)%Q; ring. }
    rewrite E; apply floor_share, M.
Qed.

Theorem bar_honest : forall contribs workers jobs sched s elapsed,
  exec contribs (render_init workers jobs) sched = Some s -> taken s <> [] ->
  0 <= elapsed -> elapsed * Z.of_nat (length jobs) < 2 ^ 63 ->
  let n := Z.of_nat (length (taken s)) in let m := Z.of_nat (length jobs) in
  match watch jobs elapsed s with
  | Ok (Some b) =>
      (exists k, share 20 n m k /\ blocks 20 k (b_blocks b)) /\ share 100 n m (b_percent b) /\
      (* the time so far, divided among the tiles taken, times the tiles left *)
      0 < b_eta b /\ share (elapsed * (m - n)) 1 n (b_eta b)
  | Ok None => elapsed * (m - n) < n
  | _ => False
  end.
Proof.
  intros contribs workers jobs sched s elapsed E T L0 L1 n m.
  pose proof (Permutation_length (render_tiles_never_lost _ _ _ _ _ E)) as P; rewrite app_length in P.
  assert (N : 0 < n) by (unfold n; destruct (taken s); [congruence | cbn [length]; lia]).
  assert (M : Z.of_nat (length (sh_jobs (st_shared s))) = m - n) by (unfold m, n; lia).
  assert (NM : 0 <= n <= m) by lia.
  unfold watch, poll; cbv zeta; rewrite M; fold m; replace (m - (m - n)) with n by ring.
  destruct (Z.eqb_spec n 0) as [Z | _]; [lia |].
  assert (X : (inject_Z elapsed / inject_Z n * inject_Z (m - n) == inject_Z 1 / inject_Z n * inject_Z (elapsed * (m - n)))%Q).
  { rewrite inject_Z_mult; field; intro Z; unfold Qeq in Z; cbn in Z; lia. }
  rewrite (Qfloor_comp _ _ X); pose proof (floor_share (elapsed * (m - n)) 1 n N) as S.
  revert S; generalize (Qfloor (inject_Z 1 / inject_Z n * inject_Z (elapsed * (m - n)))); intros eta S.
  destruct (Z.leb_spec (2 ^ 63) eta) as [B | B]; [unfold share in S; fold m in L1; nia |].
  destruct (Z.ltb_spec 0 eta) as [Q | Q].
  - destruct (shown n m eta NM ltac:(lia)) as (A1 & A2 & A3); split; [exact A1 | split; [exact A2 |]].
    rewrite A3; split; [exact Q | exact S].
  - unfold share in S; nia.
Qed.
Print Assumptions bar_honest.

(* Until a worker pops the first tile the listener converts an infinity or NaN to time_t. *)
Theorem bar_start_refuted : forall contribs workers jobs sched s elapsed,
  exec contribs (render_init workers jobs) sched = Some s -> taken s = [] -> watch jobs elapsed s = UB.
Proof.
  intros contribs workers jobs sched s elapsed E T.
  pose proof (Permutation_length (render_tiles_never_lost _ _ _ _ _ E)) as P; rewrite T in P; cbn [app] in P.
  unfold watch, poll; cbv zeta; rewrite P, Z.sub_diag; reflexivity.
Qed.
Print Assumptions bar_start_refuted.

(* the listener is started before the workers, so this is where it may look first *)
Example bar_start_ex : forall contribs workers jobs,
  exec contribs (render_init workers jobs) [] = Some (render_init workers jobs) /\ taken (render_init workers jobs) = [].
Proof.
  intros contribs workers jobs; split; [reflexivity |]; unfold taken, render_init; cbn [st_threads].
  induction workers as [| k IH]; [reflexivity | exact IH].
Qed.

(* The bar does not move back. *)
Theorem bar_forward : forall contribs workers jobs sched s elapsed b sched' s' elapsed' b',
  exec contribs (render_init workers jobs) sched = Some s -> exec contribs s sched' = Some s' ->
  watch jobs elapsed s = Ok (Some b) -> watch jobs elapsed' s' = Ok (Some b') ->
  b_percent b <= b_percent b' <= 100.
Proof.
  intros contribs workers jobs sched s elapsed b sched' s' elapsed' b' E E' W W'.
  assert (E2 : exec contribs (render_init workers jobs) (sched ++ sched') = Some s').
  { revert E E'; generalize (render_init workers jobs); clear; induction sched as [| [i f] sched IH]; intros s0 E E'; cbn [app exec] in *.
    - injection E as ->; exact E'.
    - destruct (step contribs s0 i f); [apply IH; assumption | discriminate]. }
  pose proof (Permutation_length (render_tiles_never_lost _ _ _ _ _ E)) as P; rewrite app_length in P.
  pose proof (Permutation_length (render_tiles_never_lost _ _ _ _ _ E2)) as P2; rewrite app_length in P2.
  assert (LE : (length (sh_jobs (st_shared s')) <= length (sh_jobs (st_shared s)))%nat).
  { apply (exec_ind contribs (fun s1 => (length (sh_jobs (st_shared s1)) <= length (sh_jobs (st_shared s)))%nat)) with (3 := E'); [| lia].
    intros s1 i fail s2 H S; unfold step in S; destruct (nth_error (st_threads s1) i) as [th |]; [| discriminate].
    destruct (local_step contribs (st_shared s1) th i fail) as [[sh' th'] |] eqn:LS; [| discriminate].
    injection S as <-; cbn [st_shared]; etransitivity; [| exact H]; revert LS; clear; unfold local_step.
    destruct (th_pc th) as [| | t | t | t [| c cs] | t c old cs | | forced | forced c old | forced | |]; intro LS;
      try (destruct (sh_jlock (st_shared s1))); try (destruct (sh_flock (st_shared s1))); try (destruct fail);
      try (destruct (secure t c)); try (destruct (th_deferred th)); try discriminate;
      try (injection LS as <- <-; cbn [with_jobs with_jlock with_flock with_film sh_jobs]; lia);
      try (injection LS as <- <-; cbn [with_jobs sh_jobs]; destruct (sh_jobs (st_shared s1)); cbn [tl length]; lia);
      destruct (sh_jobs (st_shared s1)) eqn:J; injection LS as <- <-; cbn [with_jlock sh_jobs]; rewrite J; lia. }
  assert (G : forall r el bb, (r <= length jobs)%nat -> poll (length jobs) r el = Ok (Some bb) ->
     0 < Z.of_nat (length jobs) /\ share 100 (Z.of_nat (length jobs) - Z.of_nat r) (Z.of_nat (length jobs)) (b_percent bb)).
  { intros r el bb R W0; unfold poll in W0; cbv zeta in W0.
    destruct (Z.eqb_spec (Z.of_nat (length jobs) - Z.of_nat r) 0) as [Z | Z]; [discriminate |].
    match type of W0 with (if ?x then _ else _) = _ => destruct x; [discriminate |] end.
    match type of W0 with Ok (if ?x then _ else _) = _ => destruct x; [| discriminate] end.
    injection W0 as <-; split; [lia |].
    apply shown; lia. }
  assert (R : (length (sh_jobs (st_shared s)) <= length jobs)%nat) by lia.
  assert (R' : (length (sh_jobs (st_shared s')) <= length jobs)%nat) by lia.
  destruct (G _ _ _ R W) as [M S]; destruct (G _ _ _ R' W') as [_ S']; clear G W W' P P2 E E' E2.
  unfold share in *; split; nia.
Qed.
Print Assumptions bar_forward.

Example bar_ex :
  let jobs := [mk_tile 0 32 0 32; mk_tile 32 64 0 32; mk_tile 64 96 0 32] in
  match exec (fun _ => []) (render_init 2 jobs) [(0%nat, false); (0%nat, false); (0%nat, false)] with
  | Some s => taken s <> [] /\ watch jobs 10 s = Ok (Some (mk_bar (repeat true 6 ++ repeat false 14) 33 20))
  | None => False
  end.
Proof. vm_compute; split; [discriminate | reflexivity]. Qed.
