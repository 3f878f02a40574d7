(* C24, C25: workers, job stack and shared film. *)
From Coq Require Import Permutation QArith.
From Verif Require Import Common TilesModel FilmModel RenderModel RenderSpec RenderProofs.
Local Open Scope Z_scope.

(* ---- C24 ---- *)

(* At any moment the tiles taken by the workers and the tiles still on the
   stack are exactly the tiles of the image, each once. *)
Theorem render_tiles_never_lost : forall contribs n jobs sched s,
  exec contribs (render_init n jobs) sched = Some s ->
  Permutation (taken s ++ sh_jobs (st_shared s)) jobs.
Proof. intros contribs n jobs sched s E. eapply j_perm. eapply exec_jinv. exact E. Qed.

(* When all the workers have ended, every tile was taken exactly once. *)
Theorem render_exactly_once : forall contribs n jobs sched s, (1 <= n)%nat ->
  exec contribs (render_init n jobs) sched = Some s -> render_done s ->
  sh_jobs (st_shared s) = [] /\ Permutation (taken s) jobs.
Proof.
  intros contribs n jobs sched s Hn E D.
  assert (J := exec_jinv contribs jobs n sched s E).
  assert (L := exec_threads contribs sched _ _ E). cbn [render_init st_threads] in L.
  rewrite repeat_length in L.
  destruct (st_threads s) as [| th ths] eqn:Et; [cbn in L; lia |].
  assert (E0 : nth_error (st_threads s) 0 = Some th) by now rewrite Et.
  assert (Hj : sh_jobs (st_shared s) = []).
  { apply (j_end jobs s J 0 th E0). now rewrite (done_all s 0 th D E0). }
  split; [exact Hj |]. assert (P := j_perm jobs s J). now rewrite Hj, app_nil_r in P.
Qed.

(* Until all the workers have ended one of them can go on ... *)
Theorem render_no_deadlock : forall contribs n jobs sched s,
  exec contribs (render_init n jobs) sched = Some s -> ~ render_done s ->
  exists i fail s', step contribs s i fail = Some s'.
Proof. intros. eapply render_progress; [eapply exec_jinv |]; eassumption. Qed.

(* ... and whatever the schedule they all end: the number of steps is bounded. *)
Theorem render_terminates : forall contribs n jobs sched s,
  exec contribs (render_init n jobs) sched = Some s ->
  (length sched <= 12 * n + list_sum (map (fun t => 20 + 4 * length (contribs t)) jobs))%nat.
Proof.
  intros contribs n jobs sched s E.
  assert (W := exec_weight contribs jobs sched _ s (jinv_init n jobs) E).
  rewrite weight_init in W. unfold job_weight in W. lia.
Qed.

(* ---- C25 ---- *)

(* With one worker, or for a pixel reached by the samples of one tile only, the
   film ends up with the sum of all the contributions, whatever the schedule. *)
Theorem render_film_exact : forall contribs n jobs sched s x y, (1 <= n)%nat ->
  n = 1%nat \/ pixel_of_one_tile contribs jobs x y ->
  exec contribs (render_init n jobs) sched = Some s -> render_done s ->
  sh_film (st_shared s) x y = total (flat_map contribs jobs) x y.
Proof.
  intros contribs n jobs sched s x y Hn Hyp E D.
  assert (F : finv contribs jobs x y s).
  { apply (exec_finv contribs jobs x y n sched); [| exact E]. destruct Hyp; [left; lia | auto]. }
  destruct (render_exactly_once contribs n jobs sched s Hn E D) as [Hj _].
  assert (FS := f_sum contribs jobs x y s F). rewrite Hj in FS. cbn [flat_map total] in FS.
  rewrite (done_pending contribs s D) in FS; [cbn [total] in FS; lia |].
  intros i th Ei Hd. apply (exec_drained contribs jobs n sched s E i th true Ei). auto.
Qed.

(* Whatever the pixel and the schedule, no contribution is counted twice. *)
Theorem render_film_no_overcount : forall contribs n jobs sched s x y,
  (forall t c, In t jobs -> In c (contribs t) -> 0 <= c_v c) ->
  exec contribs (render_init n jobs) sched = Some s ->
  0 <= sh_film (st_shared s) x y <= total (flat_map contribs jobs) x y.
Proof.
  intros contribs n jobs sched s x y Hn E.
  destruct (exec_binv contribs jobs x y n sched s Hn E) as [B0 B1 B2 B3 B4].
  assert (T1 : 0 <= total (concat (map (pending contribs) (st_threads s))) x y).
  { apply total_nonneg. intros c Hc. apply in_concat in Hc. destruct Hc as (l & Hl & Hc).
    apply in_map_iff in Hl. destruct Hl as (th & <- & Hth). apply In_nth_error in Hth.
    destruct Hth as (i & Ei). now apply (B3 i th). }
  assert (T2 : 0 <= total (flat_map contribs (sh_jobs (st_shared s))) x y).
  { apply total_nonneg. intros c Hc. apply in_flat_map in Hc. destruct Hc as (t & Ht & Hc).
    now apply (B4 t). }
  lia.
Qed.

(* ---- the general claim is false ---- *)

(* One sample in the middle of every pixel of a tile, each contributing 1 to
   the pixels reached by a filter of the given extent. *)
Definition centre_samples (t : tile) : list (Q * Q) :=
  flat_map (fun y => map (fun x => (inject_Z x + (1 # 2), inject_Z y + (1 # 2))%Q)
    (zrange (startx t) (endx t))) (zrange (starty t) (endy t)).
Definition centre_contribs (range : Q) (width height : Z) (t : tile) : list contrib :=
  flat_map (fun pos => map (fun p => mk_contrib (fst p) (snd p) 1)
    (affected range range width height pos)) (centre_samples t).

Definition two_tiles : list tile := [mk_tile 32 64 0 1; mk_tile 0 32 0 1].
Definition run (i k : nat) : list (nat * bool) := repeat (i, false) k.

Example two_tiles_jobs : exists l, render_jobs 64 1 = Ok l /\ Permutation l two_tiles.
Proof. eexists. split; [vm_compute; reflexivity |]. apply perm_swap || reflexivity. Qed.

(* With the box filter (extent 1) a worker adds a deferred contribution to a
   pixel of a neighbouring tile, under the film mutex, while the worker of
   that tile updates the same pixel without the mutex: one of the two updates
   is lost and the saved image depends on the schedule. *)
Theorem render_film_lost_update_refuted : exists s,
  exec (centre_contribs 1 64 1) (render_init 2 two_tiles)
    (run 0 4 ++ run 1 129 ++ run 0 138 ++ run 1 10) = Some s /\ render_done s /\
  total (flat_map (centre_contribs 1 64 1) two_tiles) 31 0 = 2 /\ sh_film (st_shared s) 31 0 = 1.
Proof.
  eexists. split; [vm_compute; reflexivity |]. split; [| vm_compute; auto].
  unfold render_done. cbn [st_threads]. repeat constructor.
Qed.

(* With an extent of 2 (tent, gaussian and mitchell filters) the test
   "x > endx" lets a worker update the first column of the next tile without
   the mutex: here it erases what the owner of that column has added. *)
Theorem render_film_border_refuted : exists s,
  exec (centre_contribs 2 64 1) (render_init 2 two_tiles)
    (run 0 4 ++ run 1 253 ++ run 0 266 ++ run 1 10) = Some s /\ render_done s /\
  total (flat_map (centre_contribs 2 64 1) two_tiles) 32 0 = 4 /\ sh_film (st_shared s) 32 0 = 1.
Proof.
  eexists. split; [vm_compute; reflexivity |]. split; [| vm_compute; auto].
  unfold render_done. cbn [st_threads]. repeat constructor.
Qed.

(* ---- examples ---- *)

(* A complete execution of two workers with a failed try_lock; pixel 5 is
   reached by one tile, and its value is the sum of its contributions. *)
Definition small_contribs (t : tile) : list contrib :=
  if startx t =? 0 then [mk_contrib 5 0 2; mk_contrib 5 0 3; mk_contrib 40 0 1]
  else [mk_contrib 40 0 7; mk_contrib 31 0 1].
Definition small_sched : list (nat * bool) :=
  run 0 4 ++ run 1 7 ++ run 0 4 ++ [(0%nat, true)] ++ run 1 13 ++ run 0 7.

Example small_done : exists s, exec small_contribs (render_init 2 two_tiles) small_sched = Some s /\
  map th_pc (st_threads s) = [Done; Done] /\
  map th_tiles (st_threads s) = [[mk_tile 32 64 0 1]; [mk_tile 0 32 0 1]] /\
  sh_film (st_shared s) 5 0 = 5 /\ sh_film (st_shared s) 40 0 = 8 /\ sh_film (st_shared s) 31 0 = 1.
Proof. eexists. split; [vm_compute; reflexivity |]. vm_compute. auto 10. Qed.

Example small_pixel : pixel_of_one_tile small_contribs two_tiles 5 0.
Proof.
  split.
  - repeat constructor; cbn; intuition discriminate.
  - intros t1 t2 c1 c2 [<- | [<- | []]] [<- | [<- | []]]; try reflexivity; cbn;
      intros H1 H2; intuition (subst; cbn in *; discriminate).
Qed.

Print Assumptions render_tiles_never_lost.
Print Assumptions render_exactly_once.
Print Assumptions render_no_deadlock.
Print Assumptions render_terminates.
Print Assumptions render_film_exact.
Print Assumptions render_film_no_overcount.
Print Assumptions render_film_lost_update_refuted.
Print Assumptions render_film_border_refuted.
