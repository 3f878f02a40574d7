From Coq Require Import Permutation.
From Verif Require Import Common TilesModel RenderModel RenderSpec.
Local Open Scope Z_scope.

(* ---- lists of threads ---- *)

Lemma set_nth_split : forall A (l : list A) i a, nth_error l i = Some a ->
  exists l1 l2, l = l1 ++ a :: l2 /\ length l1 = i /\
    forall b, set_nth l i b = l1 ++ b :: l2.
Proof.
  intros A l. induction l as [| x l IH]; intros [| i] a E; try discriminate.
  - injection E as ->. exists [], l. auto.
  - destruct (IH i a E) as (l1 & l2 & -> & L & S). exists (x :: l1), l2.
    split; [reflexivity |]. split; [cbn; congruence |]. intros b. cbn. now rewrite S.
Qed.

Lemma nth_set_same : forall A (l : list A) i a b, nth_error l i = Some a ->
  nth_error (set_nth l i b) i = Some b.
Proof.
  intros A l i a b E. destruct (set_nth_split A l i a E) as (l1 & l2 & -> & L & S). rewrite S.
  rewrite nth_error_app2 by lia. replace (i - length l1)%nat with 0%nat by lia. reflexivity.
Qed.

Lemma nth_set_other : forall A (l : list A) i j b, i <> j ->
  nth_error (set_nth l i b) j = nth_error l j.
Proof.
  intros A l. induction l as [| x l IH]; intros [| i] [| j] b Hne; cbn; try reflexivity; try congruence.
  apply IH. congruence.
Qed.

Lemma set_nth_length : forall A (l : list A) i b, length (set_nth l i b) = length l.
Proof. intros A l. induction l as [| x l IH]; intros [| i] b; cbn; auto. Qed.

(* ---- invariant of the job stack and of the locks ---- *)

Definition holds_jobs (p : pc) : bool :=
  match p with JobCheck | JobPop _ | JobUnlock _ => true | _ => false end.
Definition holds_film (p : pc) : bool :=
  match p with Draining _ | DrainStoring _ _ _ | FilmUnlock _ => true | _ => false end.
Definition ending (p : pc) : bool :=
  match p with
  | ForceLock | Draining true | DrainStoring true _ _ | FilmUnlock true | Done => true
  | _ => false
  end.

Record jinv (all : list tile) (s : state) : Prop := mk_jinv {
  j_perm : Permutation (taken s ++ sh_jobs (st_shared s)) all;
  j_lock : forall i, sh_jlock (st_shared s) = Some i <->
     exists th, nth_error (st_threads s) i = Some th /\ holds_jobs (th_pc th) = true;
  j_flock : forall i, sh_flock (st_shared s) = Some i <->
     exists th, nth_error (st_threads s) i = Some th /\ holds_film (th_pc th) = true;
  j_pop : forall i th t, nth_error (st_threads s) i = Some th -> th_pc th = JobPop t ->
     exists r, sh_jobs (st_shared s) = t :: r;
  j_end : forall i th, nth_error (st_threads s) i = Some th -> ending (th_pc th) = true ->
     sh_jobs (st_shared s) = []
}.

Lemma jinv_init : forall n all, jinv all (render_init n all).
Proof.
  intros n all.
  assert (R : forall i th, nth_error (repeat (mk_thread JobLock [] []) n) i = Some th ->
    th = mk_thread JobLock [] []).
  { intros i th E. apply nth_error_In in E. now apply repeat_spec in E. }
  constructor; cbn [render_init st_shared st_threads sh_jobs sh_jlock sh_flock].
  - unfold taken. cbn [render_init st_threads].
    replace (concat (map th_tiles (repeat (mk_thread JobLock [] []) n))) with (@nil tile).
    + reflexivity.
    + clear R. induction n as [| n IH]; [reflexivity | exact IH].
  - intros i. split; [discriminate |]. intros (th & E & H). apply R in E. subst. discriminate.
  - intros i. split; [discriminate |]. intros (th & E & H). apply R in E. subst. discriminate.
  - intros i th t E H. apply R in E. subst. discriminate.
  - intros i th E H. apply R in E. subst. discriminate.
Qed.

(* A lock predicate after a step of thread i. *)
Lemma lock_step : forall (holds : pc -> bool) (lock lock' : option nat) ths i th th',
  (forall j, lock = Some j <-> exists t, nth_error ths j = Some t /\ holds (th_pc t) = true) ->
  nth_error ths i = Some th ->
  (holds (th_pc th) = holds (th_pc th') /\ lock' = lock) \/
  (lock = None /\ lock' = Some i /\ holds (th_pc th') = true) \/
  (holds (th_pc th) = true /\ lock' = None /\ holds (th_pc th') = false) ->
  forall j, lock' = Some j <->
    exists t, nth_error (set_nth ths i th') j = Some t /\ holds (th_pc t) = true.
Proof.
  intros holds lock lock' ths i th th' L E C j.
  assert (Hi : nth_error (set_nth ths i th') i = Some th') by (eapply nth_set_same; exact E).
  destruct (Nat.eq_dec i j) as [<- | Hne].
  - rewrite Hi. split.
    + intros Hl. exists th'. split; [reflexivity |].
      destruct C as [(H1 & ->) | [(H1 & H2 & H3) | (H1 & H2 & H3)]]; [| exact H3 | congruence].
      apply L in Hl. destruct Hl as (t & Et & Ht). congruence.
    + intros (t & Et & Ht). injection Et as <-.
      destruct C as [(H1 & ->) | [(H1 & H2 & H3) | (H1 & H2 & H3)]]; [| exact H2 | congruence].
      apply L. exists th. split; [exact E | congruence].
  - rewrite nth_set_other by exact Hne.
    destruct C as [(H1 & ->) | [(H1 & H2 & H3) | (H1 & H2 & H3)]].
    + apply L.
    + split; [intros Hl; congruence |]. intros Ht. apply L in Ht. congruence.
    + split; [intros Hl; congruence |]. intros Ht. apply L in Ht. exfalso.
      assert (Hl : lock = Some i) by (apply L; exists th; auto). congruence.
Qed.

Lemma taken_set : forall ths i th th' l1 l2, nth_error ths i = Some th ->
  ths = l1 ++ th :: l2 -> set_nth ths i th' = l1 ++ th' :: l2 ->
  concat (map th_tiles ths) = concat (map th_tiles l1) ++ th_tiles th ++ concat (map th_tiles l2) /\
  concat (map th_tiles (set_nth ths i th')) =
    concat (map th_tiles l1) ++ th_tiles th' ++ concat (map th_tiles l2).
Proof.
  intros ths i th th' l1 l2 E E1 E2. split; [rewrite E1 | rewrite E2];
    now rewrite map_app, concat_app.
Qed.

(* the contributions a thread still has to add *)
Definition pc_pending (contribs : tile -> list contrib) (p : pc) : list contrib :=
  match p with
  | JobUnlock t => contribs t
  | Adding _ cs => cs
  | Storing _ c _ cs => c :: cs
  | DrainStoring _ c _ => [c]
  | _ => []
  end.
Definition pending (contribs : tile -> list contrib) (th : thread) : list contrib :=
  pc_pending contribs (th_pc th) ++ th_deferred th.

(* a read-modify-write in progress *)
Definition storing (p : pc) : option (contrib * Z) :=
  match p with
  | Storing _ c old _ | DrainStoring _ c old => Some (c, old)
  | _ => None
  end.

Lemma total_app : forall l1 l2 x y, total (l1 ++ l2) x y = total l1 x y + total l2 x y.
Proof.
  intros l1 l2 x y. induction l1 as [| c l1 IH]; cbn [app total]; [reflexivity |]. rewrite IH. lia.
Qed.

Section Proofs.
  Variable contribs : tile -> list contrib.

  Ltac step_cases := match goal with
    | E : local_step _ ?sh ?th ?i ?fail = Some (?sh', ?th') |- _ =>
        unfold local_step in E; destruct (th_pc th) as [| | t | t | t [| c cs] | t c old cs | | f | f c old | f | |] eqn:Epc;
        [ destruct (sh_jlock sh) eqn:Ejl; [discriminate |]
        | destruct (sh_jobs sh) as [| t0 r0] eqn:Ejobs
        | | | | destruct (secure t c) eqn:Esec | |
        destruct (sh_flock sh) eqn:Efl; [| destruct fail]
        | destruct (th_deferred th) as [| c0 ds] eqn:Edef
        | | | destruct (sh_flock sh) eqn:Efl; [discriminate |] | discriminate ];
        injection E as <- <-
    end.

  Lemma jinv_step : forall all s i fail s', jinv all s -> step contribs s i fail = Some s' ->
    jinv all s'.
  Proof using.
    intros all [sh ths] i fail s' [JP JL JF JPop JE] E. unfold step in E.
    cbn [st_threads st_shared] in *.
    destruct (nth_error ths i) as [th |] eqn:Ei; [| discriminate].
    destruct (local_step contribs sh th i fail) as [[sh' th'] |] eqn:El; [| discriminate].
    injection E as <-.
    assert (Hother : forall j t, i <> j -> nth_error (set_nth ths i th') j = Some t ->
      nth_error ths j = Some t) by (intros j t Hne H; rewrite nth_set_other in H by exact Hne; exact H).
    assert (Hsame : nth_error (set_nth ths i th') i = Some th') by (eapply nth_set_same; exact Ei).
    destruct (set_nth_split _ _ _ _ Ei) as (l1 & l2 & Es & Ll & Hset).
    destruct (taken_set ths i th th' l1 l2 Ei Es (Hset th')) as [T1 T2].
    unfold taken in *. cbn [st_threads] in JP. rewrite T1 in JP.
    (* while thread i holds the job lock, no other thread does *)
    assert (Hexcl : forall j t, holds_jobs (th_pc th) = true -> i <> j ->
      nth_error ths j = Some t -> holds_jobs (th_pc t) = false).
    { intros j t Hh Hne Ej. destruct (holds_jobs (th_pc t)) eqn:Hj; [| reflexivity].
      assert (A1 : sh_jlock sh = Some i) by (apply JL; exists th; auto).
      assert (A2 : sh_jlock sh = Some j) by (apply JL; exists t; auto). congruence. }
    assert (Hpop : forall j th2 t0, sh_jobs sh' = sh_jobs sh ->
      nth_error (set_nth ths i th') j = Some th2 -> th_pc th2 = JobPop t0 ->
      (forall t1, th_pc th' = JobPop t1 -> exists r, sh_jobs sh' = t1 :: r) ->
      exists r, sh_jobs sh' = t0 :: r).
    { intros j th2 t0 Hj E2 Hp Hi. destruct (Nat.eq_dec i j) as [<- | Hne].
      - rewrite Hsame in E2. injection E2 as <-. now apply Hi.
      - rewrite Hj. apply (JPop j th2); [now apply Hother | exact Hp]. }
    assert (Hend : forall j th2, sh_jobs sh' = sh_jobs sh ->
      nth_error (set_nth ths i th') j = Some th2 -> ending (th_pc th2) = true ->
      (ending (th_pc th') = true -> ending (th_pc th) = true \/ sh_jobs sh = []) ->
      sh_jobs sh' = []).
    { intros j th2 Hj E2 Hp Hi. rewrite Hj. destruct (Nat.eq_dec i j) as [<- | Hne].
      - rewrite Hsame in E2. injection E2 as <-. destruct (Hi Hp) as [H | H]; [| exact H].
        now apply (JE i th).
      - apply (JE j th2); [now apply Hother | exact Hp]. }
    constructor; cbn [st_shared st_threads].
    - unfold taken. cbn [st_threads]. rewrite T2. clear - El JP JPop Ei.
      step_cases; cbn [with_jobs with_jlock with_flock with_film sh_jobs at_pc th_tiles]; try exact JP;
        rewrite ?Ejobs in *; try exact JP.
      destruct (JPop i th t Ei Epc) as [r Er]. rewrite Er in *. cbn [tl].
      eapply Permutation_trans; [| exact JP].
      rewrite <- !app_assoc. cbn [app]. apply Permutation_app_head.
      rewrite !app_assoc. apply Permutation_middle.
    - apply (lock_step holds_jobs (sh_jlock sh) _ ths i th th' JL Ei).
      clear - El. step_cases; cbn [with_jobs with_jlock with_flock with_film sh_jlock at_pc th_pc holds_jobs];
        rewrite ?Epc; cbn [holds_jobs]; auto 6.
      destruct f; auto.
    - apply (lock_step holds_film (sh_flock sh) _ ths i th th' JF Ei).
      clear - El. step_cases; cbn [with_jobs with_jlock with_flock with_film sh_flock at_pc th_pc holds_film];
        rewrite ?Epc; cbn [holds_film]; auto 6.
      destruct f; auto 6.
    - intros j th2 t2 E2 Hp.
      destruct (th_pc th) as [| | t | t | t cs | t c old cs | | f | f c old | f | |] eqn:Epc;
        try (apply (Hpop j th2 t2); try assumption; clear - El Epc;
             unfold local_step in El; rewrite Epc in El;
             repeat match type of El with
                    | context [match ?x with _ => _ end] => destruct x eqn:?
                    end; try discriminate; injection El as <- <-;
             cbn; intros; try reflexivity; try discriminate; fail).
      + (* JobCheck *)
        apply (Hpop j th2 t2); try assumption; clear - El Epc; unfold local_step in El; rewrite Epc in El;
          destruct (sh_jobs sh) as [| t0 r0] eqn:Ej; injection El as <- <-; cbn; auto.
        * intros t1 H. discriminate.
        * intros t1 H. injection H as <-. exists r0. exact Ej.
      + (* JobPop *)
        exfalso. unfold local_step in El. rewrite Epc in El. injection El as <- <-.
        destruct (Nat.eq_dec i j) as [<- | Hne].
        * rewrite Hsame in E2. injection E2 as <-. cbn in Hp. discriminate.
        * assert (Hx : holds_jobs (th_pc th2) = false)
            by (apply (Hexcl j); [reflexivity | exact Hne | now apply Hother]).
          rewrite Hp in Hx. discriminate.
    - intros j th2 E2 Hp.
      destruct (th_pc th) as [| | t | t | t cs | t c old cs | | f | f c old | f | |] eqn:Epc;
        try (apply (Hend j th2); try assumption; clear - El Epc;
             unfold local_step in El; rewrite Epc in El;
             repeat match type of El with
                    | context [match ?x with _ => _ end] => destruct x eqn:?
                    end; try discriminate; injection El as <- <-;
             cbn; intros; auto; try discriminate; fail).
      (* JobPop *)
      unfold local_step in El. rewrite Epc in El. injection El as <- <-. cbn [with_jobs sh_jobs].
      destruct (Nat.eq_dec i j) as [<- | Hne].
      * rewrite Hsame in E2. injection E2 as <-. cbn in Hp. discriminate.
      * rewrite (JE j th2); [reflexivity | now apply Hother | exact Hp].
  Qed.

  (* ---- progress ---- *)

  Lemma render_progress : forall all s, jinv all s -> ~ render_done s ->
    exists i fail s', step contribs s i fail = Some s'.
  Proof using.
    intros all [sh ths] [JP JL JF JPop JE] Hd. unfold render_done in Hd. cbn [st_threads st_shared] in *.
    assert (Hgo : forall i th fail, nth_error ths i = Some th ->
      local_step contribs sh th i fail <> None ->
      exists i fail s', step contribs (mk_state sh ths) i fail = Some s').
    { intros i th fail Ei Hn. exists i, fail. unfold step. cbn [st_threads st_shared]. rewrite Ei.
      destruct (local_step contribs sh th i fail) as [[sh' th'] |]; [eauto | congruence]. }
    (* a holder of a lock is never blocked *)
    destruct (sh_jlock sh) as [j |] eqn:Ej.
    { destruct (proj1 (JL j) eq_refl) as (th & Et & Hh).
      apply (Hgo j th false Et). unfold local_step.
      destruct (th_pc th) as [| | t | t | t cs | t c old cs | | f | f c old | f | |]; try discriminate.
      destruct (sh_jobs sh); discriminate. }
    destruct (sh_flock sh) as [j |] eqn:Ef.
    { destruct (proj1 (JF j) eq_refl) as (th & Et & Hh).
      apply (Hgo j th false Et). unfold local_step.
      destruct (th_pc th) as [| | t | t | t cs | t c old cs | | f | f c old | f | |]; try discriminate.
      destruct (th_deferred th); discriminate. }
    (* no lock is held: any thread that has not ended goes on *)
    assert (Hex : exists i th, nth_error ths i = Some th /\ th_pc th <> Done).
    { clear - Hd. induction ths as [| a l IH]; [destruct Hd; constructor |].
      destruct (th_pc a) eqn:E; try (exists 0%nat, a; split; [reflexivity | congruence]).
      destruct IH as (i & th & E1 & E2); [| exists (S i), th; auto].
      intros F. apply Hd. constructor; assumption. }
    destruct Hex as (i & th & Ei & Hnd). apply (Hgo i th true Ei). unfold local_step.
    rewrite Ej, Ef.
    destruct (th_pc th) as [| | t | t | t [| c cs] | t c old cs | | f | f c old | f | |]; try discriminate.
    - destruct (sh_jobs sh); discriminate.
    - destruct (secure t c); discriminate.
    - destruct (th_deferred th); discriminate.
    - congruence.
  Qed.

  (* ---- termination: a measure that every step decreases ---- *)

  Definition pc_weight (p : pc) : nat :=
    match p with
    | JobLock => 12
    | JobCheck => 11
    | JobPop _ => 10
    | JobUnlock t => 20 + 4 * length (contribs t)
    | Adding _ cs => 19 + 4 * length cs
    | Storing _ _ _ cs => 21 + 4 * length cs
    | TryLock => 18
    | Draining false => 17
    | DrainStoring false _ _ => 18
    | FilmUnlock false => 13
    | ForceLock => 8
    | Draining true => 7
    | DrainStoring true _ _ => 8
    | FilmUnlock true => 5
    | Done => 0
    end.
  Definition th_weight (th : thread) : nat := pc_weight (th_pc th) + 3 * length (th_deferred th).
  Definition job_weight (t : tile) : nat := 20 + 4 * length (contribs t).
  Definition weight (s : state) : nat :=
    list_sum (map th_weight (st_threads s)) + list_sum (map job_weight (sh_jobs (st_shared s))).

  Lemma list_sum_cons : forall a l, list_sum (a :: l) = (a + list_sum l)%nat.
  Proof using. reflexivity. Qed.

  Lemma local_weight : forall sh th i fail sh' th',
    (forall t, th_pc th = JobPop t -> exists r, sh_jobs sh = t :: r) ->
    local_step contribs sh th i fail = Some (sh', th') ->
    (th_weight th' + list_sum (map job_weight (sh_jobs sh')) <
     th_weight th + list_sum (map job_weight (sh_jobs sh)))%nat.
  Proof using.
    intros sh th i fail sh' th' Hpop E.
    step_cases; unfold th_weight;
      cbn [with_jobs with_jlock with_flock with_film sh_jobs at_pc th_pc th_deferred];
      rewrite ?Epc; cbn [pc_weight length];
      try (destruct f; cbn [pc_weight length]); rewrite ?Ejobs, ?Edef; cbn [length];
      try (generalize (list_sum (map job_weight (sh_jobs sh))); intros; lia).
    destruct (Hpop t eq_refl) as [r Er]. rewrite Er. cbn [tl map]. rewrite list_sum_cons.
    unfold job_weight at 2. lia.
  Qed.

  Lemma step_weight : forall all s i fail s', jinv all s -> step contribs s i fail = Some s' ->
    (weight s' < weight s)%nat.
  Proof using.
    intros all [sh ths] i fail s' J E. unfold step in E. cbn [st_threads st_shared] in *.
    destruct (nth_error ths i) as [th |] eqn:Ei; [| discriminate].
    destruct (local_step contribs sh th i fail) as [[sh' th'] |] eqn:El; [| discriminate].
    injection E as <-. unfold weight. cbn [st_threads st_shared].
    destruct (set_nth_split _ _ _ _ Ei) as (l1 & l2 & -> & Ll & Hset). rewrite Hset.
    rewrite !map_app, !list_sum_app. cbn [map]. rewrite !list_sum_cons.
    assert (W := local_weight sh th i fail sh' th'
      (fun t Ht => j_pop all _ J i th t Ei Ht) El). lia.
  Qed.

  (* ---- executions ---- *)

  Lemma exec_ind : forall (I : state -> Prop),
    (forall s i fail s', I s -> step contribs s i fail = Some s' -> I s') ->
    forall sched s s', I s -> exec contribs s sched = Some s' -> I s'.
  Proof using.
    intros I Hs sched. induction sched as [| [i fail] sched IH]; intros s s' H E; cbn [exec] in E.
    - injection E as <-. exact H.
    - destruct (step contribs s i fail) as [s1 |] eqn:E1; [| discriminate].
      apply (IH s1 s'); [| exact E]. apply (Hs s i fail); assumption.
  Qed.

  Lemma exec_jinv : forall all n sched s, exec contribs (render_init n all) sched = Some s ->
    jinv all s.
  Proof using.
    intros all n sched s E. apply (exec_ind (jinv all)) with (3 := E).
    - intros s1 i fail s2. apply jinv_step.
    - apply jinv_init.
  Qed.

  Lemma exec_weight : forall all sched s s', jinv all s -> exec contribs s sched = Some s' ->
    (length sched + weight s' <= weight s)%nat.
  Proof using.
    intros all sched. induction sched as [| [i fail] sched IH]; intros s s' J E; cbn [exec] in E.
    - injection E as <-. cbn. lia.
    - destruct (step contribs s i fail) as [s1 |] eqn:E1; [| discriminate].
      assert (W := step_weight all s i fail s1 J E1).
      assert (W2 := IH s1 s' (jinv_step all s i fail s1 J E1) E). cbn [length]. lia.
  Qed.

  Lemma exec_threads : forall sched s s', exec contribs s sched = Some s' ->
    length (st_threads s') = length (st_threads s).
  Proof using.
    intros sched s s' E.
    apply (exec_ind (fun s1 => length (st_threads s1) = length (st_threads s))) with (3 := E).
    - intros s1 i fail s2 H Es. unfold step in Es.
      destruct (nth_error (st_threads s1) i) as [th |]; [| discriminate].
      destruct (local_step contribs (st_shared s1) th i fail) as [[sh' th'] |]; [| discriminate].
      injection Es as <-. cbn [st_threads]. now rewrite set_nth_length.
    - reflexivity.
  Qed.

  Lemma weight_init : forall n all, weight (render_init n all) = (12 * n + list_sum (map job_weight all))%nat.
  Proof using.
    intros n all. unfold weight, render_init. cbn [st_threads st_shared sh_jobs]. f_equal.
    induction n as [| n IH]; [reflexivity |]. cbn [repeat map]. rewrite list_sum_cons, IH.
    unfold th_weight. cbn [th_pc th_deferred pc_weight length]. lia.
  Qed.

  Lemma done_all : forall s i th, render_done s -> nth_error (st_threads s) i = Some th ->
    th_pc th = Done.
  Proof using.
    intros s i th D E. unfold render_done in D. rewrite Forall_forall in D.
    exact (D th (nth_error_In _ _ E)).
  Qed.

  (* ---- the film ---- *)

  Record finv (all : list tile) (x y : Z) (s : state) : Prop := mk_finv {
    f_sum : sh_film (st_shared s) x y
      + total (concat (map (pending contribs) (st_threads s))) x y
      + total (flat_map contribs (sh_jobs (st_shared s))) x y = total (flat_map contribs all) x y;
    f_rmw : forall i th c old, nth_error (st_threads s) i = Some th ->
      storing (th_pc th) = Some (c, old) -> c_x c = x -> c_y c = y ->
      sh_film (st_shared s) x y = old;
    f_own : forall i th c, nth_error (st_threads s) i = Some th -> In c (pending contribs th) ->
      exists t, In t (th_tiles th) /\ In c (contribs t)
  }.

  Lemma finv_init : forall n all x y, finv all x y (render_init n all).
  Proof using.
    intros n all x y.
    assert (R : forall i th, nth_error (repeat (mk_thread JobLock [] []) n) i = Some th ->
      th = mk_thread JobLock [] []).
    { intros i th E. apply nth_error_In in E. now apply repeat_spec in E. }
    constructor; cbn [render_init st_shared st_threads sh_jobs sh_film].
    - replace (concat (map (pending contribs) (repeat (mk_thread JobLock [] []) n)))
        with (@nil contrib); [cbn; lia |].
      clear R. induction n as [| n IH]; [reflexivity | exact IH].
    - intros i th c old E H. apply R in E. subst. discriminate.
    - intros i th c E H. apply R in E. subst. destruct H.
  Qed.

  (* what one step does to the film and to the pending contributions *)
  Lemma local_sum : forall sh th i fail sh' th' x y,
    (forall t, th_pc th = JobPop t -> exists r, sh_jobs sh = t :: r) ->
    (forall c old, storing (th_pc th) = Some (c, old) -> c_x c = x -> c_y c = y -> sh_film sh x y = old) ->
    local_step contribs sh th i fail = Some (sh', th') ->
    sh_film sh' x y + total (pending contribs th') x y + total (flat_map contribs (sh_jobs sh')) x y =
    sh_film sh x y + total (pending contribs th) x y + total (flat_map contribs (sh_jobs sh)) x y.
  Proof using.
    intros sh th i fail sh' th' x y Hpop Hst E.
    step_cases; unfold pending;
      cbn [with_jobs with_jlock with_flock with_film sh_jobs sh_film at_pc th_pc th_deferred];
      rewrite ?Epc; cbn [pc_pending app]; rewrite ?Ejobs, ?Edef; try reflexivity.
    - destruct (Hpop t eq_refl) as [r Er]. rewrite Er. cbn [tl flat_map].
      rewrite !total_app. lia.
    - cbn [total]. rewrite !total_app. cbn [total]. lia.
    - specialize (Hst c old eq_refl).
      cbn [total]. unfold film_set. rewrite (Z.eqb_sym (c_x c) x), (Z.eqb_sym (c_y c) y).
      destruct (Z.eqb_spec x (c_x c)) as [Hx |]; cbn [andb]; [| lia].
      destruct (Z.eqb_spec y (c_y c)) as [Hy |]; cbn [andb]; [| lia].
      rewrite (Hst (eq_sym Hx) (eq_sym Hy)). lia.
    - specialize (Hst c old eq_refl).
      cbn [total]. unfold film_set. rewrite (Z.eqb_sym (c_x c) x), (Z.eqb_sym (c_y c) y).
      destruct (Z.eqb_spec x (c_x c)) as [Hx |]; cbn [andb]; [| lia].
      destruct (Z.eqb_spec y (c_y c)) as [Hy |]; cbn [andb]; [| lia].
      rewrite (Hst (eq_sym Hx) (eq_sym Hy)). lia.
    - destruct f; reflexivity.
  Qed.

  Lemma local_own : forall sh th i fail sh' th' c,
    local_step contribs sh th i fail = Some (sh', th') -> In c (pending contribs th') ->
    In c (pending contribs th) \/ (exists t, In t (th_tiles th') /\ In c (contribs t)).
  Proof using.
    intros sh th i fail sh' th' cc E. step_cases; unfold pending; cbn [at_pc th_pc th_deferred];
      rewrite ?Epc; cbn [pc_pending app]; rewrite ?Edef; auto; intros H.
    - apply in_app_or in H. destruct H as [H | H]; [| auto]. right. exists t. split; [left; reflexivity | exact H].
    - left. apply in_app_or in H. cbn [In] in *. rewrite in_app_iff. tauto.
    - left. right. exact H.
    - left. right. exact H.
    - destruct f; auto.
  Qed.

  Lemma local_tiles : forall sh th i fail sh' th' t,
    local_step contribs sh th i fail = Some (sh', th') -> In t (th_tiles th) -> In t (th_tiles th').
  Proof using.
    intros sh th i fail sh' th' tt E H. step_cases; cbn [at_pc th_tiles]; auto. right. exact H.
  Qed.

  Lemma local_film : forall sh th i fail sh' th',
    local_step contribs sh th i fail = Some (sh', th') ->
    sh_film sh' = sh_film sh \/
    exists c old, storing (th_pc th) = Some (c, old) /\ storing (th_pc th') = None /\
      forall x y, (x, y) <> (c_x c, c_y c) -> sh_film sh' x y = sh_film sh x y.
  Proof using.
    intros sh th i fail sh' th' E. step_cases; cbn [with_jobs with_jlock with_flock with_film sh_film at_pc th_pc];
      auto; right; rewrite ?Epc; exists c, old; (split; [reflexivity |]); (split; [reflexivity |]);
      intros x y H; unfold film_set;
      (destruct (Z.eqb_spec x (c_x c)) as [-> |]; cbn [andb]; [| reflexivity]);
      (destruct (Z.eqb_spec y (c_y c)) as [-> |]; cbn [andb]; [| reflexivity]); congruence.
  Qed.

  Lemma local_storing : forall sh th i fail sh' th' c old,
    local_step contribs sh th i fail = Some (sh', th') -> storing (th_pc th') = Some (c, old) ->
    sh_film sh' = sh_film sh /\ old = sh_film sh (c_x c) (c_y c).
  Proof using.
    intros sh th i fail sh' th' cc oldc E. step_cases; cbn [at_pc th_pc storing]; intros H;
      try discriminate; try (injection H as <- <-; auto).
    destruct f; discriminate.
  Qed.

  Lemma storing_pending : forall th c old, storing (th_pc th) = Some (c, old) ->
    In c (pending contribs th).
  Proof using.
    intros th c old H. unfold pending. apply in_or_app. left.
    destruct (th_pc th); try discriminate; injection H as <- <-; left; reflexivity.
  Qed.

  Lemma NoDup_app_disjoint : forall (l1 l2 : list tile) t, NoDup (l1 ++ l2) -> In t l1 -> In t l2 -> False.
  Proof using.
    induction l1 as [| a l1 IH]; intros l2 t N H1 H2; [destruct H1 |].
    inversion N; subst. destruct H1 as [-> | H1].
    - apply H3. apply in_or_app. auto.
    - eapply IH; eassumption.
  Qed.

  (* the tiles of two workers are different *)
  Lemma tiles_disjoint : forall ths i j th1 th2 t, NoDup (concat (map th_tiles ths)) -> i <> j ->
    nth_error ths i = Some th1 -> nth_error ths j = Some th2 ->
    In t (th_tiles th1) -> In t (th_tiles th2) -> False.
  Proof using.
    induction ths as [| a ths IH]; intros [| i] [| j] th1 th2 t N Hne E1 E2 H1 H2;
      try discriminate; try congruence; cbn [map concat nth_error] in *.
    - injection E1 as <-. apply (NoDup_app_disjoint _ _ t N H1).
      apply in_concat. exists (th_tiles th2). split; [| exact H2]. apply in_map.
      now apply nth_error_In in E2.
    - injection E2 as <-. apply (NoDup_app_disjoint _ _ t N H2).
      apply in_concat. exists (th_tiles th1). split; [| exact H1]. apply in_map.
      now apply nth_error_In in E1.
    - apply (IH i j th1 th2 t); try assumption; [| congruence].
      clear - N. induction (th_tiles a) as [| b l IHl]; [exact N |]. inversion N; auto.
  Qed.

  Lemma finv_step : forall all x y s i fail s',
    (length (st_threads s) <= 1)%nat \/ pixel_of_one_tile contribs all x y ->
    jinv all s -> finv all x y s -> step contribs s i fail = Some s' -> finv all x y s'.
  Proof using.
    intros all x y [sh ths] i fail s' Hyp J [FS FR FO] E.
    assert (JPop := j_pop all _ J i). assert (JP := j_perm all _ J).
    unfold step in E. unfold taken in JP. cbn [st_threads st_shared] in *.
    destruct (nth_error ths i) as [th |] eqn:Ei; [| discriminate].
    destruct (local_step contribs sh th i fail) as [[sh' th'] |] eqn:El; [| discriminate].
    injection E as <-.
    assert (Hsame : nth_error (set_nth ths i th') i = Some th') by (eapply nth_set_same; exact Ei).
    constructor; cbn [st_shared st_threads].
    - rewrite <- FS.
      destruct (set_nth_split _ _ _ _ Ei) as (l1 & l2 & Es & Ll & Hset). rewrite Hset, Es.
      rewrite !map_app, !concat_app, !total_app. cbn [map concat]. rewrite !total_app.
      assert (L := local_sum sh th i fail sh' th' x y (fun t Ht => JPop th t eq_refl Ht)
        (fun c old Hs Hx Hy => FR i th c old Ei Hs Hx Hy) El). lia.
    - intros j th2 c2 old2 E2 Hs Hx Hy. destruct (Nat.eq_dec i j) as [<- | Hne].
      + rewrite Hsame in E2. injection E2 as <-.
        destruct (local_storing sh th i fail sh' th' c2 old2 El Hs) as [-> ->]. congruence.
      + rewrite nth_set_other in E2 by exact Hne.
        destruct (local_film sh th i fail sh' th' El) as [-> | (c & old & Hst & _ & Hf)];
          [now apply (FR j th2 c2) |].
        rewrite Hf; [now apply (FR j th2 c2) |]. intros Heq. injection Heq as Hx2 Hy2.
        destruct Hyp as [Hlen | [ND Hap]].
        * assert (A1 : (i < length ths)%nat) by (apply nth_error_Some; congruence).
          assert (A2 : (j < length ths)%nat) by (apply nth_error_Some; congruence). lia.
        * destruct (FO i th c Ei (storing_pending th c old Hst)) as (t1 & T1 & C1).
          destruct (FO j th2 c2 E2 (storing_pending th2 c2 old2 Hs)) as (t2 & T2 & C2).
          assert (ND2 : NoDup (concat (map th_tiles ths) ++ sh_jobs sh))
            by (eapply Permutation_NoDup; [symmetry; exact JP | exact ND]).
          assert (In1 : forall k thk t, nth_error ths k = Some thk -> In t (th_tiles thk) -> In t all).
          { intros k thk t Ek Ht. eapply Permutation_in; [exact JP |]. apply in_or_app. left.
            apply in_concat. exists (th_tiles thk). split; [| exact Ht]. apply in_map.
            now apply nth_error_In in Ek. }
          assert (t1 = t2) by (apply (Hap t1 t2 c c2); eauto). subst t2.
          apply (tiles_disjoint ths i j th th2 t1); try assumption.
          clear - ND2. generalize dependent (sh_jobs sh).
          induction (concat (map th_tiles ths)) as [| a l IH]; intros r H; [constructor |].
          inversion H; subst. constructor; [| eapply IH; eassumption].
          intros Hin. apply H2. apply in_or_app. auto.
    - intros j th2 c2 E2 Hin. destruct (Nat.eq_dec i j) as [<- | Hne].
      + rewrite Hsame in E2. injection E2 as <-.
        destruct (local_own sh th i fail sh' th' c2 El Hin) as [H | H]; [| exact H].
        destruct (FO i th c2 Ei H) as (t & T1 & C1). exists t. split; [| exact C1].
        eapply local_tiles; eassumption.
      + rewrite nth_set_other in E2 by exact Hne. now apply (FO j).
  Qed.

  Lemma exec_finv : forall all x y n sched s, (n <= 1)%nat \/ pixel_of_one_tile contribs all x y ->
    exec contribs (render_init n all) sched = Some s -> finv all x y s.
  Proof using.
    intros all x y n sched s Hyp E.
    assert (H : jinv all s /\ finv all x y s /\ length (st_threads s) = n); [| tauto].
    apply (exec_ind (fun s => jinv all s /\ finv all x y s /\ length (st_threads s) = n)) with (3 := E).
    - intros s1 i fail s2 (J & F & L) Es. split; [eapply jinv_step; eassumption |]. split.
      + apply (finv_step all x y s1 i fail s2); try assumption. rewrite L. exact Hyp.
      + rewrite <- L. apply (exec_threads [(i, fail)]). cbn [exec]. now rewrite Es.
    - split; [apply jinv_init |]. split; [apply finv_init |]. unfold render_init. cbn [st_threads].
      apply repeat_length.
  Qed.

  Lemma done_pending : forall s, render_done s ->
    (forall i th, nth_error (st_threads s) i = Some th -> th_pc th = Done -> th_deferred th = []) ->
    concat (map (pending contribs) (st_threads s)) = [].
  Proof using.
    intros [sh ths] D H. unfold render_done in D. cbn [st_threads] in *.
    induction ths as [| a l IH]; [reflexivity |]. inversion D; subst. cbn [map concat].
    rewrite IH; [| assumption | intros i th; apply (H (S i) th)].
    unfold pending. rewrite H2. cbn [pc_pending app]. rewrite (H 0%nat a); auto.
  Qed.

  (* an ended worker, or one about to release the film, has nothing deferred *)
  Definition drained (s : state) : Prop := forall i th f, nth_error (st_threads s) i = Some th ->
    th_pc th = Done \/ th_pc th = FilmUnlock f -> th_deferred th = [].

  Lemma drained_step : forall s i fail s', drained s -> step contribs s i fail = Some s' -> drained s'.
  Proof using.
    intros [sh ths] i fail s' D E. unfold step in E. unfold drained in *. cbn [st_threads st_shared] in *.
    destruct (nth_error ths i) as [th |] eqn:Ei; [| discriminate].
    destruct (local_step contribs sh th i fail) as [[sh' th'] |] eqn:El; [| discriminate].
    injection E as <-. cbn [st_threads]. intros j th2 g E2 Hp.
    destruct (Nat.eq_dec i j) as [<- | Hne].
    - erewrite nth_set_same in E2 by exact Ei. injection E2 as <-.
      assert (Di := D i th). rewrite Ei in Di. clear - El Hp Di.
      step_cases; cbn [at_pc th_pc th_deferred] in *; try (destruct Hp; discriminate); auto.
      apply (Di f eq_refl). auto.
    - rewrite nth_set_other in E2 by exact Hne. eapply D; eassumption.
  Qed.

  Lemma exec_drained : forall all n sched s, exec contribs (render_init n all) sched = Some s -> drained s.
  Proof using.
    intros all n sched s E. apply (exec_ind drained) with (3 := E).
    - intros s1 i fail s2. apply drained_step.
    - intros i th f H [Hp | Hp]; cbn in H; apply nth_error_In in H; apply repeat_spec in H; now subst.
  Qed.

  (* ---- no contribution is counted twice ---- *)

  Record binv (all : list tile) (x y : Z) (s : state) : Prop := mk_binv {
    b_pos : 0 <= sh_film (st_shared s) x y;
    b_film : sh_film (st_shared s) x y
      + total (concat (map (pending contribs) (st_threads s))) x y
      + total (flat_map contribs (sh_jobs (st_shared s))) x y <= total (flat_map contribs all) x y;
    b_old : forall i th c old, nth_error (st_threads s) i = Some th ->
      storing (th_pc th) = Some (c, old) -> c_x c = x -> c_y c = y ->
      0 <= old /\ old
      + total (concat (map (pending contribs) (st_threads s))) x y
      + total (flat_map contribs (sh_jobs (st_shared s))) x y <= total (flat_map contribs all) x y;
    b_nonneg : forall i th c, nth_error (st_threads s) i = Some th -> In c (pending contribs th) -> 0 <= c_v c;
    b_jobs : forall t c, In t (sh_jobs (st_shared s)) -> In c (contribs t) -> 0 <= c_v c
  }.

  (* a step moves contributions to the film or leaves them where they are *)
  Lemma local_moves : forall sh th i fail sh' th' x y,
    (forall t, th_pc th = JobPop t -> exists r, sh_jobs sh = t :: r) ->
    local_step contribs sh th i fail = Some (sh', th') ->
    (sh_film sh' = sh_film sh /\
     total (pending contribs th') x y + total (flat_map contribs (sh_jobs sh')) x y =
     total (pending contribs th) x y + total (flat_map contribs (sh_jobs sh)) x y) \/
    (exists c old, storing (th_pc th) = Some (c, old) /\ sh_jobs sh' = sh_jobs sh /\
     storing (th_pc th') = None /\
     sh_film sh' = film_set (sh_film sh) (c_x c) (c_y c) (old + c_v c) /\
     pending contribs th = c :: pending contribs th').
  Proof using.
    intros sh th i fail sh' th' x y Hpop E.
    step_cases; unfold pending;
      cbn [with_jobs with_jlock with_flock with_film sh_jobs sh_film at_pc th_pc th_deferred];
      rewrite ?Epc; cbn [pc_pending app]; rewrite ?Ejobs, ?Edef;
      try (left; split; reflexivity).
    - left. split; [reflexivity |]. destruct (Hpop t eq_refl) as [r Er]. rewrite Er.
      cbn [tl flat_map]. rewrite !total_app. lia.
    - left. split; [reflexivity |]. cbn [total]. rewrite !total_app. cbn [total]. lia.
    - right. exists c, old. auto 6.
    - right. exists c, old. auto 6.
    - left. split; [reflexivity |]. destruct f; reflexivity.
  Qed.

  Lemma total_nonneg : forall l x y, (forall c, In c l -> 0 <= c_v c) -> 0 <= total l x y.
  Proof using.
    intros l x y H. induction l as [| c l IH]; cbn [total]; [lia |].
    assert (H0 := H c (or_introl eq_refl)). assert (H1 := IH (fun c' Hc => H c' (or_intror Hc))).
    destruct ((c_x c =? x) && (c_y c =? y))%bool; lia.
  Qed.

  Lemma jobs_kept : forall sh th i fail sh' th' t,
    local_step contribs sh th i fail = Some (sh', th') -> In t (sh_jobs sh') -> In t (sh_jobs sh).
  Proof using.
    intros sh th i fail sh' th' tt E H. step_cases;
      cbn [with_jobs with_jlock with_flock with_film sh_jobs] in H; rewrite ?Ejobs in *; auto.
    destruct (sh_jobs sh); [exact H | right; exact H].
  Qed.

  (* what is pending after a step was pending before or comes from a job *)
  Lemma local_origin : forall sh th i fail sh' th' c,
    (forall t, th_pc th = JobPop t -> exists r, sh_jobs sh = t :: r) ->
    local_step contribs sh th i fail = Some (sh', th') -> In c (pending contribs th') ->
    In c (pending contribs th) \/ (exists t, In t (sh_jobs sh) /\ In c (contribs t)).
  Proof using.
    intros sh th i fail sh' th' cc Hpop E. step_cases; unfold pending; cbn [at_pc th_pc th_deferred];
      rewrite ?Epc; cbn [pc_pending app]; rewrite ?Edef; auto; intros H.
    - apply in_app_or in H. destruct H as [H | H]; [| auto]. right. exists t. split; [| exact H].
      destruct (Hpop t eq_refl) as [r ->]. left. reflexivity.
    - left. apply in_app_or in H. cbn [In] in *. rewrite in_app_iff. tauto.
    - left. right. exact H.
    - left. right. exact H.
    - destruct f; auto.
  Qed.

  Lemma binv_step : forall all x y s i fail s', jinv all s -> binv all x y s ->
    step contribs s i fail = Some s' -> binv all x y s'.
  Proof using.
    intros all x y [sh ths] i fail s' J [B0 B1 B2 B3 B4] E.
    assert (JPop := j_pop all _ J i).
    unfold step in E. cbn [st_threads st_shared] in *.
    destruct (nth_error ths i) as [th |] eqn:Ei; [| discriminate].
    destruct (local_step contribs sh th i fail) as [[sh' th'] |] eqn:El; [| discriminate].
    injection E as <-.
    assert (Hsame : nth_error (set_nth ths i th') i = Some th') by (eapply nth_set_same; exact Ei).
    assert (Hold : forall j th2, nth_error (set_nth ths i th') j = Some th2 -> j <> i ->
      nth_error ths j = Some th2) by (intros j th2 E2 Hne; rewrite nth_set_other in E2 by congruence; exact E2).
    destruct (set_nth_split _ _ _ _ Ei) as (l1 & l2 & Es & Ll & Hset).
    assert (P1 : total (concat (map (pending contribs) ths)) x y =
      total (concat (map (pending contribs) l1)) x y + total (pending contribs th) x y
      + total (concat (map (pending contribs) l2)) x y)
      by (rewrite Es, map_app, concat_app; cbn [map concat]; rewrite !total_app; lia).
    assert (P2 : total (concat (map (pending contribs) (set_nth ths i th'))) x y =
      total (concat (map (pending contribs) l1)) x y + total (pending contribs th') x y
      + total (concat (map (pending contribs) l2)) x y)
      by (rewrite Hset, map_app, concat_app; cbn [map concat]; rewrite !total_app; lia).
    destruct (local_moves sh th i fail sh' th' x y (fun t Ht => JPop th t eq_refl Ht) El)
      as [(Hf & Hm) | (c & old & Hst & Hj & Hst' & Hf & Hp)].
    - constructor; cbn [st_shared st_threads].
      + now rewrite Hf.
      + rewrite Hf, P2. rewrite P1 in B1. lia.
      + intros j th2 c2 old2 E2 Hs Hx Hy. destruct (Nat.eq_dec j i) as [-> | Hne].
        * rewrite Hsame in E2. injection E2 as <-.
          destruct (local_storing sh th i fail sh' th' c2 old2 El Hs) as [_ ->].
          rewrite Hx, Hy, P2. rewrite P1 in B1. split; [exact B0 | lia].
        * destruct (B2 j th2 c2 old2 (Hold j th2 E2 Hne) Hs Hx Hy) as [H1 H2].
          rewrite P2. rewrite P1 in H2. split; [exact H1 | lia].
      + intros j th2 c2 E2 Hin. destruct (Nat.eq_dec j i) as [-> | Hne].
        * rewrite Hsame in E2. injection E2 as <-.
          destruct (local_origin sh th i fail sh' th' c2 (fun t Ht => JPop th t eq_refl Ht) El Hin)
            as [H | (t & Ht & Hc)]; [now apply (B3 i th) | now apply (B4 t)].
        * now apply (B3 j th2); [apply Hold |].
      + intros t c Ht. apply B4. eapply jobs_kept; eassumption.
    - assert (Hv : 0 <= c_v c) by (apply (B3 i th); [exact Ei | now apply (storing_pending th c old)]).
      assert (Htot : total (pending contribs th) x y =
        (if ((c_x c =? x) && (c_y c =? y))%bool then c_v c else 0) + total (pending contribs th') x y)
        by (rewrite Hp; reflexivity).
      assert (Hle : total (pending contribs th') x y <= total (pending contribs th) x y)
        by (rewrite Htot; destruct ((c_x c =? x) && (c_y c =? y))%bool; lia).
      constructor; cbn [st_shared st_threads].
      + rewrite Hf. unfold film_set. rewrite (Z.eqb_sym x), (Z.eqb_sym y).
        destruct (Z.eqb_spec (c_x c) x) as [Hx |]; cbn [andb]; [| exact B0].
        destruct (Z.eqb_spec (c_y c) y) as [Hy |]; cbn [andb]; [| exact B0].
        destruct (B2 i th c old Ei Hst Hx Hy). lia.
      + rewrite Hf, Hj, P2. unfold film_set. rewrite (Z.eqb_sym x), (Z.eqb_sym y).
        destruct (Z.eqb_spec (c_x c) x) as [Hx |]; cbn [andb] in *; [| lia].
        destruct (Z.eqb_spec (c_y c) y) as [Hy |]; cbn [andb] in *; [| lia].
        destruct (B2 i th c old Ei Hst Hx Hy). lia.
      + intros j th2 c2 old2 E2 Hs Hx Hy. destruct (Nat.eq_dec j i) as [-> | Hne].
        * rewrite Hsame in E2. injection E2 as <-. congruence.
        * destruct (B2 j th2 c2 old2 (Hold j th2 E2 Hne) Hs Hx Hy) as [H1 H2].
          rewrite Hj, P2. split; [exact H1 | lia].
      + intros j th2 c2 E2 Hin. destruct (Nat.eq_dec j i) as [-> | Hne].
        * rewrite Hsame in E2. injection E2 as <-. apply (B3 i th); [exact Ei |].
          rewrite Hp. right. exact Hin.
        * now apply (B3 j th2); [apply Hold |].
      + rewrite Hj. exact B4.
  Qed.

  Lemma exec_binv : forall all x y n sched s,
    (forall t c, In t all -> In c (contribs t) -> 0 <= c_v c) ->
    exec contribs (render_init n all) sched = Some s -> binv all x y s.
  Proof using.
    intros all x y n sched s Hn E.
    assert (H : jinv all s /\ binv all x y s); [| tauto].
    apply (exec_ind (fun s => jinv all s /\ binv all x y s)) with (3 := E).
    - intros s1 i fail s2 (J & B) Es. split; [eapply jinv_step; eassumption |].
      eapply binv_step; eassumption.
    - split; [apply jinv_init |].
      assert (F := finv_init n all x y). destruct F as [F1 F2 F3].
      assert (R : forall i th, nth_error (st_threads (render_init n all)) i = Some th ->
        th = mk_thread JobLock [] []).
      { intros i th Ei. cbn in Ei. apply nth_error_In in Ei. now apply repeat_spec in Ei. }
      constructor.
      + cbn. lia.
      + lia.
      + intros i th c old Ei H. apply R in Ei. subst. discriminate.
      + intros i th c Ei H. apply R in Ei. subst. destruct H.
      + exact Hn.
  Qed.
End Proofs.
