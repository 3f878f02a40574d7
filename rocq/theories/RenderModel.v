(* Model of the concurrent part of the renderer: the worker threads
   (src/renderer.cpp:116-127 and executor, 148-245) and the film shared by them
   (src/cameras/image_film.cpp:46-140).

   Every access to shared memory is one step of one thread, steps of different
   threads interleave arbitrarily, and memory is sequentially consistent.
   Simplifications: what a tile contributes to the film is a parameter (the
   list of weighted contributions of its samples in order); one channel is
   modelled and its additions are exact; the film is a map of pixels (C01). *)
From Verif Require Import Common TilesModel.
Local Open Scope Z_scope.

(* One weighted contribution to a pixel (image_film.cpp:70-89). *)
Record contrib := mk_contrib { c_x : Z; c_y : Z; c_v : Z }.

(* Where a worker is. *)
Inductive pc : Type :=
| JobLock                                  (* renderer.cpp:188, before lock() *)
| JobCheck                                 (* 190, lock held, before empty() *)
| JobPop (t : tile)                        (* 199, todo = top() done *)
| JobUnlock (t : tile)                     (* 200, before unlock() *)
| Adding (t : tile) (cs : list contrib)    (* 222-239: contributions left *)
| Storing (t : tile) (c : contrib) (old : Z) (cs : list contrib)
                                           (* image_film.cpp:86-91, after get *)
| TryLock                                  (* 99, before try_lock() *)
| Draining (forced : bool)                 (* 104 and 128, film lock held *)
| DrainStoring (forced : bool) (c : contrib) (old : Z)
                                           (* 109-114 and 132-137, after get *)
| FilmUnlock (forced : bool)               (* 116 and 139 *)
| ForceLock                                (* 126, before lock() *)
| Done.

Record thread := mk_thread {
  th_pc : pc;
  th_tiles : list tile;        (* history: the tiles this worker has taken *)
  th_deferred : list contrib   (* ExecutorData::deferred *)
}.

(* What the workers share. *)
Record shared := mk_shared {
  sh_jobs : list tile;           (* the stack, top first *)
  sh_jlock : option nat;         (* holder of jobs_mtx *)
  sh_flock : option nat;         (* holder of ImageFilm::mtx *)
  sh_film : Z -> Z -> Z          (* accumulated value of each pixel *)
}.

Record state := mk_state { st_shared : shared; st_threads : list thread }.

Definition film_set (f : Z -> Z -> Z) (x y v : Z) : Z -> Z -> Z :=
  fun a b => if ((a =? x) && (b =? y))%bool then v else f a b.

(* image_film.cpp:71-72, negated: the pixel is in the "secure area" *)
Definition secure (t : tile) (c : contrib) : bool :=
  negb ((c_x c <? startx t) || (endx t <? c_x c) || (c_y c <? starty t) || (endy t <? c_y c)).

Fixpoint set_nth {A} (l : list A) (i : nat) (a : A) : list A :=
  match l, i with
  | [], _ => []
  | _ :: l, O => a :: l
  | b :: l, S i => b :: set_nth l i a
  end.

Definition with_jobs sh j := mk_shared j (sh_jlock sh) (sh_flock sh) (sh_film sh).
Definition with_jlock sh l := mk_shared (sh_jobs sh) l (sh_flock sh) (sh_film sh).
Definition with_flock sh l := mk_shared (sh_jobs sh) (sh_jlock sh) l (sh_film sh).
Definition with_film sh f := mk_shared (sh_jobs sh) (sh_jlock sh) (sh_flock sh) f.
Definition at_pc th p := mk_thread p (th_tiles th) (th_deferred th).

Section Render.
  Variable contribs : tile -> list contrib.

  (* One step of worker number i, None if it is blocked or ended.  [fail] is
     the choice of try_lock to fail although the mutex is free, which the
     standard allows. *)
  Definition local_step (sh : shared) (th : thread) (i : nat) (fail : bool)
    : option (shared * thread) :=
    match th_pc th with
    | JobLock =>
        match sh_jlock sh with
        | Some _ => None
        | None => Some (with_jlock sh (Some i), at_pc th JobCheck)
        end
    | JobCheck =>
        match sh_jobs sh with
        | [] => Some (with_jlock sh None, at_pc th ForceLock)
        | t :: _ => Some (sh, at_pc th (JobPop t))
        end
    | JobPop t =>
        Some (with_jobs sh (tl (sh_jobs sh)),
              mk_thread (JobUnlock t) (t :: th_tiles th) (th_deferred th))
    | JobUnlock t => Some (with_jlock sh None, at_pc th (Adding t (contribs t)))
    | Adding t [] => Some (sh, at_pc th TryLock)
    | Adding t (c :: cs) =>
        if secure t c then Some (sh, at_pc th (Storing t c (sh_film sh (c_x c) (c_y c)) cs))
        else Some (sh, mk_thread (Adding t cs) (th_tiles th) (c :: th_deferred th))
    | Storing t c old cs =>
        Some (with_film sh (film_set (sh_film sh) (c_x c) (c_y c) (old + c_v c)),
              at_pc th (Adding t cs))
    | TryLock =>
        match sh_flock sh, fail with
        | None, false => Some (with_flock sh (Some i), at_pc th (Draining false))
        | _, _ => Some (sh, at_pc th JobLock)
        end
    | ForceLock =>
        match sh_flock sh with
        | Some _ => None
        | None => Some (with_flock sh (Some i), at_pc th (Draining true))
        end
    | Draining forced =>
        match th_deferred th with
        | [] => Some (sh, at_pc th (FilmUnlock forced))
        | c :: ds => Some (sh, mk_thread (DrainStoring forced c (sh_film sh (c_x c) (c_y c)))
                                         (th_tiles th) ds)
        end
    | DrainStoring forced c old =>
        Some (with_film sh (film_set (sh_film sh) (c_x c) (c_y c) (old + c_v c)),
              at_pc th (Draining forced))
    | FilmUnlock forced =>
        Some (with_flock sh None, at_pc th (if forced then Done else JobLock))
    | Done => None
    end.

  Definition step (s : state) (i : nat) (fail : bool) : option state :=
    match nth_error (st_threads s) i with
    | None => None
    | Some th =>
        match local_step (st_shared s) th i fail with
        | None => None
        | Some (sh', th') => Some (mk_state sh' (set_nth (st_threads s) i th'))
        end
    end.

  (* A schedule picks the thread of every step. *)
  Fixpoint exec (s : state) (sched : list (nat * bool)) : option state :=
    match sched with
    | [] => Some s
    | (i, fail) :: sched =>
        match step s i fail with Some s' => exec s' sched | None => None end
    end.
End Render.

(* renderer.cpp:118-123: n workers start on the stack of jobs, the film is zero *)
Definition render_init (n : nat) (jobs : list tile) : state :=
  mk_state (mk_shared jobs None None (fun _ _ => 0)) (repeat (mk_thread JobLock [] []) n).

(* renderer.cpp:125-129: all joins have returned *)
Definition render_done (s : state) : Prop :=
  Forall (fun th => th_pc th = Done) (st_threads s).
