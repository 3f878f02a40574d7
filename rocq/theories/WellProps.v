(* C29: the random generator. *)
From Verif Require Import Common WellModel WellProofs.
Local Open Scope N_scope.

(* C29.  Generators in different states stay in different states. *)
Theorem well_states_never_merge : forall n s s', well_ok s -> well_ok s' -> s <> s' ->
  well_run n s <> well_run n s'.
Proof. intros n s s' H H' Hne E. apply Hne. now apply (run_inj n). Qed.
Print Assumptions well_states_never_merge.

(* C29.  In particular generators created from different seeds. *)
Theorem well_seeds_never_merge : forall n seed seed',
  length seed = 32%nat -> length seed' = 32%nat ->
  Forall is_word32 seed -> Forall is_word32 seed' -> seed <> seed' ->
  well_run n (well_init seed) <> well_run n (well_init seed').
Proof.
  intros n seed seed' HL HL' HF HF' Hne. apply well_states_never_merge.
  - repeat split; try assumption. unfold well_init; cbn [w_i]; lia.
  - repeat split; try assumption. unfold well_init; cbn [w_i]; lia.
  - unfold well_init. congruence.
Qed.
Print Assumptions well_seeds_never_merge.

(* C29.  A non-zero state never becomes all zero. *)
Theorem well_never_zero : forall n s, well_ok s -> w_state s <> repeat 0 32 ->
  well_ok (well_run n s) /\ w_state (well_run n s) <> repeat 0 32.
Proof. intros n s H Hn. split; [now apply run_ok | now apply run_nonzero]. Qed.
Print Assumptions well_never_zero.

(* C29.  The update is onto: every state is reached from some state, and the
   sequence from any state comes back to it. *)
Theorem well_reversible : forall s, well_ok s ->
  (exists p, well_ok p /\ well_step p = s) /\ (exists n, (0 < n)%nat /\ well_run n s = s).
Proof.
  intros s H. split.
  - exists (well_back s). split; [now apply back_ok | now apply step_back].
  - apply (periodic (N.to_nat (2 ^ 32)) s H). intros x Hx. unfold is_word32 in Hx.
    set (b := 2 ^ 32) in *. clearbody b. lia.
Qed.
Print Assumptions well_reversible.

(* C29 (documented range).  The result, a multiple of 2^-32, lies in [0,1]; it
   is 0 only for the word 0 and it is exactly 1 for the 128 largest words. *)
Theorem well_result_range : forall s, well_ok s ->
  let s' := fst (well_getNumber s) in
  let r := snd (well_getNumber s) in
  let w := wget (w_state s') (w_i s') in
  r <= 2 ^ 32 /\ (r = 0 <-> w = 0) /\ (r = 2 ^ 32 <-> 2 ^ 32 - 128 <= w).
Proof.
  intros s H s' r w. pose proof (step_ok s H) as (_ & _ & HW).
  assert (Hw : is_word32 w) by now apply wget_word.
  split; [now apply float_of_u32_le |].
  split; [now apply float_of_u32_zero | now apply float_of_u32_one].
Qed.
Print Assumptions well_result_range.

(* Some seed makes the first number exactly 1. *)
Example well_one_ex : exists s, well_ok s /\ snd (well_getNumber s) = 2 ^ 32.
Proof.
  exists (well_back (mk_well 31 (repeat (2 ^ 32 - 1) 32))). split.
  - apply back_ok. unfold well_ok. cbn [w_i w_state]. split; [lia |]. split; [reflexivity |].
    apply Forall_forall. intros x Hx. apply repeat_spec in Hx. subst. reflexivity.
  - vm_compute. reflexivity.
Qed.

Example well_ex : 
  let s := well_init (map N.of_nat (seq 1 32)) in
  well_ok s /\ w_state s <> repeat 0 32 /\ w_i (well_run 5 s) = 27%nat.
Proof.
  cbv zeta. split; [| split; [discriminate | vm_compute; reflexivity]].
  unfold well_ok, well_init. cbn [w_i w_state]. split; [lia |]. split; [reflexivity |].
  apply Forall_forall. intros x Hx. apply in_map_iff in Hx. destruct Hx as (n & <- & Hn).
  apply in_seq in Hn. unfold is_word32. lia.
Qed.
