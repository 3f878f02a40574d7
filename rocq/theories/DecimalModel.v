(* The C library's %d conversion of a non-negative int, as the list of its
   character codes, most significant digit first. *)
From Verif Require Import Common.
Local Open Scope N_scope.

Fixpoint dec_aux (fuel : nat) (n : N) (acc : list N) : list N :=
  match fuel with
  | O => acc
  | S fuel =>
      let acc := (48 + n mod 10) :: acc in
      if n <? 10 then acc else dec_aux fuel (n / 10) acc
  end.
Definition dec (n : N) : list N := dec_aux (S (N.size_nat n)) n [].

(* Value of a sequence of digit characters (specification of %d and %u input
   and output). *)
Definition is_digit (c : N) : bool := (48 <=? c) && (c <=? 57).
Definition digits_value (l : list N) : N := fold_left (fun a c => 10 * a + (c - 48)) l 0.

(* ---- lemmas ---- *)
Lemma dec_aux_spec : forall fuel n acc, n < 2 ^ N.of_nat fuel ->
  exists l, dec_aux (S fuel) n acc = l ++ acc /\ Forall (fun c => is_digit c = true) l /\
    l <> [] /\ digits_value l = n /\ (forall k, n < 10 ^ N.of_nat (S k) -> (length l <= S k)%nat).
Proof.
  intros fuel. induction fuel as [| fuel IH]; intros n acc Hn.
  - assert (n = 0) as -> by (cbn in Hn; lia). exists [48].
    split; [reflexivity |]. split; [repeat constructor |]. split; [discriminate |].
    split; [reflexivity |]. intros k _. cbn [length]. lia.
  - change (dec_aux (S (S fuel)) n acc) with
      (if n <? 10 then (48 + n mod 10) :: acc
       else dec_aux (S fuel) (n / 10) ((48 + n mod 10) :: acc)).
    assert (Hd : is_digit (48 + n mod 10) = true).
    { unfold is_digit. pose proof (N.mod_lt n 10 ltac:(lia)).
      apply andb_true_intro. split; apply N.leb_le; lia. }
    destruct (N.ltb_spec n 10) as [Hlt | Hge].
    + exists [48 + n mod 10]. split; [reflexivity |]. split; [repeat constructor; exact Hd |].
      split; [discriminate |]. split; [| intros k _; cbn [length]; lia].
      cbn [digits_value fold_left]. rewrite N.mod_small by exact Hlt. lia.
    + destruct (IH (n / 10) ((48 + n mod 10) :: acc)) as (l & E & F & Ne & V & L).
      { rewrite Nat2N.inj_succ, N.pow_succ_r' in Hn. apply N.div_lt_upper_bound; lia. }
      exists (l ++ [48 + n mod 10]). rewrite E, <- app_assoc. split; [reflexivity |].
      split; [apply Forall_app; split; [exact F | repeat constructor; exact Hd] |].
      split; [destruct l; discriminate |].
      split.
      * unfold digits_value in *. rewrite fold_left_app, V. cbn [fold_left].
        pose proof (N.div_mod n 10 ltac:(lia)). lia.
      * intros k Hk. rewrite app_length. cbn [length]. destruct k as [| k].
        -- cbn in Hk. lia.
        -- assert (n / 10 < 10 ^ N.of_nat (S k)).
           { rewrite (Nat2N.inj_succ (S k)), N.pow_succ_r' in Hk. apply N.div_lt_upper_bound; lia. }
           specialize (L k H). lia.
Qed.

Lemma size_nat_bound : forall n, n < 2 ^ N.of_nat (N.size_nat n).
Proof.
  intros n. destruct n as [| p]; [reflexivity |].
  cbn [N.size_nat]. pose proof (N.size_gt (N.pos p)) as H.
  replace (N.of_nat (Pos.size_nat p)) with (N.size (N.pos p)); [exact H |].
  cbn [N.size]. clear. induction p; cbn [Pos.size Pos.size_nat]; lia.
Qed.

Lemma dec_spec : forall n,
  Forall (fun c => is_digit c = true) (dec n) /\ dec n <> [] /\ digits_value (dec n) = n /\
  (forall k, n < 10 ^ N.of_nat (S k) -> (length (dec n) <= S k)%nat).
Proof.
  intros n. unfold dec.
  destruct (dec_aux_spec (N.size_nat n) n [] (size_nat_bound n)) as (l & -> & H).
  rewrite app_nil_r. exact H.
Qed.

Lemma fold_digits : forall l a,
  fold_left (fun a c => 10 * a + (c - 48)) l a = 10 ^ N.of_nat (length l) * a + digits_value l.
Proof.
  unfold digits_value. intros l. induction l as [| c l IH]; intros a; cbn [fold_left length].
  - change (10 ^ N.of_nat 0) with 1. lia.
  - rewrite IH. rewrite (IH (10 * 0 + _)). rewrite Nat2N.inj_succ, N.pow_succ_r'. lia.
Qed.
