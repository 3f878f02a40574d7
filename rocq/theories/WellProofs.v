From Verif Require Import Common ByteLemmas BitsProofs WellModel.
Local Open Scope N_scope.

(* ---- words ---- *)

Lemma w32_bits : forall x, is_word32 x -> forall i, 32 <= i -> N.testbit x i = false.
Proof. intros x Hx i Hi. now apply (bits_small x 32). Qed.

Lemma w32_of_bits : forall x, (forall i, 32 <= i -> N.testbit x i = false) -> is_word32 x.
Proof.
  intros x H. unfold is_word32. destruct (N.lt_ge_cases x (2 ^ 32)) as [Hl | Hg]; [exact Hl | exfalso].
  assert (Hz : x <> 0) by (intros ->; vm_compute in Hg; now apply Hg).
  assert (L : 32 <= N.log2 x) by (apply N.log2_le_pow2; lia).
  pose proof (H (N.log2 x) L) as B. rewrite (N.bit_log2 x Hz) in B. discriminate B.
Qed.

Lemma w32_lxor : forall a b, is_word32 a -> is_word32 b -> is_word32 (N.lxor a b).
Proof.
  intros a b Ha Hb. apply w32_of_bits. intros i Hi. rewrite N.lxor_spec.
  now rewrite (w32_bits a Ha), (w32_bits b Hb).
Qed.

Lemma w32_shl : forall a k, is_word32 (shl32 a k).
Proof. intros a k. unfold is_word32, shl32, u32. apply N.mod_lt. discriminate. Qed.

Lemma w32_shr : forall a k, is_word32 a -> is_word32 (N.shiftr a k).
Proof.
  intros a k Ha. apply w32_of_bits. intros i Hi. rewrite N.shiftr_spec'. apply w32_bits; [exact Ha | lia].
Qed.

Lemma shl32_bit : forall a k i, N.testbit (shl32 a k) i =
  ((k <=? i) && (i <? 32) && N.testbit a (i - k))%bool.
Proof.
  intros a k i. unfold shl32, u32.
  destruct (N.ltb_spec i 32) as [Hi | Hi].
  - rewrite N.mod_pow2_bits_low by exact Hi.
    destruct (N.leb_spec k i) as [Hk | Hk]; cbn [andb].
    + now rewrite N.shiftl_spec_high'.
    + now rewrite N.shiftl_spec_low.
  - rewrite N.mod_pow2_bits_high by exact Hi. now rewrite andb_false_r.
Qed.

(* x ^ (x << 11) is undone by y ^ (y << 11) ^ (y << 22) *)
Definition mix11 (x : N) : N := N.lxor x (shl32 x 11).
Definition unmix11 (y : N) : N := N.lxor (N.lxor y (shl32 y 11)) (shl32 y 22).

Lemma unmix_mix : forall x, is_word32 x -> unmix11 (mix11 x) = x.
Proof.
  intros x Hx. apply N.bits_inj. intros i. unfold unmix11, mix11.
  rewrite !N.lxor_spec, !shl32_bit, !N.lxor_spec, !shl32_bit.
  destruct (N.ltb_spec i 32) as [Hi | Hi].
  2: { rewrite !andb_false_r. cbn [andb xorb]. rewrite (w32_bits x Hx i Hi). reflexivity. }
  rewrite !andb_true_r.
  destruct (N.ltb_spec (i - 11) 32) as [_ | ?]; [| lia].
  destruct (N.ltb_spec (i - 22) 32) as [_ | ?]; [| lia].
  rewrite !andb_true_r.
  replace (i - 11 - 11) with (i - 22) by lia.
  destruct (N.leb_spec 22 i); destruct (N.leb_spec 11 i); destruct (N.leb_spec 11 (i - 11));
    destruct (N.leb_spec 11 (i - 22)); try lia; cbn [andb];
    repeat match goal with |- context [N.testbit x ?j] => destruct (N.testbit x j) end; reflexivity.
Qed.

Lemma mix_unmix : forall x, is_word32 x -> mix11 (unmix11 x) = x.
Proof.
  intros x Hx. apply N.bits_inj. intros i. unfold unmix11, mix11.
  rewrite !N.lxor_spec, !shl32_bit, !N.lxor_spec, !shl32_bit.
  destruct (N.ltb_spec i 32) as [Hi | Hi].
  2: { rewrite !andb_false_r. cbn [andb xorb]. rewrite (w32_bits x Hx i Hi). reflexivity. }
  rewrite !andb_true_r.
  destruct (N.ltb_spec (i - 11) 32) as [_ | ?]; [| lia].
  rewrite !andb_true_r.
  replace (i - 11 - 11) with (i - 22) by lia.
  destruct (N.leb_spec 22 i); destruct (N.leb_spec 11 i); destruct (N.leb_spec 11 (i - 11));
    destruct (N.leb_spec 22 (i - 11)); try lia; cbn [andb];
    repeat match goal with |- context [N.testbit x ?j] => destruct (N.testbit x j) end; reflexivity.
Qed.

Lemma w32_mix : forall x, is_word32 x -> is_word32 (mix11 x).
Proof. intros x H. apply w32_lxor; [exact H | apply w32_shl]. Qed.
Lemma w32_unmix : forall x, is_word32 x -> is_word32 (unmix11 x).
Proof. intros x H. repeat apply w32_lxor; try exact H; apply w32_shl. Qed.

Lemma xor_cancel : forall a b, N.lxor (N.lxor a b) b = a.
Proof. intros a b. now rewrite N.lxor_assoc, N.lxor_nilpotent, N.lxor_0_r. Qed.

(* ---- the array ---- *)

Lemma widx_mod : forall i k, widx i k = ((i + k) mod 32)%nat.
Proof.
  intros i k. unfold widx. change 31 with (N.ones 5). rewrite N.land_ones.
  change (2 ^ 5) with 32. dlia.
Qed.

Lemma wset_length : forall l i v, (i < length l)%nat -> length (wset l i v) = length l.
Proof.
  intros l i v H. unfold wset. rewrite app_length, firstn_length.
  change (length (v :: skipn (S i) l)) with (S (length (skipn (S i) l))). rewrite skipn_length. lia.
Qed.

Lemma wget_set_same : forall l i v, (i < length l)%nat -> wget (wset l i v) i = v.
Proof.
  intros l i v H. unfold wget, wset. rewrite app_nth2; rewrite firstn_length; [| lia].
  replace (i - Nat.min i (length l))%nat with 0%nat by lia. reflexivity.
Qed.

Lemma nth_skipn' : forall (l : list N) n k d, nth k (skipn n l) d = nth (n + k) l d.
Proof.
  intros l. induction l as [| a l IH]; intros [| n] k d; cbn [skipn]; try reflexivity.
  - cbn. destruct k; reflexivity.
  - rewrite IH. reflexivity.
Qed.

Lemma nth_firstn' : forall (l : list N) n k d, (k < n)%nat -> nth k (firstn n l) d = nth k l d.
Proof.
  intros l. induction l as [| a l IH]; intros [| n] [| k] d H; cbn; try reflexivity; try lia.
  apply IH. lia.
Qed.

Lemma wget_set_other : forall l i j v, (i < length l)%nat -> i <> j -> wget (wset l i v) j = wget l j.
Proof.
  intros l i j v H Hne. unfold wget, wset.
  destruct (Nat.lt_ge_cases j i) as [Hj | Hj].
  - rewrite app_nth1 by (rewrite firstn_length; lia). now apply nth_firstn'.
  - rewrite app_nth2; rewrite firstn_length; [| lia].
    replace (j - Nat.min i (length l))%nat with (S (j - S i)) by lia.
    cbn [nth]. rewrite nth_skipn'. f_equal. lia.
Qed.

Lemma list_wext : forall l l', length l = length l' ->
  (forall j, (j < length l)%nat -> wget l j = wget l' j) -> l = l'.
Proof.
  intros l l' HL H. apply (nth_ext l l' 0 0 HL). intros n Hn. now apply H.
Qed.

Lemma wget_word : forall l i, Forall is_word32 l -> is_word32 (wget l i).
Proof.
  intros l i H. unfold wget. destruct (Nat.lt_ge_cases i (length l)) as [Hi | Hi].
  - rewrite Forall_forall in H. apply H. now apply nth_In.
  - rewrite nth_overflow by exact Hi. reflexivity.
Qed.

Lemma wset_words : forall l i v, Forall is_word32 l -> is_word32 v -> Forall is_word32 (wset l i v).
Proof.
  intros l i v H Hv. unfold wset. rewrite Forall_forall in *. intros x Hx.
  apply in_app_or in Hx. destruct Hx as [Hx | [<- | Hx]]; [| exact Hv |].
  - apply H. rewrite <- (firstn_skipn i l). apply in_or_app. now left.
  - apply H. rewrite <- (firstn_skipn (S i) l). apply in_or_app. now right.
Qed.

(* ---- the inverse step ---- *)

Definition zz1 (a b : N) : N := N.lxor a (N.lxor b (N.shiftr b 8)).
Definition zz2 (a b : N) : N := N.lxor (N.lxor a (shl32 a 19)) (N.lxor b (shl32 b 14)).
Definition tail31 (z1 z2 : N) : N := N.lxor (N.lxor z1 (shl32 z1 7)) (N.lxor z2 (shl32 z2 13)).

Definition well_back (s : well) : well :=
  let j := w_i s in
  let i := ((j + 1) mod 32)%nat in
  let st := w_state s in
  let z2 := zz2 (wget st (widx i 24)) (wget st (widx i 10)) in
  let z1 := N.lxor (wget st i) z2 in
  let z0 := unmix11 (N.lxor (wget st j) (tail31 z1 z2)) in
  let b := wget st (widx i 3) in
  mk_well i (wset (wset st i (N.lxor z1 (N.lxor b (N.shiftr b 8)))) j z0).

Lemma well_step_eq : forall s, well_step s =
  let i := w_i s in let st := w_state s in
  let z1 := zz1 (wget st i) (wget st (widx i 3)) in
  let z2 := zz2 (wget st (widx i 24)) (wget st (widx i 10)) in
  mk_well (widx i 31)
    (wset (wset st i (N.lxor z1 z2)) (widx i 31)
       (N.lxor (mix11 (wget st (widx i 31))) (tail31 z1 z2))).
Proof.
  intros s. unfold well_step, zz1, zz2, tail31, mix11. cbv zeta. rewrite !N.lxor_assoc. reflexivity.
Qed.

Lemma widx_lt : forall i k, (widx i k < 32)%nat.
Proof. intros i k. rewrite widx_mod. apply Nat.mod_upper_bound. discriminate. Qed.

Lemma widx_neq : forall i a, (i < 32)%nat -> (0 < a < 32)%nat -> widx i a <> i.
Proof. intros i a Hi Ha. rewrite widx_mod. intros E. dlia. Qed.

Lemma widx_neq2 : forall i a b, (i < 32)%nat -> (a < 32)%nat -> (b < 32)%nat -> a <> b ->
  widx i a <> widx i b.
Proof. intros i a b Hi Ha Hb Hne. rewrite !widx_mod. intros E. dlia. Qed.

Lemma step_ok : forall s, well_ok s -> well_ok (well_step s).
Proof.
  intros [i st] (Hi & HL & HW). cbn [w_i w_state] in *. rewrite well_step_eq. cbv zeta.
  cbn [w_i w_state]. unfold well_ok. cbn [w_i w_state].
  assert (G : forall k, is_word32 (wget st k)) by (intros k; now apply wget_word).
  assert (Z1 : forall a b, is_word32 a -> is_word32 b -> is_word32 (zz1 a b)).
  { intros a b Ha Hb. unfold zz1. repeat apply w32_lxor; try assumption. now apply w32_shr. }
  assert (Z2 : forall a b, is_word32 a -> is_word32 b -> is_word32 (zz2 a b)).
  { intros a b Ha Hb. unfold zz2. repeat apply w32_lxor; try assumption; apply w32_shl. }
  split; [apply widx_lt |]. split.
  - rewrite !wset_length; try rewrite !wset_length; rewrite ?HL; auto using widx_lt.
  - repeat apply wset_words; try assumption.
    + apply w32_lxor; [apply Z1 | apply Z2]; apply G.
    + apply w32_lxor; [apply w32_mix; apply G |]. unfold tail31.
      repeat first [apply G | apply Z1 | apply Z2 | apply w32_shl | apply w32_lxor].
Qed.

Lemma back_ok : forall s, well_ok s -> well_ok (well_back s).
Proof.
  intros [j st] (Hj & HL & HW). cbn [w_i w_state] in *. unfold well_back. cbv zeta.
  cbn [w_i w_state]. unfold well_ok. cbn [w_i w_state].
  assert (G : forall k, is_word32 (wget st k)) by (intros k; now apply wget_word).
  assert (Z2 : forall a b, is_word32 a -> is_word32 b -> is_word32 (zz2 a b)).
  { intros a b Ha Hb. unfold zz2. repeat apply w32_lxor; try assumption; apply w32_shl. }
  assert (Hi : ((j + 1) mod 32 < 32)%nat) by (apply Nat.mod_upper_bound; discriminate).
  split; [exact Hi |]. split.
  - rewrite !wset_length; try rewrite !wset_length; rewrite ?HL; auto.
  - repeat apply wset_words; try assumption.
    + repeat first [apply G | apply Z2 | apply w32_shl | apply w32_shr | apply w32_lxor].
    + apply w32_unmix. unfold tail31.
      repeat first [apply G | apply Z2 | apply w32_shl | apply w32_lxor].
Qed.

Lemma back_step : forall s, well_ok s -> well_back (well_step s) = s.
Proof.
  intros [i st] (Hi & HL & HW). cbn [w_i w_state] in *.
  rewrite well_step_eq. cbv zeta. cbn [w_i w_state].
  set (j := widx i 31).
  set (v1 := zz1 (wget st i) (wget st (widx i 3))).
  set (v2 := zz2 (wget st (widx i 24)) (wget st (widx i 10))).
  set (st1 := wset st i (N.lxor v1 v2)).
  set (x := N.lxor (mix11 (wget st j)) (tail31 v1 v2)).
  unfold well_back. cbn [w_i w_state].
  assert (Hj : (j < 32)%nat) by apply widx_lt.
  assert (Ei : ((j + 1) mod 32)%nat = i) by (unfold j; rewrite widx_mod; clear - Hi; dlia).
  rewrite Ei.
  assert (L1 : length st1 = 32%nat) by (unfold st1; rewrite wset_length; lia).
  assert (Nij : j <> i) by (apply widx_neq; lia).
  assert (N3 : forall k, (0 < k < 31)%nat -> wget (wset st1 j x) (widx i k) = wget st (widx i k)).
  { intros k Hk. rewrite wget_set_other; [| lia | unfold j; apply widx_neq2; lia].
    unfold st1. apply wget_set_other; [lia |]. apply not_eq_sym, widx_neq; lia. }
  rewrite !N3 by lia. fold v2.
  assert (Gi : wget (wset st1 j x) i = N.lxor v1 v2).
  { rewrite wget_set_other by lia. unfold st1. apply wget_set_same. lia. }
  assert (Gj : wget (wset st1 j x) j = x) by (apply wget_set_same; lia).
  rewrite Gi, Gj, xor_cancel. unfold x at 2. rewrite xor_cancel.
  rewrite unmix_mix by now apply wget_word.
  unfold v1 at 1, zz1. rewrite xor_cancel.
  cbv zeta. f_equal. apply list_wext.
  - rewrite !wset_length; try rewrite !wset_length; try rewrite !wset_length; lia.
  - intros k Hk.
    assert (Lx : length (wset st1 j x) = 32%nat) by (rewrite wset_length; lia).
    assert (Hk32 : (k < 32)%nat).
    { rewrite !wset_length in Hk; try rewrite !wset_length; try rewrite !wset_length; lia. }
    destruct (Nat.eq_dec j k) as [<- | Hjk].
    + apply wget_set_same. rewrite wset_length; lia.
    + rewrite wget_set_other; [| rewrite wset_length; lia | exact Hjk].
      destruct (Nat.eq_dec i k) as [<- | Hik].
      * apply wget_set_same. lia.
      * rewrite wget_set_other by lia. rewrite wget_set_other by lia.
        unfold st1. apply wget_set_other; lia.
Qed.

Lemma step_back : forall s, well_ok s -> well_step (well_back s) = s.
Proof.
  intros [j st] (Hj & HL & HW). cbn [w_i w_state] in *.
  unfold well_back. cbn [w_i w_state]. set (i := ((j + 1) mod 32)%nat).
  set (v2 := zz2 (wget st (widx i 24)) (wget st (widx i 10))).
  set (v1 := N.lxor (wget st i) v2). cbv zeta.
  set (b := wget st (widx i 3)).
  set (y := N.lxor v1 (N.lxor b (N.shiftr b 8))).
  set (st1 := wset st i y).
  set (x := unmix11 (N.lxor (wget st j) (tail31 v1 v2))).
  rewrite well_step_eq. cbv zeta. cbn [w_i w_state].
  assert (Hi : (i < 32)%nat) by (apply Nat.mod_upper_bound; discriminate).
  assert (Ej : widx i 31 = j) by (rewrite widx_mod; unfold i; clear - Hj; dlia).
  rewrite Ej.
  assert (L1 : length st1 = 32%nat) by (unfold st1; rewrite wset_length; lia).
  assert (Nij : j <> i) by (rewrite <- Ej; apply widx_neq; lia).
  assert (N3 : forall k, (0 < k < 31)%nat -> wget (wset st1 j x) (widx i k) = wget st (widx i k)).
  { intros k Hk. rewrite wget_set_other; [| lia | rewrite <- Ej; apply widx_neq2; lia].
    unfold st1. apply wget_set_other; [lia |]. apply not_eq_sym, widx_neq; lia. }
  rewrite !N3 by lia. fold v2. fold b.
  assert (Gi : wget (wset st1 j x) i = y).
  { rewrite wget_set_other by lia. unfold st1. apply wget_set_same. lia. }
  assert (Gj : wget (wset st1 j x) j = x) by (apply wget_set_same; lia).
  rewrite Gi, Gj. unfold zz1. unfold y at 1 2. rewrite xor_cancel.
  assert (Ww : is_word32 (N.lxor (wget st j) (tail31 v1 v2))).
  { assert (G : forall k, is_word32 (wget st k)) by (intros k; now apply wget_word).
    assert (Z2 : is_word32 v2).
    { unfold v2, zz2. repeat apply w32_lxor; try apply w32_shl; apply G. }
    unfold tail31, v1. repeat first [apply G | apply Z2 | apply w32_shl | apply w32_lxor]. }
  unfold x at 2. rewrite mix_unmix by exact Ww. rewrite xor_cancel.
  unfold v1 at 1. rewrite xor_cancel. f_equal.
  assert (Lx : length (wset st1 j x) = 32%nat) by (rewrite wset_length; lia).
  apply list_wext.
  - rewrite !wset_length; try rewrite !wset_length; try rewrite !wset_length; lia.
  - intros k Hk.
    destruct (Nat.eq_dec j k) as [<- | Hjk].
    + apply wget_set_same. rewrite wset_length; lia.
    + rewrite wget_set_other; [| rewrite wset_length; lia | exact Hjk].
      destruct (Nat.eq_dec i k) as [<- | Hik].
      * apply wget_set_same. lia.
      * rewrite wget_set_other by lia. rewrite wget_set_other by lia.
        unfold st1. apply wget_set_other; lia.
Qed.

Lemma run_ok : forall n s, well_ok s -> well_ok (well_run n s).
Proof. intros n. induction n as [| n IH]; intros s H; [exact H |]. apply IH. now apply step_ok. Qed.

Lemma run_inj : forall n s s', well_ok s -> well_ok s' -> well_run n s = well_run n s' -> s = s'.
Proof.
  intros n. induction n as [| n IH]; intros s s' H H' E; [exact E |].
  cbn [well_run] in E. apply IH in E; try now apply step_ok.
  rewrite <- (back_step s H), <- (back_step s' H'). now rewrite E.
Qed.

Lemma zero_back : forall i, well_back (mk_well i (repeat 0 32)) =
  mk_well ((i + 1) mod 32) (wset (wset (repeat 0 32) ((i + 1) mod 32) 0) i 0).
Proof.
  intros i.
  assert (Z : forall k, wget (repeat 0 32) k = 0).
  { intros k. unfold wget. apply nth_repeat. }
  unfold well_back. cbv zeta. cbn [w_i w_state]. rewrite !Z. reflexivity.
Qed.

Lemma wset_zero : forall i, (i < 32)%nat -> wset (repeat 0 32) i 0 = repeat 0 32.
Proof.
  intros i Hi. apply list_wext.
  - rewrite wset_length; rewrite repeat_length; lia.
  - intros j Hj. destruct (Nat.eq_dec i j) as [<- | Hne].
    + rewrite wget_set_same by (rewrite repeat_length; lia). unfold wget. now rewrite nth_repeat.
    + apply wget_set_other; [rewrite repeat_length; lia | exact Hne].
Qed.

Lemma step_nonzero : forall s, well_ok s -> w_state s <> repeat 0 32 ->
  w_state (well_step s) <> repeat 0 32.
Proof.
  intros s H Hn E. apply Hn. rewrite <- (back_step s H).
  pose proof (step_ok s H) as (Hi & _ & _).
  destruct (well_step s) as [i st]. cbn [w_state w_i] in *. subst st.
  rewrite zero_back. cbn [w_state].
  rewrite wset_zero by (apply Nat.mod_upper_bound; discriminate). now apply wset_zero.
Qed.

Lemma run_nonzero : forall n s, well_ok s -> w_state s <> repeat 0 32 ->
  w_state (well_run n s) <> repeat 0 32.
Proof.
  intros n. induction n as [| n IH]; intros s H Hn; [exact Hn |].
  cbn [well_run]. apply IH; [now apply step_ok | now apply step_nonzero].
Qed.

Lemma run_add : forall m n s, well_run (m + n) s = well_run n (well_run m s).
Proof. intros m. induction m as [| m IH]; intros n s; [reflexivity |]. cbn. apply IH. Qed.

(* ---- pure periodicity, by the pigeonhole principle ---- *)

(* all lists of length k over 0 .. m-1 *)
Fixpoint words (m : nat) (k : nat) : list (list N) :=
  match k with
  | O => [[]]
  | S k => flat_map (fun l => map (fun a => N.of_nat a :: l) (seq 0 m)) (words m k)
  end.

Lemma in_words : forall m k l, length l = k -> Forall (fun a => (N.to_nat a < m)%nat) l ->
  In l (words m k).
Proof.
  intros m k. induction k as [| k IH]; intros l HL HF.
  - destruct l; [now left | discriminate].
  - destruct l as [| a l]; [discriminate |]. cbn [words]. apply in_flat_map. exists l.
    inversion HF; subst. split; [apply IH; [now injection HL | assumption] |].
    apply in_map_iff. exists (N.to_nat a). split; [now rewrite N2Nat.id |]. apply in_seq. lia.
Qed.

Lemma orbit_in : forall bound s, well_ok s -> (forall x, is_word32 x -> (N.to_nat x < bound)%nat) ->
  In (N.of_nat (w_i s) :: w_state s)
     (flat_map (fun l => map (fun a => N.of_nat a :: l) (seq 0 32)) (words bound 32)).
Proof.
  intros bound s (Hi & HL & HW) Hb. apply in_flat_map. exists (w_state s). split.
  - apply in_words; [exact HL |]. rewrite Forall_forall in *. intros x Hx. apply Hb. now apply HW.
  - apply in_map_iff. exists (w_i s). split; [reflexivity |]. apply in_seq. lia.
Qed.

Lemma well_dec : forall s s' : well, {s = s'} + {s <> s'}.
Proof.
  intros [i l] [i' l']. destruct (Nat.eq_dec i i') as [-> | ?]; [| right; congruence].
  destruct (list_eq_dec N.eq_dec l l') as [-> | ?]; [now left | right; congruence].
Defined.

Lemma bounded_search : forall (P : nat -> Prop), (forall n, {P n} + {~ P n}) -> forall k,
  (exists n, (0 < n <= k)%nat /\ P n) \/ (forall n, (0 < n <= k)%nat -> ~ P n).
Proof.
  intros P D k. induction k as [| k [(n & Hn & Pn) | IH]].
  - right. intros n Hn. lia.
  - left. exists n. split; [lia | exact Pn].
  - destruct (D (S k)) as [Pk | Nk].
    + left. exists (S k). split; [lia | exact Pk].
    + right. intros n Hn. destruct (Nat.eq_dec n (S k)) as [-> | Hne]; [exact Nk | apply IH; lia].
Qed.

Lemma periodic : forall bound s, well_ok s ->
  (forall x, is_word32 x -> (N.to_nat x < bound)%nat) ->
  exists n, (0 < n)%nat /\ well_run n s = s.
Proof.
  intros bound s H Hb.
  set (univ := flat_map (fun l => map (fun a => N.of_nat a :: l) (seq 0 32)) (words bound 32)).
  assert (Hu : forall s, well_ok s -> In (N.of_nat (w_i s) :: w_state s) univ)
    by (intros s' H'; now apply orbit_in).
  clearbody univ. clear Hb.
  set (K := length univ).
  destruct (bounded_search (fun n => well_run n s = s) (fun n => well_dec _ _) K)
    as [(n & Hn & E) | Hno]; [exists n; split; [lia | exact E] | exfalso].
  set (f := fun n => N.of_nat (w_i (well_run n s)) :: w_state (well_run n s)).
  assert (ND : NoDup (map f (seq 0 (S K)))).
  { assert (D : forall a b, (a < b <= K)%nat -> well_run a s <> well_run b s).
    { intros a b Hab E. apply (Hno (b - a)%nat ltac:(lia)). symmetry.
      apply (run_inj a); [exact H | now apply run_ok |].
      rewrite <- run_add. replace (b - a + a)%nat with b by lia. exact E. }
    assert (G : forall k base, (base + k <= S K)%nat -> NoDup (map f (seq base k))).
    { intros k. induction k as [| k IH]; intros base Hk; [constructor |].
      cbn [seq map]. constructor; [| apply IH; lia].
      intros Hin. apply in_map_iff in Hin. destruct Hin as (n & E & Hn). apply in_seq in Hn.
      apply (D base n ltac:(lia)).
      unfold f in E. destruct (well_run base s) as [ia la]; destruct (well_run n s) as [ib lb].
      cbn [w_i w_state] in E. injection E as E1 E2. apply Nat2N.inj in E1. congruence. }
    apply G. lia. }
  assert (I : incl (map f (seq 0 (S K))) univ).
  { intros x Hx. apply in_map_iff in Hx. destruct Hx as (n & <- & _). unfold f.
    apply Hu. now apply run_ok. }
  pose proof (NoDup_incl_length ND I) as L. rewrite map_length, seq_length in L. unfold K in L. lia.
Qed.

(* ---- the float result ---- *)

Lemma float_of_u32_le : forall n, is_word32 n -> float_of_u32 n <= 2 ^ 32.
Proof.
  intros n Hn. unfold is_word32 in Hn. unfold float_of_u32. cbv zeta.
  set (e := N.size n - 24). set (q := n / 2 ^ e).
  assert (He : e <= 8).
  { unfold e. destruct (N.eq_dec n 0) as [-> | Hz]; [vm_compute; discriminate |].
    rewrite N.size_log2 by exact Hz.
    assert (N.log2 n < 32) by (apply N.log2_lt_pow2; lia). lia. }
  assert (P : 2 ^ e * 2 ^ (32 - e) = 2 ^ 32) by (rewrite <- N.pow_add_r; f_equal; lia).
  assert (Hq : q + 1 <= 2 ^ (32 - e)).
  { assert (q < 2 ^ (32 - e)); [| lia]. apply N.div_lt_upper_bound; [apply N.pow_nonzero; lia |]. now rewrite P. }
  assert (X : forall c, c <= 2 ^ (32 - e) -> c * 2 ^ e <= 2 ^ 32) by (intros c Hc; rewrite <- P; nia).
  destruct (_ || _)%bool; apply X; lia.
Qed.

Lemma size_32 : forall n, 2 ^ 31 <= n < 2 ^ 32 -> N.size n = 32.
Proof.
  intros n Hn. rewrite N.size_log2 by lia.
  rewrite (N.log2_unique n 31); [reflexivity | lia |]. exact Hn.
Qed.

Lemma float_of_u32_one : forall n, is_word32 n ->
  (float_of_u32 n = 2 ^ 32 <-> 2 ^ 32 - 128 <= n).
Proof.
  intros n Hn. unfold is_word32 in Hn.
  destruct (N.lt_ge_cases n (2 ^ 31)) as [Hs | Hb].
  - split; [| lia]. intros E. exfalso.
    unfold float_of_u32 in E. cbv zeta in E. set (e := N.size n - 24) in *.
    set (q := n / 2 ^ e) in *.
    assert (He : e <= 7).
    { unfold e. destruct (N.eq_dec n 0) as [-> | Hz]; [vm_compute; discriminate |].
      rewrite N.size_log2 by exact Hz.
      assert (N.log2 n < 31) by (apply N.log2_lt_pow2; lia). lia. }
    assert (P : 2 ^ e * 2 ^ (31 - e) = 2 ^ 31) by (rewrite <- N.pow_add_r; f_equal; lia).
    assert (Hq : q + 1 <= 2 ^ (31 - e)).
    { assert (q < 2 ^ (31 - e)); [| lia].
      apply N.div_lt_upper_bound; [apply N.pow_nonzero; lia |]. now rewrite P. }
    assert (X : forall c, c <= 2 ^ (31 - e) -> c * 2 ^ e <= 2 ^ 31) by (intros c Hc; rewrite <- P; nia).
    destruct (_ || _)%bool.
    + pose proof (X (q + 1) Hq) as Y. rewrite E in Y. vm_compute in Y. now apply Y.
    + pose proof (X q ltac:(lia)) as Y. rewrite E in Y. vm_compute in Y. now apply Y.
  - unfold float_of_u32. rewrite size_32 by lia. change (32 - 24) with 8. cbv zeta.
    change (2 ^ 8) with 256. change (2 ^ 32) with 4294967296 in *. change (2 ^ 31) with 2147483648 in *.
    pose proof (N.div_mod n 256 ltac:(lia)) as D. pose proof (N.mod_lt n 256 ltac:(lia)) as M.
    set (q := n / 256) in *. set (r := n mod 256) in *. clearbody q r.
    destruct (N.ltb_spec 256 (2 * r)) as [H1 | H1]; cbn [orb].
    + split; lia.
    + destruct (N.eqb_spec 256 (2 * r)) as [H2 | H2]; cbn [andb].
      * destruct (N.odd q) eqn:Eo.
        -- split; lia.
        -- split; [lia |]. intros Hge. exfalso.
           assert (q = 16777215) by lia. subst q. discriminate Eo.
      * split; lia.
Qed.

Lemma float_of_u32_zero : forall n, is_word32 n -> (float_of_u32 n = 0 <-> n = 0).
Proof.
  intros n Hn. split; [| intros ->; reflexivity].
  intros E. destruct (N.eq_dec n 0) as [-> | Hz]; [reflexivity | exfalso].
  unfold float_of_u32 in E. cbv zeta in E. set (e := N.size n - 24) in *.
  assert (Q : 0 < n / 2 ^ e).
  { apply N.div_str_pos. split; [apply N.neq_0_lt_0, N.pow_nonzero; lia |].
    apply N.le_trans with (2 ^ N.log2 n); [| apply N.log2_spec; lia].
    apply N.pow_le_mono_r; [lia |]. unfold e. rewrite N.size_log2 by exact Hz. lia. }
  assert (P : 2 ^ e <> 0) by (apply N.pow_nonzero; lia).
  destruct (_ || _)%bool; apply N.mul_eq_0 in E; lia.
Qed.
