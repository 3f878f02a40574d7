(* Bounded memory blocks and checked int arithmetic, used by the C models. *)
From Verif Require Import Common.
Local Open Scope Z_scope.

(* Result of a signed int computation: outside of the int range the C code has
   undefined behaviour. *)
Definition ck (z : Z) : res Z :=
  if ((- 2 ^ 31 <=? z) && (z <? 2 ^ 31))%bool then Ok z else UB.

(* Element access of a block of known length. *)
Definition rd {A} (l : list A) (i : Z) : res A :=
  if (i <? 0) then UB
  else match nth_error l (Z.to_nat i) with Some a => Ok a | None => UB end.

Definition upd {A} (l : list A) (i : Z) (v : A) : res (list A) :=
  if ((0 <=? i) && (i <? Z.of_nat (length l)))%bool
  then Ok (firstn (Z.to_nat i) l ++ v :: skipn (S (Z.to_nat i)) l)
  else UB.

(* ---- lemmas ---- *)

Lemma ck_ok : forall z, - 2 ^ 31 <= z < 2 ^ 31 -> ck z = Ok z.
Proof.
  intros z H. unfold ck.
  destruct (Z.leb_spec (- 2 ^ 31) z); destruct (Z.ltb_spec z (2 ^ 31)); try lia.
  reflexivity.
Qed.

Lemma ck_inv : forall z v, ck z = Ok v -> v = z /\ - 2 ^ 31 <= z < 2 ^ 31.
Proof.
  intros z v. unfold ck.
  destruct (Z.leb_spec (- 2 ^ 31) z); destruct (Z.ltb_spec z (2 ^ 31)); cbn [andb];
    try discriminate.
  intros H1. injection H1 as <-. lia.
Qed.

Lemma rd_ok : forall A (l : list A) i, 0 <= i < Z.of_nat (length l) ->
  exists a, rd l i = Ok a /\ nth_error l (Z.to_nat i) = Some a.
Proof.
  intros A l i H. unfold rd. destruct (Z.ltb_spec i 0) as [Hc | _]; [lia |].
  destruct (nth_error l (Z.to_nat i)) as [a |] eqn:E.
  - exists a. auto.
  - apply nth_error_None in E. lia.
Qed.

Lemma rd_nth : forall A (l : list A) i a, 0 <= i ->
  nth_error l (Z.to_nat i) = Some a -> rd l i = Ok a.
Proof.
  intros A l i a H E. unfold rd. destruct (Z.ltb_spec i 0) as [Hc | _]; [lia |].
  now rewrite E.
Qed.

Lemma upd_ok : forall A (l : list A) i v, 0 <= i < Z.of_nat (length l) ->
  upd l i v = Ok (firstn (Z.to_nat i) l ++ v :: skipn (S (Z.to_nat i)) l).
Proof.
  intros A l i v H. unfold upd.
  destruct (Z.leb_spec 0 i); destruct (Z.ltb_spec i (Z.of_nat (length l))); try lia.
  reflexivity.
Qed.

Lemma upd_inv : forall A (l l' : list A) i v, upd l i v = Ok l' ->
  0 <= i < Z.of_nat (length l) /\
  l' = firstn (Z.to_nat i) l ++ v :: skipn (S (Z.to_nat i)) l.
Proof.
  intros A l l' i v. unfold upd.
  destruct (Z.leb_spec 0 i); destruct (Z.ltb_spec i (Z.of_nat (length l))); cbn [andb];
    try discriminate.
  intros E. split; [lia | congruence].
Qed.

Lemma upd_length : forall A (l l' : list A) i v, upd l i v = Ok l' -> length l' = length l.
Proof.
  intros A l l' i v E. apply upd_inv in E. destruct E as [Hi ->]. rewrite app_length, firstn_length.
  change (length (v :: skipn (S (Z.to_nat i)) l)) with (S (length (skipn (S (Z.to_nat i)) l))).
  rewrite skipn_length. lia.
Qed.

Lemma nth_error_upd_eq : forall A (l l' : list A) i v,
  upd l i v = Ok l' -> nth_error l' (Z.to_nat i) = Some v.
Proof.
  intros A l l' i v E. apply upd_inv in E. destruct E as [Hi ->].
  rewrite nth_error_app2; rewrite firstn_length; [| lia].
  replace (Z.to_nat i - Nat.min (Z.to_nat i) (length l))%nat with 0%nat by lia.
  reflexivity.
Qed.

Lemma nth_error_skipn : forall A n (l : list A) i,
  nth_error (skipn n l) i = nth_error l (n + i).
Proof.
  intros A n. induction n as [| n IH]; intros l i; [reflexivity |].
  destruct l as [| a l]; cbn [skipn Nat.add nth_error].
  - destruct i; reflexivity.
  - apply IH.
Qed.

Lemma nth_error_firstn : forall A n (l : list A) i,
  (i < n)%nat -> nth_error (firstn n l) i = nth_error l i.
Proof.
  intros A n. induction n as [| n IH]; intros l i H; [lia |].
  destruct l as [| a l]; [reflexivity |].
  destruct i as [| i]; [reflexivity |]. cbn [firstn nth_error]. apply IH. lia.
Qed.

Lemma nth_error_upd_neq : forall A (l l' : list A) i j v,
  upd l i v = Ok l' -> j <> Z.to_nat i -> nth_error l' j = nth_error l j.
Proof.
  intros A l l' i j v E Hj. apply upd_inv in E. destruct E as [Hi ->].
  destruct (Nat.lt_ge_cases j (Z.to_nat i)) as [Hlt | Hge].
  - rewrite nth_error_app1 by (rewrite firstn_length; lia).
    apply nth_error_firstn. exact Hlt.
  - rewrite nth_error_app2; rewrite firstn_length; [| lia].
    replace (j - Nat.min (Z.to_nat i) (length l))%nat
      with (S (j - S (Z.to_nat i)))%nat by lia.
    cbn [nth_error]. rewrite nth_error_skipn. f_equal. lia.
Qed.

Lemma upd_cases : forall A (l : list A) i v,
  (exists l', upd l i v = Ok l') \/ (upd l i v = UB /\ ~ (0 <= i < Z.of_nat (length l))).
Proof.
  intros A l i v. unfold upd.
  destruct (Z.leb_spec 0 i); destruct (Z.ltb_spec i (Z.of_nat (length l))); cbn [andb];
    try (right; split; [reflexivity | lia]).
  left. eexists. reflexivity.
Qed.

Lemma list_ext : forall A (l1 l2 : list A),
  length l1 = length l2 -> (forall i, (i < length l1)%nat -> nth_error l1 i = nth_error l2 i) ->
  l1 = l2.
Proof.
  intros A l1. induction l1 as [| a l1 IH]; intros [| b l2] Hlen H; try discriminate Hlen.
  - reflexivity.
  - pose proof (H 0%nat ltac:(cbn [length]; lia)) as H0. cbn [nth_error] in H0.
    injection H0 as <-. f_equal. apply IH.
    + cbn [length] in Hlen. lia.
    + intros i Hi. apply (H (S i)). cbn [length]. lia.
Qed.

Lemma row_in : forall W H y, 0 <= W -> 0 <= y < H -> 0 <= y * W /\ y * W + W <= W * H.
Proof. intros W H y HW Hy. nia. Qed.

Lemma rows_disjoint : forall W y y' x, 0 <= x < W -> y' <> y ->
  y * W <= y' * W + x -> y' * W + x < y * W + W -> False.
Proof. intros W y y' x Hx Hne H1 H2. nia. Qed.

Lemma mul_le_of_lt : forall x W b, 0 <= x < W -> 0 <= b -> 0 <= x * b /\ x * b + b <= W * b.
Proof. intros x W b Hx Hb. nia. Qed.
