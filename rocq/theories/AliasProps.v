(* C273-C277: functions that write into one of their arguments. *)
From Coq Require Import Reals Lra List Arith Lia.
From Verif Require Import RVecModel RVecProps MatModel AliasModel.
Import ListNotations.
Local Open Scope R_scope.

(* every object except o is as before *)
Definition only (o : nat) (m m' : mem) : Prop := forall o' k, o' <> o -> m' o' k = m o' k.

Lemma store_same : forall m o k v, store m o k v o k = v.
Proof. intros; unfold store; rewrite !Nat.eqb_refl; reflexivity. Qed.
Lemma store_comp : forall m o k v o' k', k <> k' -> store m o k v o' k' = m o' k'.
Proof.
  intros m o k v o' k' K; unfold store; destruct (Nat.eqb_spec k k'); [contradiction |].
  rewrite Bool.andb_false_r; reflexivity.
Qed.
Lemma store_obj : forall m o k v o' k', o' <> o -> store m o k v o' k' = m o' k'.
Proof.
  intros m o k v o' k' K; unfold store; destruct (Nat.eqb_spec o o'); [subst; contradiction | reflexivity].
Qed.

Lemma run_only : forall l o m, Forall (fun a => as_obj a = o) l -> only o m (run l m).
Proof.
  intros l o; induction l as [| a l IH]; intros m F o' k N; [reflexivity |].
  inversion F as [| ? ? A F']; subst; change (run (a :: l) m) with (run l (store m (as_obj a) (as_comp a) (as_expr a m))).
  rewrite IH by assumption; apply store_obj; exact N.
Qed.

Ltac cells := unfold cross_into; cbn [run fold_left map as_obj as_comp as_expr]; unfold vec_at;
  repeat (rewrite store_same || (rewrite store_comp by discriminate)).

(* the value a component gets from a function of the old memory that reads only that component *)
Lemma run_comps : forall this f, (forall k m m', (forall o, m' o k = m o k) -> f k m' = f k m) -> forall m,
  let m' := run (map (fun k => mk_assign this k (f k)) [0%nat; 1%nat; 2%nat]) m in
  vec_at m' this = RV (f 0%nat m) (f 1%nat m) (f 2%nat m) /\ only this m m'.
Proof.
  intros this f F m m'; split; [| apply run_only; repeat constructor].
  unfold m'; cells; apply rv_eq; cbn [rx ry rz].
  - reflexivity.
  - apply F; intro o; rewrite store_comp by discriminate; reflexivity.
  - apply F; intro o; rewrite !store_comp by discriminate; reflexivity.
Qed.

(* C273.  The functions of vectors that work in place give the value of the function that
   returns a new vector, and change nothing else, whether or not the arguments are the vector
   itself. *)
Theorem vec_in_place : forall (m : mem) this v w,
  (vec_at (run (add_assign this v) m) this = radd (vec_at m this) (vec_at m v) /\ only this m (run (add_assign this v) m)) /\
  (vec_at (run (sub_assign this v) m) this = rsub (vec_at m this) (vec_at m v) /\ only this m (run (sub_assign this v) m)) /\
  (vec_at (run (mul_assign this v) m) this =
     RV (m this 0%nat * m v 0%nat) (m this 1%nat * m v 1%nat) (m this 2%nat * m v 2%nat) /\ only this m (run (mul_assign this v) m)) /\
  (vec_at (run (div_assign this v) m) this =
     RV (m this 0%nat / m v 0%nat) (m this 1%nat / m v 1%nat) (m this 2%nat / m v 2%nat) /\ only this m (run (div_assign this v) m)) /\
  (vec_at (max_assign this v m) this =
     RV (Rmax (m this 0%nat) (m v 0%nat)) (Rmax (m this 1%nat) (m v 1%nat)) (Rmax (m this 2%nat) (m v 2%nat)) /\ only this m (max_assign this v m)) /\
  (vec_at (min_assign this v m) this =
     RV (Rmin (m this 0%nat) (m v 0%nat)) (Rmin (m this 1%nat) (m v 1%nat)) (Rmin (m this 2%nat) (m v 2%nat)) /\ only this m (min_assign this v m)) /\
  (vec_at (reflect_assign this v m) this = rreflect (vec_at m this) (vec_at m v) /\ only this m (reflect_assign this v m)) /\
  (only this m (run (clamp_assign this v w) m) /\
   forall k, (k < 3)%nat -> m v k <= m w k ->
     let x := run (clamp_assign this v w) m this k in
     m v k <= x <= m w k /\ (m v k <= m this k <= m w k -> x = m this k) /\
     (forall y, m v k <= y <= m w k -> Rabs (m this k - x) <= Rabs (m this k - y))).
Proof.
  intros m this v w.
  assert (CW : forall op, let m' := run (componentwise op this v) m in
    vec_at m' this = RV (op (m this 0%nat) (m v 0%nat)) (op (m this 1%nat) (m v 1%nat)) (op (m this 2%nat) (m v 2%nat)) /\ only this m m').
  { intro op; apply (run_comps this (fun k m => op (m this k) (m v k))); intros k m1 m2 E; rewrite !E; reflexivity. }
  assert (O3 : forall x y z, only this m (store (store (store m this 0%nat x) this 1%nat y) this 2%nat z)).
  { intros x y z o k N; rewrite !store_obj by exact N; reflexivity. }
  split; [exact (CW Rplus) |]. split; [exact (CW Rminus) |]. split; [exact (CW Rmult) |]. split; [exact (CW Rdiv) |].
  split; [split; [| apply O3] |].
  { unfold max_assign; cells; apply rv_eq; cbn [rx ry rz];
      match goal with |- (if Rgt_dec ?a ?b then _ else _) = _ => destruct (Rgt_dec a b); [rewrite Rmax_left by lra | rewrite Rmax_right by lra]; reflexivity end. }
  split; [split; [| apply O3] |].
  { unfold min_assign; cells; apply rv_eq; cbn [rx ry rz];
      match goal with |- (if Rlt_dec ?a ?b then _ else _) = _ => destruct (Rlt_dec a b); [rewrite Rmin_left by lra | rewrite Rmin_right by lra]; reflexivity end. }
  split.
  { unfold reflect_assign; set (d := rdot _ _).
    destruct (run_comps this (fun k m => m this k - 2 * d * m v k)) with (m := m) as [A B].
    { intros k m1 m2 E; rewrite !E; reflexivity. }
    split; [| exact B]; etransitivity; [exact A | reflexivity]. }
  set (f := fun k (m : mem) => if Rlt_dec (m this k) (m v k) then m v k
        else if Rgt_dec (m this k) (m w k) then m w k else m this k).
  destruct (run_comps this f) with (m := m) as [A B].
  { intros k m1 m2 E; unfold f; rewrite !E; reflexivity. }
  split; [exact B |].
  intros k K L x.
  assert (X : x = f k m).
  { assert (A' := A); unfold vec_at in A'; injection A' as A0 A1 A2; unfold x, clamp_assign.
    destruct k as [| [| [| k]]]; [exact A0 | exact A1 | exact A2 | lia]. }
  rewrite X; unfold f; destruct (Rlt_dec (m this k) (m v k)); [| destruct (Rgt_dec (m this k) (m w k))].
  - split; [lra |]; split; [lra |]; intros y Y; rewrite !Rabs_left1 by lra; lra.
  - split; [lra |]; split; [lra |]; intros y Y; rewrite !Rabs_right by lra; lra.
  - split; [lra |]; split; [reflexivity |]; intros y Y; replace (m this k - m this k) with 0 by ring.
    rewrite Rabs_R0; apply Rabs_pos.
Qed.
Print Assumptions vec_in_place.
Example vec_in_place_ex : forall x, vec_at (run (add_assign 7 7) (fun _ _ => x)) 7 = RV (x + x) (x + x) (x + x).
Proof. intro x; destruct (vec_in_place (fun _ _ => x) 7 7 7) as ((A & _) & _); exact A. Qed.

(* C274.  The cross product and the refraction written into a third vector are right when that
   vector is not one of the operands; the inverse and the product of matrices also when it is. *)
Theorem into_other : forall (m : mem) this v out eta, out <> this -> out <> v -> this <> v ->
  (vec_at (run (cross_into this v out) m) out = rcross (vec_at m this) (vec_at m v) /\ only out m (run (cross_into this v out) m)) /\
  (rrefract (vec_at m this) (vec_at m v) eta =
     (if fst (refract_assign this v eta m) then Some (vec_at (snd (refract_assign this v eta m)) this) else None)) /\
  only this m (snd (refract_assign this v eta m)).
Proof.
  intros m this v out eta N1 N2 N3; split; [split |].
  - cells; rewrite !store_obj by (intro; subst; contradiction); reflexivity.
  - apply run_only; repeat constructor.
  - unfold refract_assign, rrefract; destruct (Rlt_dec 1 _); cbn [fst snd]; [split; [reflexivity | intros o k N; reflexivity] |].
    split; [| intros o k N; rewrite !store_obj by exact N; reflexivity].
    f_equal; cells; unfold radd, rscale, rneg; cbn [rx ry rz]; apply rv_eq; cbn [rx ry rz];
      rewrite !(store_obj _ _ _ _ v) by (intro; subst; contradiction); cells; reflexivity.
Qed.
Print Assumptions into_other.
Example into_other_ex : (3 <> 1 /\ 3 <> 2 /\ 1 <> 2)%nat. Proof. lia. Qed.

Lemma rmat_eq : forall a b, m00 a = m00 b -> m01 a = m01 b -> m02 a = m02 b -> m03 a = m03 b ->
  m10 a = m10 b -> m11 a = m11 b -> m12 a = m12 b -> m13 a = m13 b ->
  m20 a = m20 b -> m21 a = m21 b -> m22 a = m22 b -> m23 a = m23 b ->
  m30 a = m30 b -> m31 a = m31 b -> m32 a = m32 b -> m33 a = m33 b -> a = b.
Proof. intros [] []; cbn; intros; subst; reflexivity. Qed.

(* assignments to different components of o that do not read o *)
Lemma run_at : forall o l m, Forall (fun a => as_obj a = o) l -> NoDup (map as_comp l) ->
  (forall a, In a l -> forall m m', only o m m' -> as_expr a m' = as_expr a m) ->
  (forall k, ~ In k (map as_comp l) -> run l m o k = m o k) /\
  (forall a, In a l -> run l m o (as_comp a) = as_expr a m).
Proof.
  intros o l; induction l as [| b l IH]; intros m F N R; [split; [reflexivity | intros a []] |].
  inversion F as [| ? ? B F']; inversion N as [| ? ? NB N']; subst.
  change (run (b :: l) m) with (run l (store m (as_obj b) (as_comp b) (as_expr b m))).
  set (m1 := store m (as_obj b) (as_comp b) (as_expr b m)).
  destruct (IH m1 F' N' (fun a I => R a (or_intror I))) as [I1 I2].
  split.
  - intros k K; cbn in K; rewrite I1 by tauto; unfold m1; apply store_comp; intro; apply K; left; assumption.
  - intros a [<- | A].
    + rewrite I1 by exact NB; unfold m1; apply store_same.
    + rewrite (I2 a A); apply (R a (or_intror A)); intros o' k' O; unfold m1; apply store_obj; exact O.
Qed.

Lemma store_mat_at : forall o v m, mat_at (store_mat o v m) o = v /\ only o m (store_mat o v m).
Proof.
  intros o v m; split; [| apply run_only; cbn; repeat constructor].
  unfold store_mat; set (l := map _ _).
  assert (F : Forall (fun a => as_obj a = o) l) by (unfold l; cbn; repeat constructor).
  assert (N : NoDup (map as_comp l)) by (unfold l; cbn; repeat constructor; cbn; intuition discriminate).
  assert (R : forall a, In a l -> forall m m', only o m m' -> as_expr a m' = as_expr a m).
  { intros a A m1 m2 _; unfold l in A; apply in_map_iff in A; destruct A as (p & <- & _); reflexivity. }
  destruct (run_at o l m F N R) as [_ H]; clear F N R.
  assert (G : forall k x, In (k, x) (combine (seq 0 16) [m00 v; m01 v; m02 v; m03 v; m10 v; m11 v; m12 v; m13 v;
                             m20 v; m21 v; m22 v; m23 v; m30 v; m31 v; m32 v; m33 v]) -> run l m o k = x).
  { intros k x I; exact (H _ (in_map (fun p => mk_assign o (fst p) (fun _ => snd p)) _ _ I)). }
  clear H; clearbody l.
  apply rmat_eq; apply G; cbn; tauto.
Qed.

Theorem mat_in_place : forall (m : mem) this out,
  mat_at (mul_assign_mat this out m) this = m_mul (mat_at m this) (mat_at m out) /\
  only this m (mul_assign_mat this out m) /\
  (m_inverse (mat_at m this) =
     (if fst (inverse_into this out m) then Some (mat_at (snd (inverse_into this out m)) out) else None)) /\
  only out m (snd (inverse_into this out m)) /\
  (fst (inverse_into this out m) = false -> snd (inverse_into this out m) = m).
Proof.
  intros m this out; unfold mul_assign_mat, inverse_into.
  split; [apply store_mat_at |]; split; [apply store_mat_at |].
  destruct (m_inverse (mat_at m this)) as [v |]; cbn [fst snd].
  - split; [f_equal; symmetry; apply store_mat_at |]; split; [apply store_mat_at | discriminate].
  - split; [reflexivity |]; split; [intros o k N; reflexivity | reflexivity].
Qed.
Print Assumptions mat_in_place.
Example mat_in_place_ex : forall m, mat_at (mul_assign_mat 1 1 m) 1 = m_mul (mat_at m 1) (mat_at m 1).
Proof. intro m; apply (mat_in_place m 1 1). Qed.

(* C275.  A cross product that is written into one of its operands is right only in a single
   component and special cases. *)
Theorem cross_alias_refuted : forall (m : mem) this v, this <> v ->
  let c := rcross (vec_at m this) (vec_at m v) in
  (m this 0%nat <> rx c -> m v 2%nat <> 0 -> vec_at (run (cross_into this v this) m) this <> c) /\
  (m v 0%nat <> rx c -> m this 2%nat <> 0 -> vec_at (run (cross_into this v v) m) v <> c).
Proof.
  intros m this v N c; split; intros X Z E; apply (f_equal ry) in E; revert E; cells;
    rewrite ?(store_obj _ _ _ _ v), ?(store_obj _ _ _ _ this) by (intro; subst; contradiction);
    unfold c, rcross in *; cbn [rx ry rz vec_at] in *; unfold vec_at; cbn [rx ry rz]; intro E;
    apply X.
  - apply Rmult_eq_reg_r with (m v 2%nat); [lra | exact Z].
  - rewrite store_comp in E by discriminate; apply Rmult_eq_reg_r with (m this 2%nat); [lra | exact Z].
Qed.
Print Assumptions cross_alias_refuted.
Example cross_alias_ex : let m : mem := fun o k => match o, k with 0%nat, 0%nat => 1 | 1%nat, 1%nat => 1 | 1%nat, 2%nat => 1 | _, _ => 0 end in
  m 0%nat 0%nat <> rx (rcross (vec_at m 0) (vec_at m 1)) /\ m 1%nat 2%nat <> 0.
Proof. unfold rcross, vec_at; cbn; lra. Qed.

(* C276, C277.  Transposing a matrix into another one works; transposing it in place copies the lower
   triangle over the upper one and is right only for symmetric matrices. *)
Theorem transpose_into_other : forall (m : mem) this out, this <> out ->
  mat_at (run (transpose_into this out) m) out = m_transpose (mat_at m this) /\
  only out m (run (transpose_into this out) m).
Proof.
  intros m this out N; split; [| apply run_only; cbn; repeat constructor].
  unfold transpose_into; set (l := map _ _).
  assert (F : Forall (fun a => as_obj a = out) l) by (unfold l; cbn; repeat constructor).
  assert (ND : NoDup (map as_comp l)) by (unfold l; cbn; repeat constructor; cbn; intuition discriminate).
  assert (R : forall a, In a l -> forall m m', only out m m' -> as_expr a m' = as_expr a m).
  { intros a A m1 m2 O; unfold l in A; apply in_map_iff in A; destruct A as (p & <- & _); cbn [as_expr].
    apply O; exact N. }
  destruct (run_at out l m F ND R) as [_ H]; clear F ND R.
  assert (G : forall k, (k < 16)%nat -> run l m out k = m this (4 * (k mod 4) + k / 4)%nat).
  { intros k K; exact (H _ (in_map (fun k => mk_assign out k (fun m => m this (4 * (k mod 4) + k / 4)%nat)) _ k
      (proj2 (in_seq 16 0 k) (conj (Nat.le_0_l k) K)))). }
  clear H; clearbody l.
  apply rmat_eq; cbn [mat_at m_transpose m00 m01 m02 m03 m10 m11 m12 m13 m20 m21 m22 m23 m30 m31 m32 m33];
    (rewrite G by (repeat constructor)); reflexivity.
Qed.
Print Assumptions transpose_into_other.
Example transpose_into_other_ex : (0 <> 1)%nat. Proof. lia. Qed.

Definition copy (f : nat -> nat) (c : nat -> R) (k : nat) : nat -> R :=
  fun k' => if Nat.eqb k k' then c (f k) else c k'.
Lemma run_self : forall o f l m c, (forall x, m o x = c x) ->
  forall x, run (map (fun k => mk_assign o k (fun m => m o (f k))) l) m o x = fold_left (copy f) l c x.
Proof.
  intros o f l; induction l as [| k l IH]; intros m c E x; [apply E |].
  cbn [map fold_left]; apply IH; intro y; cbn [as_obj as_comp as_expr].
  unfold store, copy; rewrite Nat.eqb_refl; cbn [andb]; rewrite !E; reflexivity.
Qed.

Lemma lower_is_transpose : forall c0 c1 c2 c3 c4 c5 c6 c7 c8 c9 c10 c11 c12 c13 c14 c15,
  RM c0 c4 c8 c12 c4 c5 c9 c13 c8 c9 c10 c14 c12 c13 c14 c15 = RM c0 c4 c8 c12 c1 c5 c9 c13 c2 c6 c10 c14 c3 c7 c11 c15 <->
  RM c0 c4 c8 c12 c1 c5 c9 c13 c2 c6 c10 c14 c3 c7 c11 c15 = RM c0 c1 c2 c3 c4 c5 c6 c7 c8 c9 c10 c11 c12 c13 c14 c15.
Proof. intros; split; intro E; injection E; intros; subst; reflexivity. Qed.

Theorem transpose_alias_refuted : forall (m : mem) this,
  let t := mat_at (run (transpose_into this this) m) this in
  m_transpose t = t /\
  (t = m_transpose (mat_at m this) <-> m_transpose (mat_at m this) = mat_at m this).
Proof.
  intros m this t.
  assert (T : t = RM (m this 0%nat) (m this 4%nat) (m this 8%nat) (m this 12%nat) (m this 4%nat) (m this 5%nat) (m this 9%nat) (m this 13%nat)
                     (m this 8%nat) (m this 9%nat) (m this 10%nat) (m this 14%nat) (m this 12%nat) (m this 13%nat) (m this 14%nat) (m this 15%nat)).
  { assert (G := run_self this (fun k => 4 * (k mod 4) + k / 4)%nat (seq 0 16) m (m this) (fun x => eq_refl)).
    unfold t, transpose_into; set (m' := run _ m) in *; clearbody m'; clear t.
    apply rmat_eq; cbn [mat_at m00 m01 m02 m03 m10 m11 m12 m13 m20 m21 m22 m23 m30 m31 m32 m33]; rewrite G; reflexivity. }
  clearbody t; rewrite T; split; [reflexivity | apply lower_is_transpose].
Qed.
Print Assumptions transpose_alias_refuted.
Example transpose_alias_ex : m_transpose (m_translation (RV 1 2 3)) <> m_translation (RV 1 2 3).
Proof. unfold m_transpose, m_translation; cbn; intro E; injection E; intros; lra. Qed.
