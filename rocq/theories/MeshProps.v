(* C37, C38: the triangle buffer and the sampling of a face. *)
From Verif Require Import Common MeshModel MeshSpec.
From Coq Require Import Lqa.
Local Open Scope N_scope.

(* ---- C37 ---- *)

Definition mesh_ok {T} (m : mesh T) : Prop :=
  1 <= ms_alloc m < 2 ^ 32 /\ ms_count m <= ms_alloc m /\ ms_count m <= max_tris.

Lemma add_full : forall T (m : mesh T) t, ms_count m = max_tris -> add_triangle m t = Ok m.
Proof. intros T m t H. unfold add_triangle. rewrite H. now rewrite N.eqb_refl. Qed.

Lemma add_ok : forall T (m : mesh T) t, mesh_ok m -> ms_count m < max_tris ->
  exists m', add_triangle m t = Ok m' /\ ms_tris m' = ms_tris m ++ [t] /\ mesh_ok m'.
Proof.
  intros T m t (A1 & A2 & A3) L. unfold add_triangle.
  destruct (N.eqb_spec (ms_count m) max_tris) as [E | _]; [lia |].
  assert (C : forall al, ms_count (mk_mesh (ms_tris m ++ [t]) al) = ms_count m + 1).
  { intros al. unfold ms_count. cbn [ms_tris]. rewrite app_length. cbn [length]. lia. }
  destruct (N.eqb_spec (ms_count m) (ms_alloc m)) as [E | E].
  - assert (D : u32 (N.shiftl (ms_alloc m) 1) = 2 * ms_alloc m).
    { unfold u32. rewrite N.shiftl_mul_pow2. rewrite N.mod_small; unfold max_tris in *; lia. }
    rewrite D. cbv zeta. set (ns := if 2 * ms_alloc m <? max_tris then 2 * ms_alloc m else max_tris).
    assert (NS : ms_count m < ns /\ ns <= max_tris).
    { subst ns. unfold max_tris in *. destruct (N.ltb_spec (2 * ms_alloc m) 1000000); lia. }
    replace (ms_count m <=? ns) with true by (symmetry; apply N.leb_le; lia). cbn [bind].
    replace (ms_count m <? ns) with true by (symmetry; apply N.ltb_lt; lia).
    eexists. split; [reflexivity |]. split; [reflexivity |]. unfold mesh_ok. rewrite C. cbn [ms_alloc].
    unfold max_tris in *. lia.
  - cbn [bind]. replace (ms_count m <? ms_alloc m) with true by (symmetry; apply N.ltb_lt; lia).
    eexists. split; [reflexivity |]. split; [reflexivity |]. unfold mesh_ok. rewrite C. cbn [ms_alloc].
    unfold max_tris in *. lia.
Qed.

Lemma adds_full : forall T (l : list T) m, ms_count m = max_tris -> add_triangles m l = Ok m.
Proof. induction l as [| t l IH]; intros m H; cbn [add_triangles]; [reflexivity |]. rewrite add_full by auto. cbn [bind]. auto. Qed.

Lemma adds_ok : forall T (l : list T) m, mesh_ok m ->
  exists m', add_triangles m l = Ok m' /\
    ms_tris m' = firstn (N.to_nat max_tris) (ms_tris m ++ l) /\ mesh_ok m'.
Proof.
  induction l as [| t l IH]; intros m O; cbn [add_triangles].
  - exists m. split; [reflexivity |]. split; [| exact O]. rewrite app_nil_r. symmetry. apply firstn_all2.
    destruct O as (_ & _ & O). unfold ms_count in O. lia.
  - destruct (N.eq_dec (ms_count m) max_tris) as [E | E].
    + rewrite add_full by auto. cbn [bind]. exists m. split; [now apply adds_full |]. split; [| exact O].
      unfold ms_count in E. rewrite firstn_app.
      replace (N.to_nat max_tris - length (ms_tris m))%nat with 0%nat by lia.
      rewrite firstn_O, app_nil_r. symmetry. apply firstn_all2. lia.
    + destruct (add_ok T m t O) as (m1 & E1 & T1 & O1).
      { destruct O as (_ & _ & O). lia. }
      rewrite E1. cbn [bind]. destruct (IH m1 O1) as (m2 & E2 & T2 & O2). exists m2. split; [exact E2 |].
      split; [| exact O2]. rewrite T2, T1, <- app_assoc. reflexivity.
Qed.

(* C37.  For a mesh created with room for at least one triangle, whatever is added:
   no store is outside of the buffer, the mesh holds the first million triangles in
   the order they were added, and trimming the buffer keeps them. *)
Theorem mesh_adds_in_order : forall T size (l : list T), 1 <= size < 2 ^ 32 ->
  exists m, add_triangles (mesh_new size) l = Ok m /\
    ms_tris m = firstn (N.to_nat max_tris) l /\ ms_count m <= ms_alloc m /\
    ms_tris (mesh_trim m) = ms_tris m /\ ms_alloc (mesh_trim m) = ms_count m.
Proof.
  intros T size l H. destruct (adds_ok T l (mesh_new size)) as (m & E & L & O).
  - unfold mesh_ok, mesh_new, ms_count, max_tris. cbn [ms_tris ms_alloc length]. lia.
  - exists m. split; [exact E |]. split; [exact L |]. destruct O as (_ & O & _). split; [exact O |].
    unfold mesh_trim. destruct (N.ltb_spec (ms_count m) (ms_alloc m)); cbn [ms_tris ms_alloc]; split; auto; lia.
Qed.
Print Assumptions mesh_adds_in_order.

Example mesh_adds_ex : exists m, add_triangles (mesh_new 1) [5; 6; 7; 8; 9] = Ok m /\ ms_alloc m = 8 /\ ms_tris m = [5; 6; 7; 8; 9].
Proof. eexists. split; [reflexivity |]. split; reflexivity. Qed.

(* The constructor accepts a size of zero; the first triangle is then stored
   outside of the buffer. *)
Theorem mesh_size_zero_refuted : forall T (t : T), add_triangle (mesh_new 0) t = UB.
Proof. reflexivity. Qed.
Print Assumptions mesh_size_zero_refuted.

(* ---- C38 ---- *)
Local Open Scope Q_scope.

Lemma densities_nth : forall areas s i, (i < length areas)%nat ->
  exists v, nth_error (densities_from s areas) i = Some v /\ v == s + cum areas (S i).
Proof.
  induction areas as [| a areas IH]; intros s i H; [cbn in H; lia |]. cbn [densities_from].
  destruct i as [| i].
  - exists (s + a). split; [reflexivity |]. cbn [cum]. destruct areas; cbn [cum]; lra.
  - cbn [nth_error length] in *. destruct (IH (s + a) i) as (v & E & V); [lia |]. exists v. split; [exact E |].
    rewrite V. cbn [cum]. lra.
Qed.

Lemma densities_len : forall areas s, length (densities_from s areas) = length areas.
Proof. induction areas as [| a areas IH]; intros s; cbn; [reflexivity | now rewrite IH]. Qed.

Lemma gda_len : forall areas, length (get_densities_array areas) = length areas.
Proof. intros areas. apply densities_len. Qed.

Lemma dget_ok : forall areas i, (i < length areas)%nat ->
  exists v, dget (get_densities_array areas) (Z.of_nat i) = Ok v /\ v == cum areas (S i).
Proof.
  intros areas i H. destruct (densities_nth areas 0 i H) as (v & E & V). exists v.
  unfold dget. replace (Z.of_nat i <? 0)%Z with false by lia. rewrite Nat2Z.id. fold (get_densities_array areas) in E.
  rewrite E. split; [reflexivity |]. rewrite V. lra.
Qed.

Lemma cum_0 : forall areas, cum areas 0 = 0.
Proof. destruct areas; reflexivity. Qed.

Lemma cum_mono : forall areas i j, Forall (fun a => 0 <= a) areas -> (i <= j)%nat -> cum areas i <= cum areas j.
Proof.
  induction areas as [| a areas IH]; intros i j F H.
  - destruct i, j; cbn; lra.
  - inversion_clear F as [| ? ? F1 F2]. destruct i as [| i], j as [| j]; cbn [cum]; try lra; try lia.
    + specialize (IH 0%nat j F2 ltac:(lia)). rewrite cum_0 in IH. lra.
    + specialize (IH i j F2 ltac:(lia)). lra.
Qed.

Lemma Qltb_true : forall x y, Qltb x y = true <-> x < y.
Proof.
  intros x y. unfold Qltb. rewrite negb_true_iff. split.
  - intros H. apply Qnot_le_lt. intros L. apply Qle_bool_iff in L. congruence.
  - intros H. destruct (Qle_bool y x) eqn:E; [| reflexivity]. apply Qle_bool_iff in E. lra.
Qed.

Lemma Qltb_false : forall x y, Qltb x y = false <-> y <= x.
Proof. intros x y. unfold Qltb. rewrite negb_false_iff. apply Qle_bool_iff. Qed.

Lemma Qle_bool_false : forall x y, Qle_bool x y = false <-> y < x.
Proof. intros x y. rewrite <- Qltb_true. unfold Qltb. now rewrite negb_true_iff. Qed.

Lemma search_ok : forall areas x i n, Forall (fun a => 0 <= a) areas -> length areas = S n ->
  (1 <= i)%nat -> cum areas i <= x -> x < cum areas (S i) -> (i <= n)%nat ->
  forall fuel s e, (s < i <= e)%nat -> (e <= n)%nat -> (e - s <= fuel)%nat ->
  search fuel (get_densities_array areas) x (Z.of_nat s) (Z.of_nat e) = Ok (Z.of_nat (i - 1)).
Proof.
  intros areas x i n F L I1 X1 X2 I2. induction fuel as [| fuel IH]; intros s e S1 E1 H; [lia |].
  cbn [search]. set (mid := ((s + e) / 2)%nat).
  assert (M : ((Z.of_nat s + Z.of_nat e) / 2)%Z = Z.of_nat mid) by (unfold mid; rewrite Nat2Z.inj_div, Nat2Z.inj_add; reflexivity).
  rewrite M. assert (Mb : (s <= mid < e)%nat).
  { unfold mid. pose proof (Nat.div_mod_eq (s + e) 2). pose proof (Nat.mod_upper_bound (s + e) 2). lia. }
  destruct (dget_ok areas mid) as (dm & Em & Vm); [lia |]. rewrite Em. cbn [bind].
  destruct (dget_ok areas (S mid)) as (dn & En & Vn); [lia |].
  replace (Z.of_nat mid + 1)%Z with (Z.of_nat (S mid)) by lia.
  destruct (Nat.lt_trichotomy (S mid) i) as [T | [T | T]].
  - (* too low *)
    assert (B1 : dm <= x) by (rewrite Vm; pose proof (cum_mono areas (S mid) i F ltac:(lia)); lra).
    assert (B2 : dn <= x) by (rewrite Vn; pose proof (cum_mono areas (S (S mid)) i F ltac:(lia)); lra).
    replace (Qle_bool dm x) with true by (symmetry; now apply Qle_bool_iff). rewrite En. cbn [bind].
    replace (Qltb x dn) with false by (symmetry; now apply Qltb_false).
    replace (Qltb x dm) with false by (symmetry; now apply Qltb_false).
    assert (Ms : (s < mid)%nat \/ mid = s) by lia. destruct Ms as [Ms | Ms].
    + apply IH; lia.
    + (* mid = s: then e = s + 1, so i = e = S mid, a contradiction *)
      exfalso. unfold mid in Ms. pose proof (Nat.div_mod_eq (s + e) 2). pose proof (Nat.mod_upper_bound (s + e) 2). lia.
  - assert (B1 : dm <= x) by (rewrite Vm, T; exact X1).
    assert (B2 : x < dn) by (rewrite Vn, T; exact X2).
    replace (Qle_bool dm x) with true by (symmetry; now apply Qle_bool_iff). rewrite En. cbn [bind].
    replace (Qltb x dn) with true by (symmetry; now apply Qltb_true). f_equal. lia.
  - assert (B : x < dm) by (rewrite Vm; pose proof (cum_mono areas (S i) (S mid) F ltac:(lia)); lra).
    replace (Qle_bool dm x) with false by (symmetry; now apply Qle_bool_false). cbn [bind].
    replace (Qltb x dm) with true by (symmetry; now apply Qltb_true).
    apply IH; lia.
Qed.

Lemma cum_succ : forall areas i a, nth_error areas i = Some a -> cum areas (S i) == cum areas i + a.
Proof.
  induction areas as [| b areas IH]; intros i a H; [destruct i; discriminate |]. destruct i as [| i].
  - cbn in H. injection H as ->. cbn [cum]. destruct areas; cbn [cum]; lra.
  - cbn [nth_error] in H. change (cum (b :: areas) (S (S i))) with (b + cum areas (S i)).
    change (cum (b :: areas) (S i)) with (b + cum areas i). rewrite (IH i a H). lra.
Qed.

(* C38.  The position r0 * total falls in the interval of exactly one face i (for
   0 <= r0 < 1).  The search ends, never reads outside of the array, and passes on
   the right position inside of that interval; the face it samples is i when i is
   the first face or when the position is inside of the last one, and the face
   before i otherwise. *)
Theorem mesh_sample_face : forall areas r0 i a fuel, Forall (fun a => 0 <= a) areas ->
  (2 <= length areas)%nat -> nth_error areas i = Some a ->
  cum areas i <= r0 * total areas -> r0 * total areas < cum areas (S i) ->
  (length areas <= fuel)%nat ->
  exists k s, sample_face fuel (get_densities_array areas) r0 = Ok (k, s) /\
    s == (r0 * total areas - cum areas i) / a /\ 0 <= s < 1 /\
    (k = Z.of_nat i <-> i = 0%nat \/ (S i = length areas /\ cum areas i < r0 * total areas)) /\
    (k = Z.of_nat i \/ k = Z.of_nat i - 1)%Z.
Proof.
  intros areas r0 i a fuel F L2 Ni X1 X2 Hf.
  assert (Li : (i < length areas)%nat) by (apply nth_error_Some; congruence).
  pose proof (cum_succ areas i a Ni) as CS.
  assert (Ha : 0 < a) by lra.
  destruct (length areas) as [| n] eqn:L; [lia |].
  unfold sample_face. rewrite gda_len, L.
  replace (Z.of_nat (S n) - 1)%Z with (Z.of_nat n) by lia.
  destruct (dget_ok areas n) as (tv & Et & Vt); [lia |]. rewrite Et. cbn [bind]. cbv zeta.
  assert (VT : tv == total areas) by (unfold total; rewrite L; exact Vt).
  set (x := lerp r0 0 tv). assert (Vx : x == r0 * total areas).
  { unfold x, lerp. rewrite VT. ring. }
  clearbody x. set (X := r0 * total areas) in *. clearbody X.
  destruct (dget_ok areas 0) as (d0 & E0 & V0); [lia |]. cbn [Z.of_nat] in E0. rewrite E0. cbn [bind].
  assert (RANGE : forall s, s == (X - cum areas i) / a -> 0 <= s < 1).
  { intros s Es. rewrite Es. split.
    - apply Qle_shift_div_l; [exact Ha |]. lra.
    - apply Qlt_shift_div_r; [exact Ha |]. lra. }
  destruct (Qltb x d0) eqn:C0.
  { apply Qltb_true in C0. rewrite V0, Vx in C0.
    assert (i = 0%nat).
    { destruct i as [| i]; [reflexivity |]. pose proof (cum_mono areas 1 (S i) F ltac:(lia)). lra. }
    subst i. exists 0%Z, (inverse_lerp x 0 d0). split; [reflexivity |].
    assert (C : cum areas 0 == 0) by (destruct areas; cbn; lra).
    assert (Es : inverse_lerp x 0 d0 == (X - cum areas 0) / a).
    { unfold inverse_lerp. rewrite V0, Vx, CS, C. apply Qdiv_comp; lra. }
    split; [exact Es |]. split; [now apply RANGE |]. split; [| left; reflexivity]. split; auto. }
  apply Qltb_false in C0. rewrite V0, Vx in C0.
  assert (Hi : (1 <= i)%nat).
  { destruct i as [| i]; [| lia]. lra. }
  replace (Z.of_nat n - 1)%Z with (Z.of_nat (n - 1)) by lia.
  destruct (dget_ok areas (n - 1)) as (dl & El & Vl); [lia |]. rewrite El. cbn [bind].
  replace (S (n - 1)) with n in Vl by lia.
  destruct (Qltb dl x) eqn:C1.
  { apply Qltb_true in C1. rewrite Vl, Vx in C1.
    assert (i = n).
    { destruct (Nat.eq_dec i n) as [E | E]; [exact E |]. exfalso.
      pose proof (cum_mono areas (S i) n F ltac:(lia)). lra. }
    subst i. exists (Z.of_nat n), (inverse_lerp (x - dl) 0 (tv - dl)). split; [reflexivity |].
    assert (Es : inverse_lerp (x - dl) 0 (tv - dl) == (X - cum areas n) / a).
    { unfold inverse_lerp. rewrite Vl, Vt, Vx, CS. apply Qdiv_comp; lra. }
    split; [exact Es |]. split; [now apply RANGE |]. split; [| left; reflexivity]. split; auto. }
  apply Qltb_false in C1. rewrite Vl, Vx in C1.
  rewrite (search_ok areas x i n F L Hi) with (s := 0%nat) (e := n); try lia; try (rewrite Vx; assumption).
  cbn [bind].
  destruct (dget_ok areas (i - 1)) as (dm & Em & Vm); [lia |]. rewrite Em. cbn [bind].
  destruct (dget_ok areas i) as (dn & En & Vn); [lia |].
  replace (Z.of_nat (i - 1) + 1)%Z with (Z.of_nat i) by lia. rewrite En. cbn [bind].
  replace (S (i - 1)) with i in Vm by lia.
  eexists _, _. split; [reflexivity |].
  assert (Es : inverse_lerp (x - dm) 0 (dn - dm) == (X - cum areas i) / a).
  { unfold inverse_lerp. rewrite Vm, Vn, Vx, CS. apply Qdiv_comp; lra. }
  split; [exact Es |]. split; [now apply RANGE |]. split; [| right; lia]. split; [lia |].
  intros [E | [E G]]; [lia |]. assert (i = n) by lia. subst i. lra.
Qed.
Print Assumptions mesh_sample_face.

Example mesh_sample_face_ex :
  sample_face 4 (get_densities_array [1; 2; 1; 4]) (1 # 16) = Ok (0%Z, inverse_lerp (lerp (1 # 16) 0 8) 0 1) /\
  (exists s, sample_face 4 (get_densities_array [1; 2; 1; 4]) (1 # 4) = Ok (0%Z, s) /\ s == 1 # 2).
Proof. split; [reflexivity |]. eexists. split; reflexivity. Qed.

(* The property itself is false: a position inside of any face that is neither the
   first nor the last is answered with a point of the face before it. *)
Theorem mesh_sample_face_refuted : forall areas r0 i a fuel, Forall (fun a => 0 <= a) areas ->
  nth_error areas i = Some a -> (1 <= i)%nat -> (S i < length areas)%nat ->
  cum areas i <= r0 * total areas -> r0 * total areas < cum areas (S i) -> (length areas <= fuel)%nat ->
  exists s, sample_face fuel (get_densities_array areas) r0 = Ok ((Z.of_nat i - 1)%Z, s).
Proof.
  intros areas r0 i a fuel F Ni H1 H2 X1 X2 Hf.
  destruct (mesh_sample_face areas r0 i a fuel F ltac:(lia) Ni X1 X2 Hf) as (k & s & E & _ & _ & Hk & [K | K]).
  - apply Hk in K. lia.
  - exists s. now rewrite <- K.
Qed.
Print Assumptions mesh_sample_face_refuted.

(* A mesh of one triangle sampled at its end (r0 = 1, which the random number
   generator can return) reads before the array. *)
Theorem mesh_sample_single_refuted : forall a r0 fuel, a <= r0 * a ->
  sample_face fuel (get_densities_array [a]) r0 = UB.
Proof.
  intros a r0 fuel H. unfold sample_face, get_densities_array. cbn [densities_from length Z.of_nat].
  change (dget [0 + a] (Z.pos (Pos.of_succ_nat 0) - 1)) with (Ok (0 + a)). cbn [bind].
  change (dget [0 + a] 0) with (Ok (0 + a)). cbn [bind].
  assert (Q : Qltb (lerp r0 0 (0 + a)) (0 + a) = false).
  { apply Qltb_false. unfold lerp. lra. }
  rewrite Q. reflexivity.
Qed.
Print Assumptions mesh_sample_single_refuted.

(* When the last faces have no area, sampling the very end never returns. *)
Theorem mesh_sample_diverges_refuted : forall areas a r0 fuel, Forall (fun a => 0 <= a) areas -> areas <> [] ->
  a == 0 -> r0 * total (areas ++ [a]) == total (areas ++ [a]) ->
  sample_face fuel (get_densities_array (areas ++ [a])) r0 = OutOfFuel.
Proof.
  intros areas a r0 fuel F NE Ha Hr. set (l := areas ++ [a]) in *.
  assert (Fl : Forall (fun a => 0 <= a) l) by (apply Forall_app; split; auto; constructor; auto; lra).
  assert (Ll : length l = S (length areas)) by (unfold l; rewrite app_length; cbn; lia).
  set (n := length areas) in *. assert (Hn : (1 <= n)%nat) by (unfold n; destruct areas; [congruence | cbn; lia]).
  assert (Cn : cum l (S n) == cum l n).
  { rewrite (cum_succ l n a); [lra |]. unfold l, n. rewrite nth_error_app2 by lia. now rewrite Nat.sub_diag. }
  assert (T : total l == cum l n) by (unfold total; rewrite Ll; exact Cn).
  unfold sample_face. rewrite gda_len, Ll.
  replace (Z.of_nat (S n) - 1)%Z with (Z.of_nat n) by lia.
  destruct (dget_ok l n) as (tv & Et & Vt); [lia |]. rewrite Et. cbn [bind]. cbv zeta.
  set (x := lerp r0 0 tv). assert (Vx : x == cum l n).
  { unfold x, lerp. rewrite Vt, Cn, <- T. rewrite <- Hr at 2. ring. }
  clearbody x.
  destruct (dget_ok l 0) as (d0 & E0 & V0); [lia |]. cbn [Z.of_nat] in E0. rewrite E0. cbn [bind].
  replace (Qltb x d0) with false by (symmetry; apply Qltb_false; rewrite V0, Vx; apply cum_mono; auto).
  replace (Z.of_nat n - 1)%Z with (Z.of_nat (n - 1)) by lia.
  destruct (dget_ok l (n - 1)) as (dl & El & Vl); [lia |]. rewrite El. cbn [bind].
  replace (S (n - 1)) with n in Vl by lia.
  replace (Qltb dl x) with false by (symmetry; apply Qltb_false; rewrite Vl, Vx; lra).
  assert (G : forall fuel s, (s < n)%nat -> search fuel (get_densities_array l) x (Z.of_nat s) (Z.of_nat n) = OutOfFuel).
  { clear fuel. induction fuel as [| fuel IH]; intros s Hs; [reflexivity |]. cbn [search].
    set (mid := ((s + n) / 2)%nat).
    assert (M : ((Z.of_nat s + Z.of_nat n) / 2)%Z = Z.of_nat mid) by (unfold mid; rewrite Nat2Z.inj_div, Nat2Z.inj_add; reflexivity).
    rewrite M. assert (Mb : (mid < n)%nat).
    { unfold mid. pose proof (Nat.div_mod_eq (s + n) 2). pose proof (Nat.mod_upper_bound (s + n) 2). lia. }
    destruct (dget_ok l mid) as (dm & Em & Vm); [lia |]. rewrite Em. cbn [bind].
    destruct (dget_ok l (S mid)) as (dn & En & Vn); [lia |].
    replace (Z.of_nat mid + 1)%Z with (Z.of_nat (S mid)) by lia.
    assert (B1 : dm <= x) by (rewrite Vm, Vx; apply cum_mono; auto).
    assert (B2 : dn <= x).
    { rewrite Vn, Vx, <- Cn. apply cum_mono; auto. lia. }
    replace (Qle_bool dm x) with true by (symmetry; now apply Qle_bool_iff). rewrite En. cbn [bind].
    replace (Qltb x dn) with false by (symmetry; now apply Qltb_false).
    replace (Qltb x dm) with false by (symmetry; now apply Qltb_false).
    apply IH. exact Mb. }
  change 0%Z with (Z.of_nat 0). rewrite (G fuel 0%nat) by lia. reflexivity.
Qed.
Print Assumptions mesh_sample_diverges_refuted.

Example mesh_sample_diverges_ex : forall fuel, sample_face fuel (get_densities_array [1; 2; 0]) 1 = OutOfFuel.
Proof.
  intros fuel. apply (mesh_sample_diverges_refuted [1; 2] 0 1 fuel); try reflexivity; try discriminate.
  repeat constructor; discriminate.
Qed.
