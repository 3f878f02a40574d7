(* C30: bookkeeping of the scene. *)
From Verif Require Import Common KdAddModel KdAddProps SceneModel.
Local Open Scope N_scope.

(* Objects created before the pool of identifiers wraps around. *)
Definition numbered (o : scene_op) : Prop :=
  match o with InheritShape n | InheritAsset n | InheritLight n => 1 <= n < 2 ^ 32 end.

(* How many times an asset is handed over with inherit_asset. *)
Fixpoint times (n : N) (ops : list scene_op) : nat :=
  match ops with
  | InheritAsset m :: ops => ((if N.eq_dec m n then 1 else 0) + times n ops)%nat
  | _ :: ops => times n ops
  | [] => 0%nat
  end.

Lemma times_app : forall n a b, times n (a ++ b) = (times n a + times n b)%nat.
Proof. induction a as [| [m | m | m] a IH]; intros b; cbn [times app]; rewrite ?IH; lia. Qed.

Lemma times_In : forall n ops, In (InheritAsset n) ops <-> (0 < times n ops)%nat.
Proof.
  induction ops as [| [m | m | m] ops IH]; cbn [times In]; [lia | | |].
  - rewrite <- IH. intuition congruence.
  - destruct (N.eq_dec m n); subst; [intuition lia |]. cbn [Nat.add]. rewrite <- IH. intuition congruence.
  - rewrite <- IH. intuition congruence.
Qed.

Lemma obj_id_small : forall n, 1 <= n < 2 ^ 32 -> obj_id n = n.
Proof. intros n H. unfold obj_id, u32. apply N.mod_small. lia. Qed.

Definition diag (m : idmap) : Prop := Forall (fun p => fst p = snd p) m.

Lemma find_None : forall m n, diag m -> find_id m n = None <-> ~ In n (map snd m).
Proof.
  induction m as [| [k v] m IH]; intros n D; cbn [find_id map In fst snd]; [intuition |].
  inversion_clear D as [| ? ? E D']. cbn [fst snd] in E. subst k.
  destruct (N.eqb_spec v n); [subst; intuition congruence |]. rewrite IH by auto. intuition.
Qed.

Lemma insert_spec : forall m n, diag m -> 1 <= n < 2 ^ 32 -> NoDup (map snd m) ->
  exists m' b, insert_id m (obj_id n) n = (m', b) /\ diag m' /\ NoDup (map snd m') /\
    (forall x, In x (map snd m') <-> In x (map snd m) \/ x = n) /\
    (b = true <-> ~ In n (map snd m)).
Proof.
  intros m n D H ND. rewrite obj_id_small by auto. unfold insert_id.
  destruct (find_id m n) eqn:F.
  - exists m, false. assert (X : In n (map snd m)).
    { destruct (in_dec N.eq_dec n (map snd m)) as [I | I]; [exact I |].
      apply find_None in I; [congruence | exact D]. }
    repeat split; auto; intros; try congruence; try tauto. intuition congruence.
  - apply find_None in F; auto. exists ((n, n) :: m), true. repeat split; auto.
    + constructor; auto.
    + cbn [map snd]. constructor; auto.
    + cbn [map snd In]. intuition.
    + cbn [map snd In]. intuition.
Qed.

Lemma existsb_N : forall n l, existsb (N.eqb n) l = true <-> In n l.
Proof.
  intros n l. rewrite existsb_exists. split.
  - intros (x & I & E). apply N.eqb_eq in E. now subst.
  - intros I. exists n. split; auto. apply N.eqb_refl.
Qed.

Lemma delete_nodup : forall l f, NoDup l -> (forall x, In x l -> ~ In x f) -> delete_all l f = Ok (rev l ++ f).
Proof.
  induction l as [| n l IH]; intros f ND H; cbn [delete_all rev app]; [reflexivity |].
  inversion_clear ND as [| ? ? N1 N2].
  destruct (existsb (N.eqb n) f) eqn:E.
  - apply existsb_N in E. exfalso. apply (H n); auto. now left.
  - rewrite IH; auto; [now rewrite <- app_assoc |].
    intros x I [-> | I2]; [auto |]. apply (H x); auto. now right.
Qed.

Record scene_inv (ops : list scene_op) (s : scene) : Prop := {
  si_diag1 : diag (sc_shapes s);
  si_diag2 : diag (sc_assets s);
  si_nd1 : NoDup (map snd (sc_shapes s));
  si_nd2 : NoDup (map snd (sc_assets s));
  si_nd3 : NoDup (sc_lights s);
  si_shapes : forall n, In n (map snd (sc_shapes s)) <-> In (InheritShape n) ops;
  si_assets : forall n, In n (map snd (sc_assets s)) <-> In (InheritAsset n) ops \/ In n (sc_lights s);
  si_cap : (length (sc_lights s) <= max_lights)%nat;
  si_lights : forall n, In n (sc_lights s) -> In (InheritLight n) ops;
  si_reject : forall n pre post, ops = pre ++ InheritLight n :: post -> ~ In n (sc_lights s) ->
    length (sc_lights s) = max_lights \/ In (InheritAsset n) pre;
  si_kd : forall n, count_occ N.eq_dec (kb_assets (sc_kd s)) n = (times n ops + count_occ N.eq_dec (sc_lights s) n)%nat;
  si_kdinv : kb_inv (sc_kd s);
  si_kdlen : (length (kb_assets (sc_kd s)) <= length ops)%nat }.

Lemma snoc_split : forall A (l pre post : list A) x y, l ++ [x] = pre ++ y :: post ->
  (post = [] /\ pre = l /\ y = x) \/ (exists q, post = q ++ [x] /\ l = pre ++ y :: q).
Proof.
  intros A l pre post x y. destruct post as [| z q _] using rev_ind; intros E.
  - apply app_inj_tail in E. destruct E as [-> ->]. now left.
  - right. exists q. rewrite app_comm_cons, app_assoc in E. apply app_inj_tail in E. destruct E as [E ->]. auto.
Qed.

Ltac sz := rewrite ?app_length; cbn [length]; lia.

Lemma scene_step_inv : forall ops s o, scene_inv ops s -> numbered o ->
  (Z.of_nat (length ops) < max_assets)%Z ->
  exists s', scene_step s o = Ok s' /\ scene_inv (ops ++ [o]) s'.
Proof.
  intros ops s o I R L. destruct I as [D1 D2 N1 N2 N3 S1 S2 C1 C2 C3 K1 K2 K3].
  destruct o as [n | n | n]; cbn [numbered] in R; cbn [scene_step].
  - destruct (insert_spec (sc_shapes s) n D1 R N1) as (m & b & E & Dm & Nm & Im & _). rewrite E.
    eexists. split; [reflexivity |]. constructor; cbn [sc_shapes sc_assets sc_lights sc_kd]; auto.
    + intros x. rewrite Im, S1, in_app_iff. cbn [In]. intuition congruence.
    + intros x. rewrite S2, in_app_iff. cbn [In]. intuition congruence.
    + intros x H. apply in_app_iff. auto.
    + intros x pre post H1 H2. apply snoc_split in H1.
      destruct H1 as [(_ & _ & H1) | (q & _ & H1)]; [discriminate |]. eauto.
    + intros x. rewrite times_app. cbn [times]. rewrite K1. lia.
    + sz.
  - destruct (insert_spec (sc_assets s) n D2 R N2) as (m & b & E & Dm & Nm & Im & _). rewrite E.
    destruct (addAsset_ok N (sc_kd s) n K2) as (k & Ek & Lk & Ik); [lia |]. rewrite Ek. cbn [bind].
    eexists. split; [reflexivity |]. constructor; cbn [sc_shapes sc_assets sc_lights sc_kd]; auto.
    + intros x. rewrite S1, in_app_iff. cbn [In]. intuition congruence.
    + intros x. rewrite Im, S2, in_app_iff. cbn [In]. intuition congruence.
    + intros x H. apply in_app_iff. auto.
    + intros x pre post H1 H2. apply snoc_split in H1.
      destruct H1 as [(_ & _ & H1) | (q & _ & H1)]; [discriminate |]. eauto.
    + intros x. rewrite times_app, Lk, count_occ_app, K1. cbn [times count_occ]. destruct (N.eq_dec n x); lia.
    + rewrite Lk. sz.
  - destruct (Nat.ltb_spec (length (sc_lights s)) max_lights) as [Hl | Hl].
    + destruct (insert_spec (sc_assets s) n D2 R N2) as (m & b & E & Dm & Nm & Im & Bm). rewrite E.
      destruct b.
      * destruct (addAsset_ok N (sc_kd s) n K2) as (k & Ek & Lk & Ik); [lia |]. rewrite Ek. cbn [bind].
        assert (Hn : ~ In n (map snd (sc_assets s))) by (apply Bm; reflexivity).
        assert (Hn2 : ~ In n (sc_lights s)) by (intro X; apply Hn, S2; auto).
        eexists. split; [reflexivity |]. constructor; cbn [sc_shapes sc_assets sc_lights sc_kd]; auto.
        -- pose proof (Add_app n (sc_lights s) []) as X. rewrite app_nil_r in X. now apply (NoDup_Add X).
        -- intros x. rewrite S1, in_app_iff. cbn [In]. intuition congruence.
        -- intros x. rewrite Im, S2, !in_app_iff. cbn [In]. intuition congruence.
        -- sz.
        -- intros x H. rewrite in_app_iff in *. cbn [In] in *. intuition (subst; auto).
        -- intros x pre post H1 H2. rewrite in_app_iff in H2. cbn [In] in H2. apply snoc_split in H1.
           destruct H1 as [(_ & _ & H1) | (q & _ & H1)]; [injection H1 as ->; tauto |].
           destruct (C3 x pre q H1) as [X | X]; [tauto | lia | auto].
        -- intros x. rewrite times_app, Lk, !count_occ_app, K1. cbn [times count_occ]. destruct (N.eq_dec n x); lia.
        -- rewrite Lk. sz.
      * assert (Hn : In n (map snd (sc_assets s))).
        { destruct (in_dec N.eq_dec n (map snd (sc_assets s))); auto. apply Bm in n0. discriminate. }
        eexists. split; [reflexivity |]. constructor; cbn [sc_shapes sc_assets sc_lights sc_kd]; auto.
        -- intros x. rewrite S1, in_app_iff. cbn [In]. intuition congruence.
        -- intros x. rewrite Im, in_app_iff. cbn [In].
           split; [intros [X | ->]; [apply S2 in X; tauto | apply S2 in Hn; tauto] |].
           intros [[X | [X | []]] | X]; [left; apply S2; auto | discriminate | left; apply S2; auto].
        -- intros x H. apply in_app_iff. auto.
        -- intros x pre post H1 H2. apply snoc_split in H1.
           destruct H1 as [(_ & H0 & H1) | (q & _ & H1)]; [| eauto].
           injection H1 as ->. subst pre. apply S2 in Hn. tauto.
        -- intros x. rewrite times_app. cbn [times]. rewrite K1. lia.
        -- sz.
    + eexists. split; [reflexivity |]. constructor; auto.
      * intros x. rewrite S1, in_app_iff. cbn [In]. intuition congruence.
      * intros x. rewrite S2, in_app_iff. cbn [In]. intuition congruence.
      * intros x H. apply in_app_iff. auto.
      * intros x pre post H1 H2. left. lia.
      * intros x. rewrite times_app. cbn [times]. rewrite K1. lia.
      * sz.
Qed.

Lemma scene_run_inv : forall ops done s, scene_inv done s -> Forall numbered ops ->
  (Z.of_nat (length done + length ops) <= max_assets)%Z ->
  exists s', scene_run s ops = Ok s' /\ scene_inv (done ++ ops) s'.
Proof.
  induction ops as [| o ops IH]; intros done s I F L; cbn [scene_run].
  - exists s. rewrite app_nil_r. auto.
  - inversion_clear F as [| ? ? F1 F2]. cbn [length] in L.
    destruct (scene_step_inv done s o I F1) as (s' & E & I'); [lia |]. rewrite E. cbn [bind].
    destruct (IH (done ++ [o]) s' I' F2) as (s2 & E2 & I2).
    + rewrite app_length. cbn [length]. lia.
    + exists s2. rewrite <- app_assoc in I2. auto.
Qed.

Lemma scene_new_inv : scene_inv [] scene_new.
Proof.
  constructor; cbn [scene_new sc_shapes sc_assets sc_lights sc_kd map]; try apply kd_empty_inv; try (constructor; fail);
    try (cbn; lia); try (cbn; intuition; fail).
  intros n pre post H. destruct pre; discriminate.
Qed.

(* C30.  For every sequence of at most 4096 inherit calls on any objects, in any
   order and with any repetitions: the destructor frees each accepted shape and
   asset exactly once; the sizes count them; the shapes are exactly those handed
   over; the assets are those handed over as assets and the stored lights; a light
   is refused only when the maximum is reached or when it had been handed over as
   a plain asset before; every light stored was handed over, once; an asset is in
   the acceleration structure iff the scene owns it. *)
Theorem scene_consistent : forall ops, Forall numbered ops -> (Z.of_nat (length ops) <= max_assets)%Z ->
  exists s shapes assets, scene_run scene_new ops = Ok s /\
    scene_delete s = Ok (shapes, assets) /\ NoDup shapes /\ NoDup assets /\
    size_shapes s = length shapes /\ size_assets s = length assets /\
    (forall n, In n shapes <-> In (InheritShape n) ops) /\
    (exists lights, NoDup lights /\ size_lights s = length lights /\ (length lights <= 32)%nat /\
      (forall i l, nth_error lights i = Some l -> get_light s i = Ok l) /\
      (forall n, In n lights -> In (InheritLight n) ops) /\
      (forall n pre post, ops = pre ++ InheritLight n :: post -> ~ In n lights ->
        length lights = 32%nat \/ In (InheritAsset n) pre) /\
      (forall n, In n assets <-> In (InheritAsset n) ops \/ In n lights) /\
      (forall n, count_occ N.eq_dec (kb_assets (sc_kd s)) n =
        (times n ops + count_occ N.eq_dec lights n)%nat)) /\
    (forall n, In n (kb_assets (sc_kd s)) <-> In n assets).
Proof.
  intros ops F L. destruct (scene_run_inv ops [] scene_new scene_new_inv F) as (s & E & I); [cbn [length]; lia |].
  cbn [app] in I. destruct I as [D1 D2 N1 N2 N3 S1 S2 C1 C2 C3 K1 K2 K3].
  exists s, (rev (map snd (sc_shapes s))), (rev (map snd (sc_assets s))).
  unfold scene_delete. rewrite !delete_nodup by auto. rewrite !app_nil_r. cbn [bind].
  rewrite !rev_length, !map_length. unfold size_shapes, size_assets.
  split; [exact E |]. split; [reflexivity |]. split; [now apply NoDup_rev |]. split; [now apply NoDup_rev |].
  split; [reflexivity |]. split; [reflexivity |].
  split; [intros n; rewrite <- in_rev; apply S1 |]. split.
  - exists (sc_lights s). unfold max_lights in *.
    repeat (split; [solve [auto | intros i l H; unfold get_light; now rewrite H | intros n; rewrite <- in_rev; apply S2] |]).
    exact K1.
  - intros n. rewrite <- in_rev, S2. rewrite (count_occ_In N.eq_dec), K1, times_In.
    rewrite (count_occ_In N.eq_dec (sc_lights s)). lia.
Qed.
Print Assumptions scene_consistent.

Example scene_consistent_ex :
  exists s, scene_run scene_new [InheritShape 1; InheritAsset 1; InheritShape 1; InheritLight 2; InheritLight 1; InheritLight 2] = Ok s /\
    size_shapes s = 1%nat /\ size_assets s = 2%nat /\ size_lights s = 1%nat /\ kb_assets (sc_kd s) = [1; 2].
Proof. exists (mk_scene [(1, 1)] [(2, 2); (1, 1)] [2] (mk_kdbuf [1; 2] 2%Z)). split; [reflexivity |]. repeat split. Qed.

(* An asset handed over twice is kept twice in the acceleration structure. *)
Theorem scene_repeated_asset_refuted : forall n, 1 <= n < 2 ^ 32 ->
  exists s, scene_run scene_new [InheritAsset n; InheritAsset n] = Ok s /\
    size_assets s = 1%nat /\ kb_assets (sc_kd s) = [n; n].
Proof.
  intros n H. unfold scene_run, scene_step. cbn [scene_new sc_assets sc_shapes sc_lights sc_kd].
  unfold insert_id at 1. cbn [find_id]. unfold addAsset at 1. cbn [kd_empty kb_assets kb_alloc length].
  rewrite obj_id_small by auto. unfold max_assets. cbn -[N.eqb].
  unfold insert_id. cbn [find_id sc_assets]. rewrite N.eqb_refl.
  eexists. split; [reflexivity |]. split; reflexivity.
Qed.
Print Assumptions scene_repeated_asset_refuted.

(* When 2^32 assets were created the identifiers repeat and the second asset is
   traced but never freed. *)
Theorem scene_id_wrap_refuted : forall n, 1 <= n < 2 ^ 32 ->
  exists s, scene_run scene_new [InheritAsset n; InheritAsset (n + 2 ^ 32)] = Ok s /\
    scene_delete s = Ok ([], [n]) /\ kb_assets (sc_kd s) = [n; n + 2 ^ 32].
Proof.
  intros n H. unfold scene_run, scene_step. cbn [scene_new sc_assets sc_shapes sc_lights sc_kd].
  assert (E : obj_id (n + 2 ^ 32) = n).
  { unfold obj_id, u32. rewrite <- (N.mul_1_l (2 ^ 32)) at 1. rewrite N.mod_add by discriminate. apply N.mod_small. lia. }
  unfold insert_id at 1. cbn [find_id]. rewrite E, obj_id_small by auto. unfold insert_id.
  unfold addAsset at 1. cbn [kd_empty kb_assets kb_alloc length app Z.of_nat Z.eqb].
  unfold max_assets. cbn [Z.shiftl Z.min Z.ltb bind sc_assets find_id]. unfold Z.ltb at 1. cbn -[N.eqb N.add N.pow].
  rewrite N.eqb_refl. cbn -[N.eqb N.add N.pow].
  eexists. split; [reflexivity |]. split; reflexivity.
Qed.
Print Assumptions scene_id_wrap_refuted.

(* The limit on the assets is not enforced by the scene either. *)
Theorem scene_too_many_assets_refuted : forall ns, Forall (fun n => 1 <= n < 2 ^ 32) ns -> NoDup ns ->
  (max_assets < Z.of_nat (length ns))%Z -> scene_run scene_new (map InheritAsset ns) = UB.
Proof.
  assert (G : forall ns s, kb_inv (sc_kd s) ->
    (max_assets < Z.of_nat (length (kb_assets (sc_kd s))) + Z.of_nat (length ns))%Z ->
    scene_run s (map InheritAsset ns) = UB).
  { induction ns as [| n ns IH]; intros s I L; cbn [map scene_run length] in *.
    - destruct I. lia.
    - cbn [scene_step]. destruct (insert_id (sc_assets s) (obj_id n) n) as [m b].
      destruct (Z.eq_dec (Z.of_nat (length (kb_assets (sc_kd s)))) max_assets) as [E | E].
      + rewrite addAsset_full by auto. reflexivity.
      + destruct (addAsset_ok N (sc_kd s) n I) as (k & Ek & Lk & Ik); [destruct I; lia |].
        rewrite Ek. cbn [bind]. apply IH; cbn [sc_kd]; auto. rewrite Lk, app_length. cbn [length]. lia. }
  intros ns _ _ L. apply G; [apply kd_empty_inv |]. cbn [scene_new sc_kd kd_empty kb_assets length]. lia.
Qed.
Print Assumptions scene_too_many_assets_refuted.
