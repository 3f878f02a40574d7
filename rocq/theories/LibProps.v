(* C31: the material and texture libraries. *)
From Coq Require Import String Permutation.
From Verif Require Import Common LibModel LibSpec LibProofs.
Local Open Scope N_scope.

Definition mtl_hist (o : mtl_op) : lib_op :=
  match o with MAdd k p => Add k p | MErase k => Erase k | MClear => Clear end.

(* the objects handed to the library *)
Fixpoint mtl_given (ops : list mtl_op) : list N :=
  match ops with
  | MAdd _ p :: ops => p :: mtl_given ops
  | _ :: ops => mtl_given ops
  | [] => []
  end.

Lemma mtl_given_app : forall a b, mtl_given (a ++ b) = mtl_given a ++ mtl_given b.
Proof. induction a as [| [k p | k |] a IH]; intros b; cbn [mtl_given app]; rewrite ?IH; auto. Qed.

Record mtl_inv (d : N) (ops : list mtl_op) (l : mtllib) : Prop := {
  mi_keys : keys_ok (ml_lib l);
  mi_dflt : lookup (ml_lib l) default_name = Some d;
  mi_dflt2 : ml_default l = d;
  mi_agree : forall k, k <> default_name -> agrees (map mtl_hist ops) (ml_lib l) k;
  mi_owned : owned (map snd (ml_lib l)) (ml_freed l) (d :: mtl_given ops) }.

Definition moves (h f h' f' : list N) : Prop := incl f f' /\ incl h (h' ++ f') /\ incl f' (f ++ h).

Lemma moves_same : forall h f, moves h f h f.
Proof. intros h f. split; [apply incl_refl |]. split; [apply incl_appl, incl_refl | apply incl_appl, incl_refl]. Qed.

Lemma moves_one : forall x p y f, moves (x ++ p :: y) f (x ++ y) (p :: f).
Proof.
  intros x p y f. split; [intros z Hz; now right |]. split; intros z Hz; rewrite !in_app_iff in *; cbn [In] in *;
    rewrite ?in_app_iff in *; cbn [In] in *; tauto.
Qed.

Lemma mtl_step_ok : forall d ops l o, mtl_inv d ops l -> NoDup (d :: mtl_given (ops ++ [o])) ->
  exists l', mtl_step l o = Ok l' /\ mtl_inv d (ops ++ [o]) l' /\
    moves (map snd (ml_lib l)) (ml_freed l) (map snd (ml_lib l')) (ml_freed l').
Proof.
  intros d ops l o [K D D2 A O] ND. rewrite mtl_given_app in ND.
  destruct o as [k p | k |]; cbn [mtl_step mtl_given] in *.
  - eexists. split; [reflexivity |]. split.
    + constructor; cbn [ml_lib ml_default ml_freed]; auto.
      * now apply insert_keys.
      * now rewrite lookup_insert, D.
      * intros k' N. rewrite map_app. cbn [map mtl_hist]. eapply agrees_step; [apply A, N | reflexivity].
      * rewrite mtl_given_app. cbn [mtl_given]. destruct (insert_vals (ml_lib l) k p) as [E | E]; rewrite E.
        -- eapply owned_incl; [exact O |]. intros z Hz. destruct Hz as [-> | Hz]; [now left | right; apply in_app_iff; auto].
        -- eapply owned_incl; [apply (owned_add _ _ _ p O) |].
           ++ intros I. inversion_clear ND as [| ? ? N1 N2]. destruct I as [<- | I].
              ** apply N1, in_app_iff. right. now left.
              ** apply NoDup_remove_2 in N2. apply N2. rewrite app_nil_r. exact I.
           ++ intros z [-> | [-> | Hz]]; [right; apply in_app_iff; right; now left | now left | right; apply in_app_iff; auto].
    + cbn [ml_lib ml_freed]. destruct (insert_vals (ml_lib l) k p) as [E | E]; rewrite E; [apply moves_same |].
      split; [apply incl_refl |]. split; [intros z Hz; right; apply in_app_iff; auto | apply incl_appl, incl_refl].
  - rewrite app_nil_r in ND. destruct (String.eqb_spec k default_name) as [-> | Nk].
    + eexists. split; [reflexivity |]. split; [| apply moves_same]. constructor; auto.
      * intros k' N. rewrite map_app. cbn [map mtl_hist]. eapply agrees_step; [apply A, N |]. cbn [map_step].
        rewrite lookup_remove. destruct (String.eqb_spec default_name k'); congruence.
      * rewrite mtl_given_app, app_nil_r. exact O.
    + unfold erase_key. destruct (lookup (ml_lib l) k) as [p |] eqn:L.
      * destruct (remove_vals _ _ _ L K) as (x & y & E1 & E2). rewrite E1 in O. apply owned_remove in O.
        destruct O as [O NI]. rewrite delete_ok by exact NI. cbn [bind]. eexists. split; [reflexivity |].
        cbn [ml_lib ml_freed]. split; [| rewrite E1, E2; apply moves_one].
        constructor; cbn [ml_lib ml_default ml_freed]; auto.
        -- now apply remove_keys.
        -- rewrite lookup_remove. destruct (String.eqb_spec k default_name); congruence.
        -- intros k' N. rewrite map_app. cbn [map mtl_hist]. eapply agrees_step; [apply A, N | reflexivity].
        -- rewrite mtl_given_app, app_nil_r, E2. exact O.
      * eexists. split; [reflexivity |]. split; [| apply moves_same]. constructor; cbn [ml_lib ml_default ml_freed]; auto.
        -- intros k' N. rewrite map_app. cbn [map mtl_hist]. eapply agrees_step; [apply A, N |]. cbn [map_step].
           rewrite lookup_remove. destruct (String.eqb_spec k k'); congruence.
        -- rewrite mtl_given_app, app_nil_r. exact O.
  - rewrite D. destruct (remove_vals _ _ _ D K) as (x & y & E1 & E2). rewrite E2. rewrite E1 in O.
    rewrite app_nil_r in ND.
    assert (P : Permutation ((x ++ d :: y) ++ ml_freed l) ([d] ++ rev (x ++ y) ++ ml_freed l)).
    { cbn [app]. rewrite <- Permutation_middle. cbn [app]. rewrite <- Permutation_rev. reflexivity. }
    pose proof (owned_perm _ _ _ _ _ O P) as O'.
    rewrite deletes_ok.
    2: { destruct O as [O _]. rewrite <- app_assoc in O. cbn [app] in O. apply NoDup_remove_1 in O. now rewrite <- app_assoc. }
    cbn [bind]. eexists. split; [reflexivity |].
    assert (E3 : map snd (insert [] default_name d) = [d]) by reflexivity.
    split.
    + constructor; cbn [ml_lib ml_default ml_freed]; auto.
      * apply insert_keys. constructor.
      * intros k' N. rewrite map_app. cbn [map mtl_hist]. eapply agrees_step; [apply A, N |]. cbn [map_step].
        rewrite lookup_insert. cbn [lookup]. destruct (String.eqb_spec default_name k'); congruence.
      * rewrite mtl_given_app, app_nil_r. exact O'.
    + cbn [ml_lib ml_freed]. rewrite E3, E1. split; [apply incl_appr, incl_refl |].
      split; intros z Hz; rewrite ?in_app_iff in *; cbn [In app] in *; rewrite ?in_app_iff, <- ?in_rev, ?in_app_iff in *; tauto.
Qed.

Lemma mtl_new_inv : forall d, mtl_inv d [] (mtl_new d).
Proof.
  intros d. constructor; cbn [mtl_new ml_lib ml_default ml_freed map]; auto.
  - constructor; [intros [] | constructor].
  - intros k N p. cbn [lookup]. destruct (String.eqb_spec default_name k); [congruence |]. apply agrees_nil.
  - split; cbn; [constructor; [intros [] | constructor] | apply incl_refl].
Qed.

Lemma mtl_run_app : forall a b l, mtl_run l (a ++ b) = let! l := mtl_run l a in mtl_run l b.
Proof.
  induction a as [| o a IH]; intros b l; cbn [mtl_run app]; [reflexivity |].
  destruct (mtl_step l o); cbn [bind]; auto.
Qed.

Lemma NoDup_app_l : forall A (a b : list A), NoDup (a ++ b) -> NoDup a.
Proof.
  induction a as [| x a IH]; intros b H; [constructor |]. cbn [app] in H. inversion_clear H as [| ? ? H1 H2].
  constructor; [intros I; apply H1, in_app_iff; auto | eauto].
Qed.

Lemma mtl_given_prefix : forall d ops o, NoDup (d :: mtl_given (ops ++ [o])) -> NoDup (d :: mtl_given ops).
Proof. intros d ops o H. rewrite mtl_given_app, app_comm_cons in H. now apply NoDup_app_l in H. Qed.

Lemma mtl_run_inv : forall d ops, NoDup (d :: mtl_given ops) ->
  exists l, mtl_run (mtl_new d) ops = Ok l /\ mtl_inv d ops l.
Proof.
  intros d ops. induction ops as [| o ops IH] using rev_ind; intros ND.
  - exists (mtl_new d). split; [reflexivity | apply mtl_new_inv].
  - destruct IH as (l & E & I); [eapply mtl_given_prefix; eauto |].
    destruct (mtl_step_ok d ops l o I ND) as (l' & E' & I' & _). exists l'. split; [| exact I'].
    rewrite mtl_run_app, E. cbn [bind mtl_run]. now rewrite E'.
Qed.

(* an object the library holds after a history *)
Definition mtl_holds (d : N) (ops : list mtl_op) (p : N) : Prop :=
  p = d \/ exists k, k <> default_name /\ stored (map mtl_hist ops) k p.

Lemma mtl_inv_holds : forall d ops l p, mtl_inv d ops l -> (In p (map snd (ml_lib l)) <-> mtl_holds d ops p).
Proof.
  intros d ops l p [K D D2 A O]. rewrite in_map_iff. split.
  - intros ([k v] & E & I). cbn [snd] in E. subst v. apply In_lookup in I; auto.
    destruct (string_dec k default_name) as [-> | N]; [left; congruence |]. right. exists k. split; auto. now apply A.
  - intros [-> | (k & N & S2)].
    + exists (default_name, d). split; auto. now apply lookup_In.
    + exists (k, p). split; auto. apply lookup_In. now apply A.
Qed.

(* C31, materials.  Whatever the operations, on objects handed over once each:
   nothing is freed twice; a name gives the object first registered under it since
   the name was last erased; the default material is always present and never
   freed; what is freed is exactly what was held once and is not any more (so an
   object that can be looked up is never a freed one). *)
Theorem mtl_library_is_a_map : forall d ops, NoDup (d :: mtl_given ops) ->
  exists l, mtl_run (mtl_new d) ops = Ok l /\
    mtl_get l default_name = Some d /\ mtl_get_default l = d /\ mtl_contains l default_name = true /\
    (forall k, k <> default_name ->
      (forall p, mtl_get l k = Some p <-> stored (map mtl_hist ops) k p) /\
      (mtl_contains l k = true <-> exists p, stored (map mtl_hist ops) k p)) /\
    NoDup (ml_freed l) /\
    (forall p, In p (ml_freed l) <->
      (exists pre post, ops = pre ++ post /\ mtl_holds d pre p) /\ ~ mtl_holds d ops p).
Proof.
  intros d ops ND. destruct (mtl_run_inv d ops ND) as (l & E & I). exists l.
  pose proof I as [K D D2 A O]. unfold mtl_get, mtl_contains, mtl_get_default. rewrite D.
  split; [exact E |]. split; [reflexivity |]. split; [exact D2 |]. split; [reflexivity |]. split; [| split].
  - intros k N. split; [apply (A k N) |]. destruct (lookup (ml_lib l) k) as [p |] eqn:L.
    + split; [intros _; exists p; now apply (A k N) | reflexivity].
    + split; [discriminate |]. intros [p S2]. apply (A k N) in S2. congruence.
  - destruct O as [O _]. rewrite Permutation_app_comm in O. now apply NoDup_app_l in O.
  - intros p.
    pose proof (freed_iff mtl_op mtllib
      (fun ops s => NoDup (d :: mtl_given ops) /\ mtl_run (mtl_new d) ops = Ok s)
      (fun s => map snd (ml_lib s)) ml_freed) as X.
    assert (Y : forall ops s, NoDup (d :: mtl_given ops) /\ mtl_run (mtl_new d) ops = Ok s -> mtl_inv d ops s).
    { intros ops' s [N R]. destruct (mtl_run_inv d ops' N) as (s' & R' & I'). congruence. }
    rewrite X with (ops := ops); clear X.
    + rewrite (mtl_inv_holds d ops l p I). split; intros [H N]; split; auto.
      * destruct H as (pre & post & s0 & Ep & R0 & I0). exists pre, post. split; auto.
        apply (mtl_inv_holds d pre s0); auto.
      * destruct H as (pre & post & Ep & H). subst ops.
        assert (N0 : NoDup (d :: mtl_given pre)).
        { rewrite mtl_given_app, app_comm_cons in ND. now apply NoDup_app_l in ND. }
        destruct (mtl_run_inv d pre N0) as (s0 & R0 & I0). exists pre, post, s0. split; auto. split; auto.
        apply (mtl_inv_holds d pre s0); auto.
    + intros s [_ R]. now injection R as <-.
    + intros o s1 s2 [_ R1] [_ R2]. congruence.
    + intros os o s' [N R]. pose proof (mtl_given_prefix _ _ _ N) as N0.
      destruct (mtl_run_inv d os N0) as (s & R0 & I0).
      destruct (mtl_step_ok d os s o I0 N) as (s2 & R2 & I2 & M1 & M2 & M3).
      rewrite mtl_run_app, R0 in R. cbn [bind mtl_run] in R. rewrite R2 in R. cbn [bind] in R. injection R as <-.
      exists s. split; auto. split; auto. split; auto. split; auto.
      intros x H1 H2. destruct I2 as [_ _ _ _ [O2 _]].
      apply (in_split x) in H1. destruct H1 as (u & v & Euv). rewrite Euv, <- app_assoc in O2. cbn [app] in O2.
      apply NoDup_remove_2 in O2. apply O2. rewrite !in_app_iff. auto.
    + split; assumption.
Qed.
Print Assumptions mtl_library_is_a_map.

Example mtl_library_ex :
  exists l, mtl_run (mtl_new 1) [MAdd "red" 2; MAdd "red" 3; MAdd "Default" 4; MErase "Default"; MErase "red"; MAdd "red" 5] = Ok l /\
    mtl_get l "red" = Some 5 /\ mtl_get l "Default" = Some 1 /\ ml_freed l = [2].
Proof. eexists. split; [reflexivity |]. repeat split. Qed.

(* The library promises to free what it inherits.  A material added under a name in
   use is neither kept nor ever freed, whatever happens later. *)
Theorem mtl_library_leak_refuted : forall d pre k q p post,
  NoDup (d :: mtl_given (pre ++ MAdd k p :: post)) -> mtl_holds d pre q ->
  (k = default_name \/ stored (map mtl_hist pre) k q) ->
  exists l, mtl_run (mtl_new d) (pre ++ MAdd k p :: post) = Ok l /\
    (forall k', mtl_get l k' <> Some p) /\ ~ In p (ml_freed l).
Proof.
  intros d pre k q p post ND _ Hq.
  assert (G : forall post l, (forall k', lookup (ml_lib l) k' <> Some p) -> ~ In p (ml_freed l) ->
    ~ In p (map snd (ml_lib l)) -> ~ In p (mtl_given post) -> keys_ok (ml_lib l) ->
    forall l', mtl_run l post = Ok l' -> (forall k', lookup (ml_lib l') k' <> Some p) /\ ~ In p (ml_freed l')).
  { clear. induction post as [| o post IH]; intros l A1 A2 A3 A4 K l' R; cbn [mtl_run] in R.
    - injection R as <-. auto.
    - destruct (mtl_step l o) as [l1 | |] eqn:E; try discriminate. cbn [bind] in R. revert R. apply IH; clear IH.
      all: destruct o as [n v | n |]; cbn [mtl_step mtl_given In] in *.
      all: try (injection E as <-; cbn [ml_lib ml_freed]).
      all: try (destruct (String.eqb n default_name) eqn:En; [injection E as <-; auto; fail |]).
      all: auto.
      all: try (now apply insert_keys).
      all: try (unfold erase_key in E; destruct (lookup (ml_lib l) n) as [v |] eqn:L; [| injection E as <-; cbn [ml_lib ml_freed]; auto]).
      all: try (unfold delete in E; destruct (existsb (N.eqb v) (ml_freed l)) eqn:Ex; [discriminate |];
                injection E as <-; cbn [ml_lib ml_freed]).
      all: try (destruct (lookup (ml_lib l) default_name) as [dd |] eqn:L; [| discriminate];
                destruct (deletes (map snd (remove_key (ml_lib l) default_name)) (ml_freed l)) as [f | |] eqn:Ef; try discriminate;
                injection E as <-; cbn [ml_lib ml_freed]).
      + intros k'. rewrite lookup_insert. specialize (A1 k'). destruct (lookup (ml_lib l) k'); [exact A1 |].
        destruct (String.eqb n k'); [| discriminate]. intros [= ->]. tauto.
      + intros k'. rewrite lookup_remove. destruct (String.eqb n k'); [discriminate | apply A1].
      + intros k'. rewrite lookup_insert. cbn [lookup]. destruct (String.eqb default_name k'); [| discriminate].
        intros [= ->]. now apply A1 in L.
      + intros [-> | I]; [now apply A1 in L | tauto].
      + intros I. assert (Z : forall l0 f0 f1, deletes l0 f0 = Ok f1 -> In p f1 -> In p l0 \/ In p f0).
        { clear. induction l0 as [| y l0 IH]; intros f0 f1 E I; cbn [deletes] in E; [injection E as <-; auto |].
          unfold delete in E. destruct (existsb (N.eqb y) f0); [discriminate |]. cbn [bind] in E.
          destruct (IH _ _ E I) as [H | [-> | H]]; cbn [In]; auto. }
        destruct (Z _ _ _ Ef I) as [H | H]; [| tauto]. apply A3. apply in_map_iff in H. destruct H as (x & <- & H).
        apply filter_In in H. now apply in_map.
      + intros I. destruct (insert_vals (ml_lib l) n v) as [E | E]; rewrite E in I; [tauto |]. destruct I; tauto.
      + intros I. apply A3. apply in_map_iff in I. destruct I as (x & <- & I). apply filter_In in I. now apply in_map.
      + cbn [map snd insert lookup In]. intros [-> | []]. now apply A1 in L.
      + now apply remove_keys.
      + apply insert_keys. constructor. }
  assert (N0 : NoDup (d :: mtl_given pre)).
  { rewrite mtl_given_app, app_comm_cons in ND. now apply NoDup_app_l in ND. }
  destruct (mtl_run_inv d pre N0) as (l0 & R0 & I0).
  destruct (mtl_run_inv d _ ND) as (l & R & I). exists l. split; [exact R |].
  rewrite mtl_run_app, R0 in R. cbn [bind mtl_run mtl_step] in R.
  rewrite mtl_given_app in ND. cbn [mtl_given] in ND. rewrite app_comm_cons in ND.
  pose proof (NoDup_remove_2 _ _ _ ND) as ND2. rewrite in_app_iff in ND2.
  destruct I0 as [K D D2 A [O1 O2]].
  assert (NV : ~ In p (map snd (ml_lib l0) ++ ml_freed l0)) by (intros X; apply O2 in X; tauto).
  rewrite in_app_iff in NV.
  assert (Ein : insert (ml_lib l0) k p = ml_lib l0).
  { unfold insert. destruct Hq as [-> | Sq]; [now rewrite D |].
    destruct (string_dec k default_name) as [-> | Nk]; [now rewrite D |]. apply (A k Nk) in Sq. now rewrite Sq. }
  rewrite Ein in R. unfold mtl_get.
  apply (G post (mk_mtllib (ml_lib l0) (ml_default l0) (ml_freed l0))); cbn [ml_lib ml_freed]; try tauto.
  intros k' L. apply lookup_In in L. apply (in_map snd) in L. tauto.
Qed.
Print Assumptions mtl_library_leak_refuted.

(* ---- textures ---- *)

(* the part of a history that concerns the textures, respectively the maps *)
Fixpoint tex_hist (ops : list tex_op) : list lib_op :=
  match ops with
  | TAddTexture k p :: ops => Add k p :: tex_hist ops
  | TEraseTexture k :: ops => Erase k :: tex_hist ops
  | TClear :: ops => Clear :: tex_hist ops
  | _ :: ops => tex_hist ops
  | [] => []
  end.

Fixpoint map_hist (ops : list tex_op) : list lib_op :=
  match ops with
  | TAddMap k p :: ops => Add k p :: map_hist ops
  | TEraseMap k :: ops => Erase k :: map_hist ops
  | TClear :: ops => Clear :: map_hist ops
  | _ :: ops => map_hist ops
  | [] => []
  end.

Fixpoint tex_given (ops : list tex_op) : list N :=
  match ops with
  | TAddTexture _ p :: ops | TAddUnnamed p :: ops | TAddMap _ p :: ops => p :: tex_given ops
  | _ :: ops => tex_given ops
  | [] => []
  end.

Lemma tex_hist_app : forall a b, tex_hist (a ++ b) = tex_hist a ++ tex_hist b.
Proof. induction a as [| [] a IH]; intros b; cbn [tex_hist app]; rewrite ?IH; auto. Qed.
Lemma map_hist_app : forall a b, map_hist (a ++ b) = map_hist a ++ map_hist b.
Proof. induction a as [| [] a IH]; intros b; cbn [map_hist app]; rewrite ?IH; auto. Qed.
Lemma tex_given_app : forall a b, tex_given (a ++ b) = tex_given a ++ tex_given b.
Proof. induction a as [| [] a IH]; intros b; cbn [tex_given app]; rewrite ?IH; auto. Qed.

(* an unnamed texture is kept until the library is cleared *)
Definition unnamed (ops : list tex_op) (p : N) : Prop :=
  exists a b, ops = a ++ TAddUnnamed p :: b /\ ~ In TClear b.

Definition tex_holds (ops : list tex_op) (p : N) : Prop :=
  (exists k, stored (tex_hist ops) k p) \/ (exists k, stored (map_hist ops) k p) \/ unnamed ops p.

Definition tl_held (l : texlib) : list N := map snd (tl_tex l) ++ map snd (tl_maps l) ++ tl_unref l.

Record tex_inv (d : N * N * N) (ops : list tex_op) (l : texlib) : Prop := {
  ti_keys1 : keys_ok (tl_tex l);
  ti_keys2 : keys_ok (tl_maps l);
  ti_dflt : tl_dflt l = d;
  ti_agree1 : forall k, agrees (tex_hist ops) (tl_tex l) k;
  ti_agree2 : forall k, agrees (map_hist ops) (tl_maps l) k;
  ti_unref : forall p, In p (tl_unref l) <-> unnamed ops p;
  ti_owned : owned (tl_held l) (tl_freed l) (tex_given ops) }.

Lemma unnamed_snoc : forall ops o p, unnamed (ops ++ [o]) p <->
  (unnamed ops p /\ o <> TClear) \/ o = TAddUnnamed p.
Proof.
  intros ops o p. split.
  - intros (a & b & E & N). destruct b as [| z b _] using rev_ind.
    + apply app_inj_tail in E. right. apply E.
    + rewrite app_comm_cons, app_assoc in E. apply app_inj_tail in E. destruct E as [E ->]. rewrite in_app_iff in N.
      left. split; [exists a, b; auto | intros ->; apply N; right; now left].
  - intros [[(a & b & E & N) Ho] | ->].
    + exists a, (b ++ [o]). rewrite E, <- app_assoc. split; [reflexivity |]. rewrite in_app_iff.
      intros [H | [H | []]]; auto.
    + exists ops, []. auto.
Qed.

Lemma owned_fresh : forall h h' f a p, owned h f a -> NoDup (a ++ [p]) -> Permutation h' (p :: h) -> owned h' f (a ++ [p]).
Proof.
  intros h h' f a p O N P. apply owned_perm with (h := p :: h) (f := f).
  - eapply owned_incl; [apply owned_add; eauto |].
    + apply NoDup_remove_2 in N. now rewrite app_nil_r in N.
    + intros z [-> | Hz]; apply in_app_iff; [right; now left | auto].
  - now rewrite P.
Qed.

Lemma moves_perm : forall h f h' f' g, moves h f h' f' -> Permutation h' g -> moves h f g f'.
Proof.
  intros h f h' f' g (M1 & M2 & M3) P. split; auto. split; auto. intros z Hz. specialize (M2 z Hz).
  rewrite in_app_iff in *. destruct M2; auto. left. eapply Permutation_in; eauto.
Qed.

Lemma moves_fresh : forall h f h' p, Permutation h' (p :: h) -> moves h f h' f.
Proof.
  intros h f h' p P. split; [apply incl_refl |]. split; [| apply incl_appl, incl_refl].
  intros z Hz. apply in_app_iff. left. eapply Permutation_in; [symmetry; exact P |]. now right.
Qed.

Lemma perm_q1 : forall A (t m u f : list A), Permutation ((t ++ m ++ u) ++ f) ((t ++ f) ++ m ++ u).
Proof.
  intros A t m u f. rewrite <- !app_assoc. apply Permutation_app_head. rewrite (app_assoc m u f).
  apply Permutation_app_comm.
Qed.

Lemma perm_q2 : forall A (t m u f : list A), Permutation ((t ++ m ++ u) ++ f) (((t ++ m) ++ f) ++ u).
Proof. intros A t m u f. rewrite <- !app_assoc. apply Permutation_app_head, Permutation_app_head, Permutation_app_comm. Qed.

Lemma perm_q3 : forall A (t m u f : list A), Permutation (u ++ m ++ t ++ f) ((t ++ m ++ u) ++ f).
Proof.
  intros A t m u f. rewrite !app_assoc. apply Permutation_app_tail. rewrite (Permutation_app_comm (u ++ m) t).
  rewrite <- app_assoc. apply Permutation_app_head, Permutation_app_comm.
Qed.

Lemma tex_step_ok : forall d ops l o, tex_inv d ops l -> NoDup (tex_given (ops ++ [o])) ->
  exists l', tex_step l o = Ok l' /\ tex_inv d (ops ++ [o]) l' /\
    moves (tl_held l) (tl_freed l) (tl_held l') (tl_freed l').
Proof.
  intros d ops l o [K1 K2 D A1 A2 U O] ND. rewrite tex_given_app in ND.
  assert (U' : forall z, o <> TClear -> (forall p, o <> TAddUnnamed p) -> In z (tl_unref l) <-> unnamed (ops ++ [o]) z).
  { intros z H1 H2. rewrite U, unnamed_snoc. intuition. exfalso. eapply H2; eauto. }
  destruct o as [k p | p | k p | k | k |]; cbn [tex_step tex_given] in *.
  - assert (P : map snd (insert (tl_tex l) k p) = map snd (tl_tex l) \/
      Permutation (map snd (insert (tl_tex l) k p) ++ map snd (tl_maps l) ++ tl_unref l) (p :: tl_held l)).
    { destruct (insert_vals (tl_tex l) k p) as [E | E]; rewrite E; [now left | right; reflexivity]. }
    eexists. split; [reflexivity |]. split.
    + constructor; cbn [tl_tex tl_maps tl_unref tl_dflt tl_freed]; auto.
      * now apply insert_keys.
      * intros k'. rewrite tex_hist_app. cbn [tex_hist]. eapply agrees_step; [apply A1 | reflexivity].
      * intros k'. rewrite map_hist_app, app_nil_r. apply A2.
      * intros z. apply U'; discriminate.
      * rewrite tex_given_app. cbn [tex_given]. unfold tl_held in *. cbn [tl_tex tl_maps tl_unref].
        destruct P as [P | P]; [rewrite P; eapply owned_incl; [exact O | apply incl_appl, incl_refl] |].
        eapply owned_fresh; eauto.
    + unfold tl_held in *. cbn [tl_tex tl_maps tl_unref tl_freed].
      destruct P as [P | P]; [rewrite P; apply moves_same | eapply moves_fresh; eauto].
  - assert (P : Permutation (map snd (tl_tex l) ++ map snd (tl_maps l) ++ tl_unref l ++ [p]) (p :: tl_held l)).
    { unfold tl_held. rewrite !app_assoc. symmetry. apply Permutation_cons_append. }
    eexists. split; [reflexivity |]. split.
    + constructor; cbn [tl_tex tl_maps tl_unref tl_dflt tl_freed]; auto.
      * intros k'. rewrite tex_hist_app, app_nil_r. apply A1.
      * intros k'. rewrite map_hist_app, app_nil_r. apply A2.
      * intros z. rewrite unnamed_snoc, in_app_iff, U. cbn [In]. intuition (try congruence).
      * rewrite tex_given_app. cbn [tex_given]. eapply owned_fresh; eauto.
    + unfold tl_held at 2. cbn [tl_tex tl_maps tl_unref tl_freed]. eapply moves_fresh; eauto.
  - assert (P : map snd (insert (tl_maps l) k p) = map snd (tl_maps l) \/
      Permutation (map snd (tl_tex l) ++ map snd (insert (tl_maps l) k p) ++ tl_unref l) (p :: tl_held l)).
    { destruct (insert_vals (tl_maps l) k p) as [E | E]; rewrite E; [now left | right].
      unfold tl_held. cbn [app]. symmetry. apply Permutation_middle. }
    eexists. split; [reflexivity |]. split.
    + constructor; cbn [tl_tex tl_maps tl_unref tl_dflt tl_freed]; auto.
      * now apply insert_keys.
      * intros k'. rewrite tex_hist_app, app_nil_r. apply A1.
      * intros k'. rewrite map_hist_app. cbn [map_hist]. eapply agrees_step; [apply A2 | reflexivity].
      * intros z. apply U'; discriminate.
      * rewrite tex_given_app. cbn [tex_given]. unfold tl_held in *. cbn [tl_tex tl_maps tl_unref].
        destruct P as [P | P]; [rewrite P; eapply owned_incl; [exact O | apply incl_appl, incl_refl] |].
        eapply owned_fresh; eauto.
    + unfold tl_held in *. cbn [tl_tex tl_maps tl_unref tl_freed].
      destruct P as [P | P]; [rewrite P; apply moves_same | eapply moves_fresh; eauto].
  - unfold erase_key. destruct (lookup (tl_tex l) k) as [p |] eqn:L.
    + destruct (remove_vals _ _ _ L K1) as (x & y & E1 & E2).
      assert (EH : tl_held l = x ++ p :: (y ++ map snd (tl_maps l) ++ tl_unref l)).
      { unfold tl_held. rewrite E1, <- app_assoc. reflexivity. }
      rewrite EH in O. apply owned_remove in O. destruct O as [O NI]. rewrite delete_ok by exact NI. cbn [bind].
      eexists. split; [reflexivity |].
      assert (EH' : tl_held (mk_texlib (remove_key (tl_tex l) k) (tl_maps l) (tl_unref l) (tl_dflt l) (p :: tl_freed l)) =
        x ++ y ++ map snd (tl_maps l) ++ tl_unref l).
      { unfold tl_held. cbn [tl_tex tl_maps tl_unref]. now rewrite E2, <- app_assoc. }
      split; [| rewrite EH', EH; apply moves_one].
      constructor; cbn [tl_tex tl_maps tl_unref tl_dflt tl_freed]; auto.
      * now apply remove_keys.
      * intros k'. rewrite tex_hist_app. cbn [tex_hist]. eapply agrees_step; [apply A1 | reflexivity].
      * intros k'. rewrite map_hist_app, app_nil_r. apply A2.
      * intros z. apply U'; discriminate.
      * rewrite EH', tex_given_app, app_nil_r. exact O.
    + eexists. split; [reflexivity |]. split; [| apply moves_same].
      constructor; cbn [tl_tex tl_maps tl_unref tl_dflt tl_freed]; auto.
      * intros k'. rewrite tex_hist_app. cbn [tex_hist]. eapply agrees_step; [apply A1 |]. cbn [map_step].
        rewrite lookup_remove. destruct (String.eqb_spec k k'); congruence.
      * intros k'. rewrite map_hist_app, app_nil_r. apply A2.
      * intros z. apply U'; discriminate.
      * rewrite tex_given_app, app_nil_r. exact O.
  - unfold erase_key. destruct (lookup (tl_maps l) k) as [p |] eqn:L.
    + destruct (remove_vals _ _ _ L K2) as (x & y & E1 & E2).
      assert (EH : tl_held l = (map snd (tl_tex l) ++ x) ++ p :: (y ++ tl_unref l)).
      { unfold tl_held. rewrite E1, <- !app_assoc. reflexivity. }
      rewrite EH in O. apply owned_remove in O. destruct O as [O NI]. rewrite delete_ok by exact NI. cbn [bind].
      eexists. split; [reflexivity |].
      assert (EH' : tl_held (mk_texlib (tl_tex l) (remove_key (tl_maps l) k) (tl_unref l) (tl_dflt l) (p :: tl_freed l)) =
        (map snd (tl_tex l) ++ x) ++ y ++ tl_unref l).
      { unfold tl_held. cbn [tl_tex tl_maps tl_unref]. now rewrite E2, <- !app_assoc. }
      split; [| rewrite EH', EH; apply moves_one].
      constructor; cbn [tl_tex tl_maps tl_unref tl_dflt tl_freed]; auto.
      * now apply remove_keys.
      * intros k'. rewrite tex_hist_app, app_nil_r. apply A1.
      * intros k'. rewrite map_hist_app. cbn [map_hist]. eapply agrees_step; [apply A2 | reflexivity].
      * intros z. apply U'; discriminate.
      * rewrite EH', tex_given_app, app_nil_r. exact O.
    + eexists. split; [reflexivity |]. split; [| apply moves_same].
      constructor; cbn [tl_tex tl_maps tl_unref tl_dflt tl_freed]; auto.
      * intros k'. rewrite tex_hist_app, app_nil_r. apply A1.
      * intros k'. rewrite map_hist_app. cbn [map_hist]. eapply agrees_step; [apply A2 |]. cbn [map_step].
        rewrite lookup_remove. destruct (String.eqb_spec k k'); congruence.
      * intros z. apply U'; discriminate.
      * rewrite tex_given_app, app_nil_r. exact O.
  - destruct O as [O1 O2]. unfold tl_held in O1, O2.
    assert (Q1 : NoDup (map snd (tl_tex l) ++ tl_freed l)).
    { eapply Permutation_NoDup in O1; [| apply perm_q1]. now apply NoDup_app_l in O1. }
    rewrite deletes_ok by exact Q1. cbn [bind].
    assert (P2 : Permutation (map snd (tl_maps l) ++ rev (map snd (tl_tex l)) ++ tl_freed l)
       ((map snd (tl_tex l) ++ map snd (tl_maps l)) ++ tl_freed l)).
    { rewrite <- Permutation_rev. rewrite !app_assoc. apply Permutation_app_tail, Permutation_app_comm. }
    assert (Q2 : NoDup (map snd (tl_maps l) ++ rev (map snd (tl_tex l)) ++ tl_freed l)).
    { rewrite P2. eapply Permutation_NoDup in O1; [| apply perm_q2]. now apply NoDup_app_l in O1. }
    rewrite deletes_ok by exact Q2. cbn [bind].
    assert (P3 : Permutation (tl_unref l ++ rev (map snd (tl_maps l)) ++ rev (map snd (tl_tex l)) ++ tl_freed l)
       ((map snd (tl_tex l) ++ map snd (tl_maps l) ++ tl_unref l) ++ tl_freed l)).
    { rewrite <- !Permutation_rev. apply perm_q3. }
    assert (Q3 : NoDup (tl_unref l ++ rev (map snd (tl_maps l)) ++ rev (map snd (tl_tex l)) ++ tl_freed l)).
    { now rewrite P3. }
    rewrite deletes_ok by exact Q3. cbn [bind]. eexists. split; [reflexivity |].
    assert (EH : tl_held (mk_texlib [] [] [] (tl_dflt l)
      (rev (tl_unref l) ++ rev (map snd (tl_maps l)) ++ rev (map snd (tl_tex l)) ++ tl_freed l)) = []) by reflexivity.
    assert (P4 : Permutation ((map snd (tl_tex l) ++ map snd (tl_maps l) ++ tl_unref l) ++ tl_freed l)
      (rev (tl_unref l) ++ rev (map snd (tl_maps l)) ++ rev (map snd (tl_tex l)) ++ tl_freed l)).
    { rewrite <- P3. apply Permutation_app_tail. apply Permutation_rev. }
    split.
    + constructor; cbn [tl_tex tl_maps tl_unref tl_dflt tl_freed]; auto.
      * constructor.
      * constructor.
      * intros k'. rewrite tex_hist_app. cbn [tex_hist]. eapply agrees_step; [apply A1 | reflexivity].
      * intros k'. rewrite map_hist_app. cbn [map_hist]. eapply agrees_step; [apply A2 | reflexivity].
      * intros z. rewrite unnamed_snoc. cbn [In]. split; [tauto |]. intros [[_ H] | H]; [tauto | discriminate].
      * rewrite EH, tex_given_app, app_nil_r. eapply owned_perm; [split; [exact O1 | exact O2] | exact P4].
    + rewrite EH. cbn [tl_freed]. unfold tl_held. split; [| split].
      * intros z Hz. eapply Permutation_in; [exact P4 |]. apply in_app_iff. auto.
      * intros z Hz. cbn [app]. eapply Permutation_in; [exact P4 |]. apply in_app_iff. auto.
      * intros z Hz. rewrite in_app_iff. apply or_comm, in_app_iff. eapply Permutation_in; [symmetry; exact P4 | exact Hz].
Qed.

Lemma tex_new_inv : forall d, tex_inv d [] (tex_new d).
Proof.
  intros d. constructor; cbn [tex_new tl_tex tl_maps tl_unref tl_dflt tl_freed]; auto; try constructor.
  - apply agrees_nil.
  - apply agrees_nil.
  - apply agrees_nil.
  - apply agrees_nil.
  - intros [].
  - intros (a & b & E & _). destruct a; discriminate.
  - constructor.
  - intros x [].
Qed.

Lemma tex_run_app : forall a b l, tex_run l (a ++ b) = let! l := tex_run l a in tex_run l b.
Proof.
  induction a as [| o a IH]; intros b l; cbn [tex_run app]; [reflexivity |].
  destruct (tex_step l o); cbn [bind]; auto.
Qed.

Lemma tex_run_inv : forall d ops, NoDup (tex_given ops) ->
  exists l, tex_run (tex_new d) ops = Ok l /\ tex_inv d ops l.
Proof.
  intros d ops. induction ops as [| o ops IH] using rev_ind; intros ND.
  - exists (tex_new d). split; [reflexivity | apply tex_new_inv].
  - destruct IH as (l & E & I); [rewrite tex_given_app in ND; now apply NoDup_app_l in ND |].
    destruct (tex_step_ok d ops l o I ND) as (l' & E' & I' & _). exists l'. split; [| exact I'].
    rewrite tex_run_app, E. cbn [bind tex_run]. now rewrite E'.
Qed.

Lemma tex_inv_holds : forall d ops l p, tex_inv d ops l -> (In p (tl_held l) <-> tex_holds ops p).
Proof.
  intros d ops l p [K1 K2 D A1 A2 U O]. unfold tl_held, tex_holds. rewrite !in_app_iff, U.
  assert (X : forall m h, keys_ok m -> (forall k, agrees h m k) -> (In p (map snd m) <-> exists k, stored h k p)).
  { intros m h K A. rewrite in_map_iff. split.
    - intros ([k v] & E & I). cbn [snd] in E. subst v. apply In_lookup in I; auto. exists k. now apply A.
    - intros (k & S2). exists (k, p). split; auto. apply lookup_In. now apply A. }
  rewrite (X _ _ K1 A1), (X _ _ K2 A2). tauto.
Qed.

(* C31, textures.  As for the materials, for the two maps and the unnamed textures;
   when the library is destroyed everything it holds and its default objects are
   freed, each once. *)
Theorem tex_library_is_a_map : forall t i m ops, NoDup (t :: i :: m :: tex_given ops) ->
  exists l, tex_run (tex_new (t, i, m)) ops = Ok l /\ tl_dflt l = (t, i, m) /\
    (forall k p, tex_get l k = Some p <-> stored (tex_hist ops) k p) /\
    (forall k, tex_contains l k = true <-> exists p, stored (tex_hist ops) k p) /\
    (forall k p, tex_get_map l k = Some p <-> stored (map_hist ops) k p) /\
    (forall k, tex_contains_map l k = true <-> exists p, stored (map_hist ops) k p) /\
    NoDup (tl_freed l) /\
    (forall p, In p (tl_freed l) <->
      (exists pre post, ops = pre ++ post /\ tex_holds pre p) /\ ~ tex_holds ops p) /\
    (exists f, tex_destroy l = Ok f /\ NoDup f /\
      forall p, In p f <-> In p [t; i; m] \/ exists pre post, ops = pre ++ post /\ tex_holds pre p).
Proof.
  intros t i m ops ND3. set (d := (t, i, m)).
  assert (ND : NoDup (tex_given ops)) by (do 3 (inversion_clear ND3 as [| ? ? _ N]; rename N into ND3); exact ND3).
  destruct (tex_run_inv d ops ND) as (l & E & I). exists l.
  pose proof I as [K1 K2 D A1 A2 U O]. unfold tex_get, tex_get_map, tex_contains, tex_contains_map.
  assert (C : forall m h, (forall k, agrees h m k) -> forall k,
    (match lookup m k with Some _ => true | None => false end = true <-> exists p, stored h k p)).
  { intros m0 h A k. destruct (lookup m0 k) as [p |] eqn:L.
    - split; [intros _; exists p; now apply (A k) | reflexivity].
    - split; [discriminate |]. intros [p S2]. apply (A k) in S2. congruence. }
  assert (FR : forall p, In p (tl_freed l) <->
      (exists pre post, ops = pre ++ post /\ tex_holds pre p) /\ ~ tex_holds ops p).
  { intros p.
    pose proof (freed_iff tex_op texlib
      (fun ops s => NoDup (tex_given ops) /\ tex_run (tex_new d) ops = Ok s) tl_held tl_freed) as X.
    assert (Y : forall ops s, NoDup (tex_given ops) /\ tex_run (tex_new d) ops = Ok s -> tex_inv d ops s).
    { intros ops' s [N R]. destruct (tex_run_inv d ops' N) as (s' & R' & I'). congruence. }
    rewrite X with (ops := ops); clear X.
    - rewrite (tex_inv_holds d ops l p I). split; intros [H N]; split; auto.
      + destruct H as (pre & post & s0 & Ep & R0 & I0). exists pre, post. split; auto.
        apply (tex_inv_holds d pre s0); auto.
      + destruct H as (pre & post & Ep & H). subst ops.
        assert (N0 : NoDup (tex_given pre)) by (rewrite tex_given_app in ND; now apply NoDup_app_l in ND).
        destruct (tex_run_inv d pre N0) as (s0 & R0 & I0). exists pre, post, s0. split; auto. split; auto.
        apply (tex_inv_holds d pre s0); auto.
    - intros s [_ R]. now injection R as <-.
    - intros o s1 s2 [_ R1] [_ R2]. congruence.
    - intros os o s' [N R].
      assert (N0 : NoDup (tex_given os)) by (rewrite tex_given_app in N; now apply NoDup_app_l in N).
      destruct (tex_run_inv d os N0) as (s & R0 & I0).
      destruct (tex_step_ok d os s o I0 N) as (s2 & R2 & I2 & M1 & M2 & M3).
      rewrite tex_run_app, R0 in R. cbn [bind tex_run] in R. rewrite R2 in R. cbn [bind] in R. injection R as <-.
      exists s. split; auto. split; auto. split; auto. split; auto.
      intros x H1 H2. destruct I2 as [_ _ _ _ _ _ [O2 _]].
      apply (in_split x) in H1. destruct H1 as (u & v & Euv). rewrite Euv, <- app_assoc in O2. cbn [app] in O2.
      apply NoDup_remove_2 in O2. apply O2. rewrite !in_app_iff. auto.
    - split; assumption. }
  split; [exact E |]. split; [exact D |]. split; [exact (fun k p => A1 k p) |]. split; [apply C, A1 |].
  split; [exact (fun k p => A2 k p) |]. split; [apply C, A2 |]. split; [| split; [exact FR |]].
  - destruct O as [O _]. rewrite Permutation_app_comm in O. now apply NoDup_app_l in O.
  - assert (ND' : NoDup (tex_given (ops ++ [TClear]))) by (rewrite tex_given_app; cbn [tex_given]; now rewrite app_nil_r).
    destruct (tex_step_ok d ops l TClear I ND') as (l2 & E2 & I2 & M1 & M2 & M3).
    unfold tex_destroy. rewrite E2. cbn [bind]. pose proof I2 as [_ _ D2 _ _ _ [O1 O2]]. rewrite D2. unfold d.
    rewrite tex_given_app, app_nil_r in O2.
    assert (EH : tl_held l2 = []).
    { destruct (tl_held l2) as [| x h] eqn:Eh; [reflexivity |]. exfalso.
      assert (X : tex_holds (ops ++ [TClear]) x) by (apply (tex_inv_holds d _ l2 x I2); rewrite Eh; now left).
      destruct X as [[k X] | [[k X] | X]].
      - rewrite tex_hist_app in X. apply stored_snoc in X. destruct X as [[_ X] | X]; [apply X; now right | discriminate].
      - rewrite map_hist_app in X. apply stored_snoc in X. destruct X as [[_ X] | X]; [apply X; now right | discriminate].
      - apply unnamed_snoc in X. destruct X as [[_ X] | X]; [congruence | discriminate]. }
    rewrite EH in O1, O2, M2. cbn [app] in O1, O2, M2.
    assert (ND4 : NoDup ([m; i; t] ++ tl_freed l2)).
    { assert (Z : forall x, In x [t; i; m] -> ~ In x (tl_freed l2)).
      { intros x Hx H. apply O2 in H. apply (in_split x) in H. destruct H as (u & v & Eu). rewrite Eu in ND3.
        assert (P : In x ([t; i; m] ++ u ++ v)) by (apply in_app_iff; auto).
        change (t :: i :: m :: u ++ x :: v) with ([t; i; m] ++ u ++ x :: v) in ND3. rewrite app_assoc in ND3.
        apply NoDup_remove_2 in ND3. rewrite <- app_assoc in ND3. tauto. }
      inversion_clear ND3 as [| ? ? T1 T2]. inversion_clear T2 as [| ? ? T3 T4].
      inversion_clear T4 as [| ? ? T5 T6]. cbn [In] in *.
      cbn [app]. constructor; [| constructor; [| constructor; [| exact O1]]]; cbn [In];
        intuition (subst; eauto). }
    rewrite deletes_ok by exact ND4. eexists. split; [reflexivity |]. split.
    + eapply Permutation_NoDup; [| exact ND4]. apply Permutation_app_tail, Permutation_rev.
    + intros p. rewrite in_app_iff. cbn [rev app In].
      assert (W : In p (tl_freed l2) <-> exists pre post, ops = pre ++ post /\ tex_holds pre p).
      { split.
        - intros H. apply M3 in H. apply in_app_iff in H. destruct H as [H | H]; [apply FR in H; tauto |].
          exists ops, []. rewrite app_nil_r. split; auto. now apply (tex_inv_holds d ops l p I).
        - intros H. destruct (in_dec N.eq_dec p (tl_held l)) as [X | X]; [auto |]. apply M1, FR. split; auto.
          intros Y. now apply (tex_inv_holds d ops l p I) in Y. }
      rewrite W. tauto.
Qed.
Print Assumptions tex_library_is_a_map.

Example tex_library_ex :
  exists l, tex_run (tex_new (1, 2, 3)) [TAddTexture "a" 4; TAddMap "a" 5; TAddUnnamed 6; TEraseMap "a"; TAddTexture "a" 7] = Ok l /\
    tex_get l "a" = Some 4 /\ tex_get_map l "a" = None /\ tl_freed l = [5] /\ tex_destroy l = Ok [1; 2; 3; 6; 4; 5].
Proof. eexists. split; [reflexivity |]. repeat split. Qed.
