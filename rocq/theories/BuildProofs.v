(* Lemmas about building materials and objects. *)
From Coq Require Import QArith Qminmax Lqa Permutation.
From Verif Require Import Common PathModel PathSpec PathProofs PathProps MaskModel DriverModel DriverSpec DriverProofs DriverProps BuildModel BuildSpec.
Local Open Scope nat_scope.

Lemma clampq_range : forall v lo hi, (lo <= hi)%Q -> (lo <= clampq v lo hi <= hi)%Q.
Proof. intros v lo hi H. unfold clampq. destruct (Qlt_le_dec v lo); [lra |]. destruct (Qlt_le_dec hi v); lra. Qed.

Lemma clampq_id : forall v lo hi, (lo <= v <= hi)%Q -> clampq v lo hi = v.
Proof. intros v lo hi H. unfold clampq. destruct (Qlt_le_dec v lo); [lra |]. destruct (Qlt_le_dec hi v); [lra | reflexivity]. Qed.

Lemma at_least_clamp : forall v, (v <= 1)%Q -> (clampq v min_roughness 1 == at_least v)%Q.
Proof.
  intros v H. unfold clampq, min_roughness, at_least. destruct (Qlt_le_dec v (1 # 1000)) as [L | L].
  - rewrite Q.max_l by lra. reflexivity.
  - destruct (Qlt_le_dec 1 v); [lra |]. rewrite Q.max_r by lra. reflexivity.
Qed.

Lemma Qeqb_true : forall x y, Qeq_bool x y = true -> (x == y)%Q.
Proof. exact Qeq_bool_eq. Qed.
Lemma Qeqb_false : forall x y, Qeq_bool x y = false -> ~ (x == y)%Q.
Proof. exact Qeq_bool_neq. Qed.

(* the two outcomes of the adjustment, in the documented range *)
Lemma adjust_documented : forall r a, documented_range r a ->
  (~ anisotropic r a /\ exists y, adjust r (stored a) = (r, y) /\ Qeq_bool y (-1) = true) \/
  (exists y, a = Some y /\ ~ (y == r)%Q /\
     adjust r (stored a) = (clampq r min_roughness 1, clampq y min_roughness 1) /\
     Qeq_bool (clampq y min_roughness 1) (-1) = false /\ Qeq_bool (clampq r min_roughness 1) 0 = false).
Proof.
  intros r a [Hr Ha]. unfold adjust. rewrite (clampq_id r 0 1 Hr). cbv zeta.
  destruct a as [y |]; cbn [stored].
  - destruct (Qeq_bool y r) eqn:E.
    + left. apply Qeqb_true in E. split; [intros H; exact (H E) |]. exists (-1)%Q. split; [reflexivity | reflexivity].
    + right. exists y. apply Qeqb_false in E. split; [reflexivity |]. split; [exact E |].
      assert (N : Qeq_bool y (-1) = false) by (destruct (Qeq_bool y (-1)) eqn:N; [apply Qeqb_true in N; lra | reflexivity]).
      rewrite N. split; [reflexivity |].
      assert (R1 := clampq_range y min_roughness 1 ltac:(unfold min_roughness; lra)).
      assert (R2 := clampq_range r min_roughness 1 ltac:(unfold min_roughness; lra)). unfold min_roughness in R1, R2.
      split.
      * destruct (Qeq_bool (clampq y min_roughness 1) (-1)) eqn:Z; [apply Qeqb_true in Z; unfold min_roughness in Z; lra | reflexivity].
      * destruct (Qeq_bool (clampq r min_roughness 1) 0) eqn:Z; [apply Qeqb_true in Z; unfold min_roughness in Z; lra | reflexivity].
  - left. split; [intros [] |]. assert (N : Qeq_bool (-1) r = false) by (destruct (Qeq_bool (-1) r) eqn:N; [apply Qeqb_true in N; lra | reflexivity]).
    rewrite N. cbn. exists (-1)%Q. split; reflexivity.
Qed.

Lemma isotropic_documented : forall k r a, ~ anisotropic r a -> documented_dist k r a (isotropic k r).
Proof.
  intros k r a H. destruct k; cbn [isotropic].
  - apply doc_blinn; [exact H | reflexivity | reflexivity].
  - apply doc_beckmann; [exact H | reflexivity | reflexivity].
  - apply doc_ggx; [exact H | reflexivity | reflexivity].
Qed.

Lemma layers_documented : forall t e i k r a df sp, documented_range r a ->
  documented_layers e i k r a df sp t (layers t e i k r (stored a) df sp).
Proof.
  intros t e i k r a df sp H. unfold layers.
  destruct (adjust_documented r a H) as [(A & y & -> & Y) | (y & Ea & Ny & -> & Y & X)].
  - rewrite Y. destruct (Qeq_bool r 0) eqn:R; [apply Qeqb_true in R | apply Qeqb_false in R].
    + assert (S : smooth r a) by (split; assumption). destruct t; cbn [negb andb].
      * apply doc_lambert. exact S.
      * apply doc_glossy; [intros _ | intros N; contradiction]. apply isotropic_documented. intros [].
      * apply doc_glass_smooth. exact S.
      * apply doc_metal_smooth. exact S.
    + assert (S : ~ smooth r a) by (intros [Z _]; contradiction). destruct t; cbn [negb andb].
      * apply doc_oren; [exact S | intros Z; contradiction | intros _; ring].
      * apply doc_glossy; [intros Z; contradiction | intros _; apply isotropic_documented; exact A].
      * apply doc_glass; [exact S | apply isotropic_documented; exact A].
      * apply doc_metal; [exact S | apply isotropic_documented; exact A].
  - rewrite X, Y. assert (A : anisotropic r a) by (rewrite Ea; exact Ny).
    assert (S : ~ smooth r a) by (intros [_ Z]; contradiction).
    destruct H as [Hr Ha]. rewrite Ea in Ha.
    assert (D : documented_dist k r a (GgxAniso (clampq r min_roughness 1) (clampq y min_roughness 1))).
    { apply doc_aniso with (y := y); [exact Ea | exact Ny | apply at_least_clamp; lra | apply at_least_clamp; lra]. }
    destruct t; cbn [negb andb].
    + apply doc_oren; [exact S | intros _ | intros Z; contradiction]. rewrite at_least_clamp by lra. ring.
    + apply doc_glossy; [intros Z; contradiction | intros _; exact D].
    + apply doc_glass; [exact S | exact D].
    + apply doc_metal; [exact S | exact D].
Qed.

Lemma isotropic_valid : forall k r, (0 < r <= 1)%Q -> valid_dist (isotropic k r).
Proof.
  intros k r H. destruct k; cbn; try exact H.
  assert (P : (0 < r * r)%Q) by (apply Qmult_lt_0_compat; lra).
  assert (L : (r * r <= 1)%Q) by nra.
  assert (E : (2 <= 2 / (r * r))%Q) by (apply Qle_shift_div_l; lra). lra.
Qed.

Lemma adjust_cases : forall x y, let '(x', y') := adjust x y in
  (0 <= x' <= 1)%Q /\
  (Qeq_bool y' (-1) = true \/ (Qeq_bool y' (-1) = false /\ (0 < x')%Q /\ (0 < y' <= 1)%Q /\ Qeq_bool x' 0 = false)).
Proof.
  intros x y. unfold adjust. assert (R := clampq_range x 0 1 ltac:(lra)). cbv zeta.
  set (x' := clampq x 0 1) in *. set (y' := if Qeq_bool y x' then (-1)%Q else y).
  destruct (Qeq_bool y' (-1)) eqn:E; [split; [exact R | left; reflexivity] |].
  assert (R1 := clampq_range x' min_roughness 1 ltac:(unfold min_roughness; lra)).
  assert (R2 := clampq_range y' min_roughness 1 ltac:(unfold min_roughness; lra)).
  set (a := clampq x' min_roughness 1) in *. set (b := clampq y' min_roughness 1) in *. clearbody a b. unfold min_roughness in *.
  split; [lra |]. right. split.
  - destruct (Qeq_bool b (-1)) eqn:Z; [apply Qeqb_true in Z; lra | reflexivity].
  - split; [lra |]. split; [lra |]. destruct (Qeq_bool a 0) eqn:Z; [apply Qeqb_true in Z; lra | reflexivity].
Qed.

Lemma layers_valid : forall t e i k x y df sp, Forall (fun l => valid_layer (fst l)) (layers t e i k x y df sp).
Proof.
  intros t e i k x y df sp. unfold layers. pose proof (adjust_cases x y) as H. destruct (adjust x y) as [x' y'].
  destruct H as [Hx H].
  assert (Pos : Qeq_bool x' 0 = false -> (0 < x' <= 1)%Q).
  { intros Z. apply Qeqb_false in Z. destruct (Qlt_le_dec 0 x'); [lra |]. exfalso. apply Z. lra. }
  assert (D : Qeq_bool x' 0 = false -> valid_dist (if Qeq_bool y' (-1) then isotropic k x' else GgxAniso x' y')).
  { intros Z. specialize (Pos Z). destruct H as [-> | (-> & Y1 & Y2 & _)]; [apply isotropic_valid; exact Pos | split; [exact Pos | exact Y2]]. }
  destruct (Qeq_bool x' 0) eqn:X.
  - assert (Y : Qeq_bool y' (-1) = true) by (destruct H as [H | (_ & _ & _ & H)]; [exact H | congruence]).
    rewrite Y. destruct t; cbn [negb andb]; repeat (apply Forall_cons; [cbn; try exact I |]); try apply Forall_nil.
    apply isotropic_valid. unfold min_roughness. lra.
  - specialize (Pos eq_refl). specialize (D eq_refl).
    destruct t; cbn [negb andb]; repeat (apply Forall_cons; [cbn [fst valid_layer]; try exact I; try exact D |]); try apply Forall_nil.
    + lra.
    + destruct (Qeq_bool y' (-1)); exact D.
Qed.

(* ---- descriptions ---- *)
Lemma parsed_mat_ok : forall n keys, parsed_mat n keys = described_mat n keys.
Proof.
  intros n keys. unfold parsed_mat, described_mat, new_mat.
  assert (G : forall l n e t i x y d df du sp su bu, fold_left set_mat l (mk_pmat n e t i x y d df du sp su bu) =
    mk_pmat n
    (last_of (fun k => match k with MElem e => Some e | _ => None end) e l)
    (last_of (fun k => match k with MType t => Some t | _ => None end) t l)
    (last_of (fun k => match k with MIor i => Some i | _ => None end) i l)
    (last_of (fun k => match k with MRough q => Some q | _ => None end) x l)
    (last_of (fun k => match k with MAniso q => Some q | _ => None end) y l)
    (last_of (fun k => match k with MDist d => Some d | _ => None end) d l)
    (last_of (fun k => match k with MDiffuse s => Some s | _ => None end) df l)
    (last_of (fun k => match k with MDiffuseU v => Some (Some (to_rgb v)) | _ => None end) du l)
    (last_of (fun k => match k with MSpecular s => Some s | _ => None end) sp l)
    (last_of (fun k => match k with MSpecularU v => Some (Some (to_rgb v)) | _ => None end) su l)
    (last_of (fun k => match k with MNormal s => Some s | _ => None end) bu l)).
  { clear. induction l as [| k l IH]; intros; [reflexivity |]. cbn [fold_left]. rewrite !last_of_cons.
    destruct k; cbn [set_mat]; apply IH. }
  rewrite G. reflexivity.
Qed.

(* ---- textures ---- *)
Lemma find_texture_app : forall l k (t : texture) m, find_texture (l ++ [(k, t)]) m =
  match find_texture l m with Some t => Some t | None => if text_dec k m then Some t else None end.
Proof.
  induction l as [| [k' t'] l IH]; intros k t m; [reflexivity |]. cbn [app find_texture]. destruct (text_dec k' m); [reflexivity | apply IH].
Qed.

Section Tex.
Context (w : list text) (usable : text -> bool) (dir : file) (D : list text) (kind : tex_kind).
Hypotheses (Hw : Forall name w) (HA : file_absolute dir = Ok (path_of D)) (HD : D <> []) (FD : Forall name D).

(* the two libraries answer the same to every plain name *)
Definition same_answers (l1 l2 : texlib) : Prop :=
  forall n, name n -> documented_texture usable l1 (path_of (D ++ [n])) kind n = documented_texture usable l2 (path_of (D ++ [n])) kind n.

Lemma load_plain : forall lib n, name n -> exists lib',
  load_texture (path_of w) usable dir lib new_tex kind n = Ok (lib', documented_texture usable lib (path_of (D ++ [n])) kind n) /\
  same_answers lib' lib.
Proof.
  intros lib n Hn.
  assert (P : proper_child (Relative [n])) by (split; [discriminate | repeat constructor; apply Hn]).
  assert (R : child_path (Relative [n]) = n) by (unfold child_path, relative, path_of; cbn; apply app_nil_r).
  pose proof (load_ok w usable Hw dir D lib new_tex kind _ HA HD FD P) as L. rewrite R in L. rewrite L. clear L.
  unfold new_tex. cbn [child_names last child_place]. cbv zeta. unfold documented_texture at 1.
  destruct (find_texture lib n) eqn:F; [eexists; split; [reflexivity | intros m _; reflexivity] |].
  destruct (usable (path_of (D ++ [n]))) eqn:U; eexists; (split; [reflexivity |]); intros m Hm; [| reflexivity].
  unfold documented_texture. rewrite find_texture_app. destruct (find_texture lib m) eqn:Fm; [reflexivity |].
  destruct (text_dec n m) as [<- |]; [rewrite U; reflexivity | reflexivity].
Qed.

Lemma choose_ok : forall lib u s, plain s -> exists lib',
  choose (path_of w) usable dir kind lib u s = Ok (lib', documented_tex usable lib D kind u s) /\ same_answers lib' lib.
Proof.
  intros lib u s P. unfold choose, documented_tex. destruct u as [c |]; [eexists; split; [reflexivity | intros n _; reflexivity] |].
  destruct s as [| x s]; [eexists; split; [reflexivity | intros n _; reflexivity] |].
  destruct P as [Z | Hn]; [discriminate |]. destruct (load_plain lib (x :: s) Hn) as (lib' & E & S). rewrite E.
  exists lib'. split; [reflexivity | exact S].
Qed.

Lemma documented_tex_same : forall l1 l2 u s, same_answers l1 l2 -> plain s ->
  documented_tex usable l1 D kind u s = documented_tex usable l2 D kind u s.
Proof.
  intros l1 l2 u s H P. unfold documented_tex. destruct u; [reflexivity |]. destruct s as [| x s]; [reflexivity |].
  destruct P as [Z | Hn]; [discriminate |]. apply f_equal. exact (H _ Hn).
Qed.

Lemma same_trans : forall a b c, same_answers a b -> same_answers b c -> same_answers a c.
Proof. intros a b c H1 H2 n Hn. rewrite (H1 n Hn). apply H2. exact Hn. Qed.

Definition plain_mat (m : pmat) : Prop := plain (pt_diffuse m) /\ plain (pt_specular m) /\ plain (pt_bump m).

Definition documented_material (lib : texlib) (m : pmat) : material :=
  mk_material (layers (pt_type m) (pt_elem m) (pt_ior m) (pt_dist m) (pt_rx m) (pt_ry m)
      (documented_tex usable lib D kind (pt_diffuse_u m) (pt_diffuse m))
      (documented_tex usable lib D kind (pt_specular_u m) (pt_specular m)))
    (match pt_bump m with [] => None | s => Some (documented_tex usable lib D kind None s) end).

Lemma build_material_ok : forall lib m, plain_mat m -> exists lib',
  build_material (path_of w) usable dir kind lib m = Ok (lib', documented_material lib m) /\ same_answers lib' lib.
Proof.
  intros lib m (P1 & P2 & P3). unfold build_material, documented_material.
  destruct (choose_ok lib (pt_diffuse_u m) _ P1) as (l1 & E1 & S1). rewrite E1. cbn [bind].
  destruct (choose_ok l1 (pt_specular_u m) _ P2) as (l2 & E2 & S2). rewrite E2. cbn [bind].
  rewrite (documented_tex_same l1 lib (pt_specular_u m) _ S1 P2).
  assert (S := same_trans _ _ _ S2 S1).
  destruct (pt_bump m) as [| x s].
  - cbn [bind]. exists l2. split; [reflexivity | exact S].
  - destruct P3 as [Z | Hn]; [discriminate |]. destruct (load_plain l2 (x :: s) Hn) as (l3 & E3 & S3). rewrite E3. cbn [bind].
    exists l3. split; [| exact (same_trans _ _ _ S3 S)]. unfold documented_tex.
    match goal with |- context [documented_texture usable l2 ?p kind ?n] =>
      replace (documented_texture usable l2 p kind n) with (documented_texture usable lib p kind n) by (symmetry; exact (S _ Hn)) end.
    reflexivity.
Qed.
End Tex.

(* ---- material library ---- *)
Lemma find_mat_add : forall l n m k, find_mat (add_mat l n m) k =
  match find_mat l k with Some x => Some x | None => if text_dec n k then Some m else None end.
Proof.
  intros l n m k. unfold add_mat. destruct (find_mat l n) as [x |] eqn:E.
  - destruct (find_mat l k) eqn:F; [reflexivity |]. destruct (text_dec n k) as [<- |]; [congruence | reflexivity].
  - clear E. induction l as [| [k' x] l IH]; [reflexivity |]. cbn [app find_mat]. destruct (text_dec k' k); [reflexivity | exact IH].
Qed.

Lemma build_materials_ok : forall w usable dir D kind, Forall name w -> file_absolute dir = Ok (path_of D) -> D <> [] -> Forall name D ->
  forall l lib0 lib mats, Forall plain_mat l -> same_answers usable D kind lib lib0 ->
  exists lib' mats', build_materials (path_of w) usable dir kind lib mats l = Ok (lib', mats') /\
    same_answers usable D kind lib' lib0 /\
    forall n, find_mat mats' n = match find_mat mats n with
      | Some m => Some m
      | None => option_map (fun m => OMaterial (documented_material usable D kind lib0 m))
                           (find (fun m => if text_dec (pt_name m) n then true else false) l)
      end.
Proof.
  intros w usable dir D kind Hw HA HD FD. induction l as [| m l IH]; intros lib0 lib mats P S.
  - exists lib, mats. split; [reflexivity |]. split; [exact S |]. intros n. destruct (find_mat mats n); reflexivity.
  - inversion_clear P as [| ? ? Pm Pl]. cbn [build_materials find]. destruct (find_mat mats (pt_name m)) as [b |] eqn:F.
    + destruct (IH lib0 lib mats Pl S) as (lib' & mats' & E & S' & N). exists lib', mats'. split; [exact E |]. split; [exact S' |].
      intros n. rewrite N. destruct (find_mat mats n) eqn:Fn; [reflexivity |].
      destruct (text_dec (pt_name m) n) as [<- |]; [congruence | reflexivity].
    + destruct (build_material_ok w usable dir D kind Hw HA HD FD lib m Pm) as (l1 & E1 & S1). rewrite E1. cbn [bind].
      destruct (IH lib0 l1 (add_mat mats (pt_name m) (OMaterial (documented_material usable D kind lib m))) Pl
        (same_trans usable D kind _ _ _ S1 S)) as (lib' & mats' & E & S' & N).
      exists lib', mats'. split; [exact E |]. split; [exact S' |]. intros n. rewrite N, find_mat_add.
      destruct (find_mat mats n); [reflexivity |]. destruct (text_dec (pt_name m) n); [| reflexivity]. cbn [option_map].
      unfold documented_material. destruct Pm as (P1 & P2 & P3).
      rewrite (documented_tex_same usable D kind lib lib0 _ _ S P1), (documented_tex_same usable D kind lib lib0 _ _ S P2).
      destruct (pt_bump m) as [| x s]; [reflexivity |]. rewrite (documented_tex_same usable D kind lib lib0 None _ S P3). reflexivity.
Qed.

(* ---- meshes ---- *)
Lemma find_mesh_app : forall l m n, find_mesh (l ++ [m]) n =
  match find_mesh l n with Some x => Some x | None => if text_dec (ms_name m) n then Some m else None end.
Proof.
  induction l as [| a l IH]; intros m n; [reflexivity |]. cbn [app find_mesh]. destruct (text_dec (ms_name a) n); [reflexivity | apply IH].
Qed.

Lemma find_mesh_in : forall l n m, find_mesh l n = Some m -> In m l /\ ms_name m = n.
Proof.
  induction l as [| a l IH]; intros n m H; [discriminate |]. cbn in H. destruct (text_dec (ms_name a) n).
  - injection H as ->. split; [left; reflexivity | assumption].
  - destruct (IH n m H). split; [right; assumption | assumption].
Qed.

Lemma find_mesh_first : forall l n m, find_mesh l n = Some m <-> mesh_named l n m.
Proof.
  induction l as [| a l IH]; intros n m.
  - split; [discriminate |]. intros (pre & post & E & _). destruct pre; discriminate.
  - cbn [find_mesh]. destruct (text_dec (ms_name a) n) as [E | E]; split.
    + intros H. injection H as ->. exists [], l. split; [reflexivity |]. split; [exact E | constructor].
    + intros (pre & post & E1 & E2 & E3). destruct pre as [| p pre]; [injection E1 as -> _; reflexivity |].
      injection E1 as -> _. inversion_clear E3. contradiction.
    + intros H. apply IH in H. destruct H as (pre & post & -> & H2 & H3). exists (a :: pre), post. split; [reflexivity |].
      split; [exact H2 |]. constructor; assumption.
    + intros (pre & post & E1 & E2 & E3). destruct pre as [| p pre]; [injection E1 as -> _; contradiction |].
      injection E1 as -> ->. inversion_clear E3. apply IH. exists pre, post. repeat split; assumption.
Qed.

(* allocate keeps the first mesh of each name and deletes the others *)
Lemma allocate_ok : forall l shapes, NoDup (map ms_name shapes) ->
  let '(s, del) := allocate shapes l in
  NoDup (map ms_name s) /\ Permutation (map ms_id shapes ++ map ms_id l) (map ms_id s ++ del) /\
  (forall n, find_mesh s n = match find_mesh shapes n with Some m => Some m | None => find_mesh l n end) /\
  (exists t, s = shapes ++ t).
Proof.
  induction l as [| m l IH]; intros shapes ND; cbn [allocate].
  - split; [exact ND |]. split; [cbn; apply Permutation_refl |]. split.
    + intros n. destruct (find_mesh shapes n); reflexivity.
    + exists []. rewrite app_nil_r. reflexivity.
  - destruct (find_mesh shapes (ms_name m)) as [x |] eqn:F.
    + specialize (IH shapes ND). destruct (allocate shapes l) as [s del]. destruct IH as (N & P & Fd & T).
      split; [exact N |]. split; [| split; [| exact T]].
      * cbn [map]. apply Permutation_trans with (ms_id m :: map ms_id shapes ++ map ms_id l); [apply Permutation_sym, Permutation_middle |].
        apply Permutation_trans with (ms_id m :: map ms_id s ++ del); [constructor; exact P | apply Permutation_middle].
      * intros n. rewrite Fd. cbn [find_mesh]. destruct (find_mesh shapes n) eqn:Fn; [reflexivity |].
        destruct (text_dec (ms_name m) n) as [<- |]; [congruence | reflexivity].
    + assert (ND' : NoDup (map ms_name (shapes ++ [m]))).
      { rewrite map_app. cbn. apply NoDup_Add with (a := ms_name m) (l := map ms_name shapes).
        - pose proof (Add_app (ms_name m) (map ms_name shapes) []) as A. rewrite app_nil_r in A. exact A.
        - split; [exact ND |]. intros Z. apply in_map_iff in Z. destruct Z as (y & Ey & Iy).
          clear - F Ey Iy. induction shapes as [| a shapes IH]; [destruct Iy |]. cbn in F.
          destruct (text_dec (ms_name a) (ms_name m)); [discriminate |]. destruct Iy as [-> | Iy]; [contradiction | auto]. }
      specialize (IH (shapes ++ [m]) ND'). destruct (allocate (shapes ++ [m]) l) as [s del]. destruct IH as (N & P & Fd & T).
      split; [exact N |]. split; [| split].
      * rewrite map_app in P. rewrite <- app_assoc in P. exact P.
      * intros n. rewrite Fd, find_mesh_app. cbn [find_mesh]. destruct (find_mesh shapes n); [reflexivity |].
        destruct (text_dec (ms_name m) n); reflexivity.
      * destruct T as (t & ->). exists (m :: t). rewrite <- app_assoc. reflexivity.
Qed.

Lemma build_objects_used : forall mats shapes l obs used, build_objects mats shapes l = (obs, used) ->
  forall o i, In o obs -> ob_shape o = SMesh i -> exists m, find_mesh shapes (me_name (ob_desc o)) = Some m /\ ms_id m = i /\ In (ms_name m) used.
Proof.
  intros mats shapes. induction l as [| w l IH]; intros obs used E o i Io So.
  - injection E as <- <-. destruct Io.
  - cbn [build_objects] in E. destruct (build_objects mats shapes l) as [obs' used']. specialize (IH obs' used' eq_refl o i).
    unfold build_object in E.
    destruct (text_dec (me_name w) sphere_name).
    + injection E as <- <-. destruct Io as [<- | Io]; [discriminate |]. apply IH; assumption.
    + destruct (find_mesh shapes (me_name w)) as [m |] eqn:F.
      * injection E as <- <-. destruct Io as [<- | Io].
        -- cbn in *. injection So as <-. exists m. split; [exact F |]. split; [reflexivity |]. apply find_mesh_in in F. left. symmetry. apply F.
        -- destruct (IH Io So) as (m' & H1 & H2 & H3). exists m'. split; [exact H1 |]. split; [exact H2 | right; exact H3].
      * injection E as <- <-. apply IH; assumption.
Qed.

Lemma build_objects_names : forall mats shapes l obs used, build_objects mats shapes l = (obs, used) ->
  forall n, In n used <-> n <> sphere_name /\ (exists m, find_mesh shapes n = Some m) /\ In n (map me_name l).
Proof.
  intros mats shapes. induction l as [| w l IH]; intros obs used E n.
  - injection E as <- <-. split; [intros [] | intros (_ & _ & [])].
  - cbn [build_objects] in E. destruct (build_objects mats shapes l) as [obs' used']. specialize (IH obs' used' eq_refl n).
    unfold build_object in E. cbn [map In].
    destruct (text_dec (me_name w) sphere_name) as [S | S].
    + injection E as <- <-. cbn [ob_shape]. rewrite IH. split; [tauto |]. intros (H1 & H2 & [H3 | H3]); [exfalso; apply H1; congruence | tauto].
    + destruct (find_mesh shapes (me_name w)) as [m |] eqn:F.
      * injection E as <- <-. cbn [ob_shape In]. rewrite IH. split.
        -- intros [<- | H]; [| tauto]. split; [exact S |]. split; [exists m; exact F | left; reflexivity].
        -- intros (H1 & H2 & [H3 | H3]); [left; exact H3 | right; tauto].
      * injection E as <- <-. rewrite IH. split; [tauto |]. intros (H1 & (m & H2) & [H3 | H3]); [rewrite <- H3 in H2; congruence | split; [exact H1 | split; [exists m; exact H2 | exact H3]]].
Qed.

Lemma filter_partition : forall (P : parsed_mesh -> bool) l,
  Permutation (map ms_id l) (map ms_id (filter (fun m => negb (P m)) l) ++ map ms_id (filter P l)).
Proof.
  induction l as [| a l IH]; [constructor |]. cbn [filter map]. destruct (P a); cbn [negb map app].
  - apply Permutation_trans with (ms_id a :: (map ms_id (filter (fun m => negb (P m)) l) ++ map ms_id (filter P l))); [constructor; exact IH | apply Permutation_middle].
  - constructor. exact IH.
Qed.
