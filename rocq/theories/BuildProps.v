(* C189-C200: the materials and objects of a configuration. *)
From Coq Require Import QArith Qminmax Lqa Permutation.
From Verif Require Import Common PathModel PathSpec PathProofs PathProps MaskModel DriverModel DriverSpec DriverProofs DriverProps
  BuildModel BuildSpec BuildProofs.
Local Open Scope nat_scope.

(* C189.  A material is described by the last value of each of its keys and by the documented
   defaults. *)
Theorem material_keys : forall n keys, parsed_mat n keys = described_mat n keys.
Proof. exact parsed_mat_ok. Qed.
Print Assumptions material_keys.
Example material_keys_ex : parsed_mat (chars "m") [MRough (1 # 2); MType Metal; MRough (1 # 4); MElem 3] =
  mk_pmat (chars "m") 3 Metal (Cauchy (145 # 100) 0 0) (1 # 4) (-1) KBeckmann [] None [] None [].
Proof. reflexivity. Qed.

(* C190.  For roughness in [0,1] and anisotropy unset or in [0,1] every type of material has the
   documented layers: smooth, of the chosen distribution, or of the anisotropic one, with the
   diffuse texture on the diffuse or transmitted layer and the specular one on the reflected. *)
Theorem material_layers : forall t e i k r a df sp, documented_range r a ->
  documented_layers e i k r a df sp t (layers t e i k r (stored a) df sp).
Proof. exact layers_documented. Qed.
Print Assumptions material_layers.
Example material_layers_ex :
  layers Glass 2 (Cauchy 1 0 0) KBlinn (1 # 2) (stored None) (TxUniform (1, 2, 3)%Z) TxWhite =
  [(LMicroT (Blinn (2 / ((1 # 2) * (1 # 2)) - 2)) (Cauchy 1 0 0), TxUniform (1, 2, 3)%Z);
   (LMicroR (Blinn (2 / ((1 # 2) * (1 # 2)) - 2)) (FDielectric (Cauchy 1 0 0)), TxWhite)] /\
  layers Metal 5 (Cauchy 1 0 0) KBlinn (1 # 2) (stored (Some 0%Q)) TxWhite TxWhite =
  [(LMicroR (GgxAniso (1 # 2) (1 # 1000)) (FConductor 5), TxWhite)] /\
  documented_range (1 # 2) (Some 0%Q).
Proof. split; [reflexivity |]. split; [reflexivity |]. split; cbn; lra. Qed.

(* The documented layers are determined, up to equal numbers. *)
Theorem documented_dist_unique : forall k r a d d', documented_dist k r a d -> documented_dist k r a d' ->
  match d, d' with
  | Blinn e, Blinn e' => (e == e')%Q
  | Beckmann x, Beckmann y => (x == y)%Q
  | GgxIso x, GgxIso y => (x == y)%Q
  | GgxAniso x y, GgxAniso x' y' => (x == x')%Q /\ (y == y')%Q
  | _, _ => False
  end.
Proof.
  intros k r a d d' H H'.
  destruct H as [y E N x' y' X Y | N E e X | N E r' X | N E r' X];
  destruct H' as [z F M x'' y'' U V | M F f U | M F s' U | M F s' U];
  try congruence; try (rewrite X, U; reflexivity).
  - rewrite E in F. injection F as <-. rewrite X, U, Y, V. split; reflexivity.
  - apply M. rewrite E. exact N.
  - apply M. rewrite E. exact N.
  - apply M. rewrite E. exact N.
  - apply N. rewrite F. exact M.
  - apply N. rewrite F. exact M.
  - apply N. rewrite F. exact M.
Qed.
Print Assumptions documented_dist_unique.
Example documented_dist_unique_ex : documented_dist KGgx (1 # 2) None (GgxIso (1 # 2)).
Proof. apply doc_ggx; [intros [] | reflexivity | reflexivity]. Qed.

(* C191.  Whatever the roughness, anisotropy and distribution given, also outside the documented
   range, no layer gets a degenerate parameter: roughnesses are in (0,1], exponents at least 0. *)
Theorem material_valid : forall t e i k x y df sp,
  Forall (fun l => valid_layer (fst l)) (layers t e i k x y df sp) /\ layers t e i k x y df sp <> [].
Proof.
  intros. split; [apply layers_valid |]. unfold layers. destruct (adjust x y) as [x' y'].
  destruct t; try discriminate; destruct (Qeq_bool x' 0 && Qeq_bool y' (-1))%bool; discriminate.
Qed.
Print Assumptions material_valid.
Example material_valid_ex : layers Glossy 2 (Cauchy 1 0 0) KBlinn (-3) 7 TxWhite TxWhite =
  [(LLambert, TxWhite); (LMicroR (GgxAniso (1 # 1000) 1) (FDielectric (Cauchy (3 # 2) 0 0)), TxWhite)].
Proof. reflexivity. Qed.

(* C192.  "If this equals the roughness value [...] the surface is assumed isotropic": not for
   equal values above 1, where the chosen distribution is dropped. *)
Theorem material_isotropic_refuted : forall k e q sp, (1 < q)%Q ->
  layers Metal e (Cauchy 1 0 0) k q q TxWhite sp = [(LMicroR (GgxAniso 1 1) (FConductor e), TxWhite)].
Proof.
  intros k e q sp H. unfold layers, adjust.
  assert (X : clampq q 0 1 = 1%Q) by (unfold clampq; destruct (Qlt_le_dec q 0); [lra |]; destruct (Qlt_le_dec 1 q); [reflexivity | lra]).
  rewrite X. cbv zeta.
  assert (Y : Qeq_bool q 1 = false) by (destruct (Qeq_bool q 1) eqn:Y; [apply Qeqb_true in Y; lra | reflexivity]). rewrite Y.
  assert (Z : Qeq_bool q (-1) = false) by (destruct (Qeq_bool q (-1)) eqn:Z; [apply Qeqb_true in Z; lra | reflexivity]). rewrite Z.
  assert (W : clampq q min_roughness 1 = 1%Q).
  { unfold clampq, min_roughness. destruct (Qlt_le_dec q (1 # 1000)); [lra |]; destruct (Qlt_le_dec 1 q); [reflexivity | lra]. }
  rewrite W. reflexivity.
Qed.
Print Assumptions material_isotropic_refuted.
Example material_isotropic_ex : (1 < 5)%Q.
Proof. reflexivity. Qed.

(* C193.  After building, the library has under each name the first material declared with it,
   with the textures that its plain names meant when the first material was built: materials do
   not change the textures of each other.  "Default" stays the default material. *)
Theorem materials_built : forall w usable dir D kind lib l,
  Forall name w -> file_absolute dir = Ok (path_of D) -> D <> [] -> Forall name D -> Forall plain_mat l ->
  exists lib' mats, build_materials (path_of w) usable dir kind lib new_matlib l = Ok (lib', mats) /\
    find_mat mats (chars "Default") = Some default_mat /\
    (forall n, n <> chars "Default" -> (find_mat mats n = None <-> Forall (fun m => pt_name m <> n) l)) /\
    (forall pre m post, l = pre ++ m :: post -> pt_name m <> chars "Default" -> Forall (fun m' => pt_name m' <> pt_name m) pre ->
       find_mat mats (pt_name m) = Some (OMaterial (mk_material
         (layers (pt_type m) (pt_elem m) (pt_ior m) (pt_dist m) (pt_rx m) (pt_ry m)
            (documented_tex usable lib D kind (pt_diffuse_u m) (pt_diffuse m))
            (documented_tex usable lib D kind (pt_specular_u m) (pt_specular m)))
         (match pt_bump m with [] => None | s => Some (documented_tex usable lib D kind None s) end)))).
Proof.
  intros w usable dir D kind lib l Hw HA HD FD P.
  destruct (build_materials_ok w usable dir D kind Hw HA HD FD l lib lib new_matlib P (fun n _ => eq_refl)) as (lib' & mats & E & _ & N).
  exists lib', mats. split; [exact E |]. split; [rewrite N; reflexivity |].
  assert (New : forall n, n <> chars "Default" -> find_mat new_matlib n = None).
  { intros n H. unfold new_matlib. cbn [find_mat]. destruct (text_dec _ n) as [Z | Z]; [exfalso; apply H; symmetry; exact Z | reflexivity]. }
  split.
  - intros n H. rewrite N, (New n H). clear - l. induction l as [| m l IH]; [split; [constructor | reflexivity] |].
    cbn [find]. destruct (text_dec (pt_name m) n) as [Z | Z].
    + split; [discriminate |]. intros F. inversion_clear F. contradiction.
    + rewrite IH. split; [intros F; constructor; assumption | intros F; inversion_clear F; assumption].
  - intros pre m post El Hd F. rewrite N, (New _ Hd).
    assert (X : find (fun m' => if text_dec (pt_name m') (pt_name m) then true else false) l = Some m).
    { rewrite El. clear - F. induction F as [| a pre Ha F IH]; cbn [app find].
      - destruct (text_dec (pt_name m) (pt_name m)); [reflexivity | contradiction].
      - destruct (text_dec (pt_name a) (pt_name m)); [contradiction | exact IH]. }
    rewrite X. reflexivity.
Qed.
Print Assumptions materials_built.
Example materials_built_ex : exists lib' mats, 
  build_materials (chars "/") (fun _ => true) {| f_mem := chars "/home/me" ++ [nul]; f_file := 6; f_ext := 8 |} TTrilinear [] new_matlib
    [parsed_mat (chars "a") [MDiffuse (chars "w.png")]; parsed_mat (chars "a") [MType Metal]; parsed_mat (chars "b") [MDiffuse (chars "w.png"); MSpecularU (300, 1, -2)%Q; MType Glossy]] = Ok (lib', mats) /\
  map fst mats = [chars "Default"; chars "a"; chars "b"] /\ map fst lib' = [chars "w.png"] /\
  option_map (fun b => match b with OMaterial m => map snd (m_layers m) | _ => [] end) (find_mat mats (chars "b")) =
  Some [TxImage (mk_texture (chars "/home/me/w.png") (1, 1)%Q (0, 0)%Q TTrilinear); TxUniform (255, 1, 0)%Z].
Proof. eexists. eexists. split; [vm_compute; reflexivity |]. repeat split; reflexivity. Qed.

(* C194.  A dual material of a new name holds the materials of the two names, or the default one
   for a name that is missing: the names are those of materials and of dual materials before it. *)
Theorem dual_components : forall cwd usable dir kind lib mats d l r,
  build_duals cwd usable dir kind lib mats (d :: l) = Ok r -> find_mat mats (pu_name d) = None ->
  exists t, find_mat (snd r) (pu_name d) = Some (ODual (get_or_default mats (pu_first d)) (get_or_default mats (pu_second d)) t
     (pm_chn (pu_mask d)) (pm_inv (pu_mask d))) /\ (pm_tex (pu_mask d) = [] -> t = None) /\
  (forall n m, find_mat mats n = Some m -> find_mat (snd r) n = Some m).
Proof.
  intros cwd usable dir kind lib mats d l r E F.
  assert (Keep : forall l lib mats r, build_duals cwd usable dir kind lib mats l = Ok r ->
    forall n m, find_mat mats n = Some m -> find_mat (snd r) n = Some m).
  { clear. induction l as [| d l IH]; intros lib mats r E n m F; [injection E as <-; exact F |]. cbn [build_duals] in E.
    match type of E with bind ?x _ = _ => destruct x as [[lib1 t] | |]; [| discriminate | discriminate] end. cbn [bind] in E.
    apply (IH _ _ _ E). rewrite find_mat_add, F. reflexivity. }
  cbn [build_duals] in E.
  destruct (match pm_tex (pu_mask d) with
      | [] => Ok (lib, None)
      | a :: l => let! (lib0, t) := load_texture cwd usable dir lib new_tex kind (a :: l) in Ok (lib0, Some (tex_of t))
      end) as [[lib1 t] | |] eqn:E1; [| discriminate | discriminate]. cbn [bind] in E.
  exists t. split; [apply (Keep _ _ _ _ E); rewrite find_mat_add, F; destruct (text_dec (pu_name d) (pu_name d)); [reflexivity | contradiction] |].
  split; [| intros n m H; apply (Keep _ _ _ _ E); rewrite find_mat_add, H; reflexivity].
  intros Z. rewrite Z in E1. injection E1 as _ <-. reflexivity.
Qed.
Print Assumptions dual_components.
Example dual_components_ex : exists r, build_duals (chars "/") (fun _ => true) {| f_mem := chars "/home/me" ++ [nul]; f_file := 6; f_ext := 8 |}
    TTrilinear [] (new_matlib ++ [(chars "m", OMaterial (mk_material [] None))])
    [mk_pdual (chars "d") (chars "m") (chars "x") no_mask] = Ok r /\
  find_mat (snd r) (chars "d") = Some (ODual (OMaterial (mk_material [] None)) default_mat None CAlpha false).
Proof. eexists. split; [vm_compute; reflexivity |]. reflexivity. Qed.

(* C195.  "dualmaterial depends on material [...] parsed after reading every file": a dual material
   that names a later one holds the default material instead. *)
Theorem dual_forward_refuted : forall cwd usable dir kind lib mats a b x y m r,
  find_mat mats a = None -> find_mat mats b = None -> a <> b ->
  build_duals cwd usable dir kind lib mats [mk_pdual a b b no_mask; mk_pdual b x y m] = Ok r ->
  find_mat (snd r) a = Some (ODual default_mat default_mat None CAlpha false) /\
  exists u v t c i, find_mat (snd r) b = Some (ODual u v t c i).
Proof.
  intros cwd usable dir kind lib mats a b x y m r Fa Fb Ne E. cbn [build_duals pu_name pu_first pu_second pu_mask pm_tex pm_chn pm_inv no_mask bind] in E.
  unfold get_or_default at 1 2 in E. rewrite Fb in E.
  match type of E with bind ?x _ = _ => destruct x as [[lib1 t] | |]; [| discriminate | discriminate] end. cbn [bind] in E.
  injection E as <-. cbn [snd]. rewrite !find_mat_add, Fa, Fb.
  destruct (text_dec a a); [| contradiction]. split; [reflexivity |].
  destruct (text_dec a b); [contradiction |]. destruct (text_dec b b); [| contradiction].
  repeat eexists.
Qed.
Print Assumptions dual_forward_refuted.
Example dual_forward_ex : find_mat new_matlib (chars "a") = None /\ find_mat new_matlib (chars "b") = None /\ chars "a" <> chars "b".
Proof. repeat split; discriminate. Qed.

(* ---- objects ---- *)

(* C196.  Every mesh made from an obj file is either deleted or given to the scene, once. *)
Theorem meshes_owned_once : forall mats meshes l obs del kept, place mats meshes l = (obs, del, kept) ->
  Permutation (map ms_id meshes) (del ++ kept).
Proof.
  intros mats meshes l obs del kept E. unfold place in E. pose proof (allocate_ok meshes [] (NoDup_nil _)) as A.
  destruct (allocate [] meshes) as [shapes dup]. destruct A as (_ & P & _ & _). cbn [map app] in P.
  destruct (build_meshes mats shapes l) as [obs' used]. unfold clean_up in E. injection E as <- <- <-.
  apply Permutation_trans with (1 := P). rewrite <- app_assoc.
  apply Permutation_trans with (dup ++ map ms_id shapes); [apply Permutation_app_comm |]. apply Permutation_app_head.
  pose proof (filter_partition (fun m => if in_dec text_dec (ms_name m) used then true else false) shapes) as F.
  assert (X : filter (fun m => if in_dec text_dec (ms_name m) used then false else true) shapes =
              filter (fun m => negb (if in_dec text_dec (ms_name m) used then true else false)) shapes).
  { clear. induction shapes as [| a s IH]; [reflexivity |]. cbn [filter]. destruct (in_dec text_dec (ms_name a) used); cbn [negb]; rewrite IH; reflexivity. }
  rewrite X. exact F.
Qed.
Print Assumptions meshes_owned_once.

(* C197.  The shape of every object in the scene is the built-in sphere or a mesh that the scene
   keeps, never a deleted one: the first mesh parsed with the name of the object. *)
Theorem objects_alive : forall mats meshes l obs del kept o, NoDup (map ms_id meshes) ->
  place mats meshes l = (obs, del, kept) -> In o obs ->
  match ob_shape o with
  | SSphere => True
  | SMesh i => In i kept /\ ~ In i del /\ exists m, mesh_named meshes (me_name (ob_desc o)) m /\ ms_id m = i
  end.
Proof.
  intros mats meshes l obs del kept o ND E Io. pose proof (meshes_owned_once _ _ _ _ _ _ E) as Own.
  unfold place in E. pose proof (allocate_ok meshes [] (NoDup_nil _)) as A.
  destruct (allocate [] meshes) as [shapes dup]. destruct A as (_ & _ & Fd & _).
  destruct (build_meshes mats shapes l) as [obs' used] eqn:B. unfold clean_up in E. injection E as -> <- <-.
  destruct (ob_shape o) as [| i] eqn:So; [exact I |].
  destruct (build_objects_used mats shapes (rev l) obs used B o i Io So) as (m & F & Ei & U).
  assert (K : In i (map ms_id (filter (fun m => if in_dec text_dec (ms_name m) used then true else false) shapes))).
  { apply in_map_iff. exists m. split; [exact Ei |]. apply filter_In. split; [apply (find_mesh_in _ _ _ F) |].
    destruct (in_dec text_dec (ms_name m) used); [reflexivity | contradiction]. }
  split; [exact K |]. split.
  - intros Z. assert (ND' : NoDup ((dup ++ map ms_id (filter (fun m => if in_dec text_dec (ms_name m) used then false else true) shapes)) ++
        map ms_id (filter (fun m => if in_dec text_dec (ms_name m) used then true else false) shapes))).
    { apply Permutation_NoDup with (1 := Own). exact ND. }
    clear - Z K ND'. apply in_split in Z. destruct Z as (a & b & Z). rewrite Z in ND'. rewrite <- app_assoc in ND'. cbn in ND'.
    apply NoDup_remove_2 in ND'. apply ND'. rewrite !in_app_iff. right. right. exact K.
  - exists m. split; [| exact Ei]. apply find_mesh_first. rewrite Fd in F. exact F.
Qed.
Print Assumptions objects_alive.

(* C198.  A mesh is kept exactly if it is the first of its name, an object of the world or a light
   has that name, and the name is not "Sphere". *)
Theorem meshes_kept : forall mats meshes l obs del kept, place mats meshes l = (obs, del, kept) ->
  forall i, In i kept <-> exists m, mesh_named meshes (ms_name m) m /\ ms_id m = i /\
    ms_name m <> chars "Sphere" /\ In (ms_name m) (map me_name l).
Proof.
  intros mats meshes l obs del kept E i. unfold place in E. pose proof (allocate_ok meshes [] (NoDup_nil _)) as A.
  destruct (allocate [] meshes) as [shapes dup]. destruct A as (ND & _ & Fd & _). cbn [find_mesh] in Fd.
  destruct (build_meshes mats shapes l) as [obs' used] eqn:B. unfold clean_up in E. injection E as -> <- <-.
  pose proof (build_objects_names mats shapes (rev l) obs used B) as U.
  assert (Self : forall m, In m shapes -> find_mesh shapes (ms_name m) = Some m).
  { clear - ND. induction shapes as [| a s IH]; intros m Im; [destruct Im |]. cbn [find_mesh]. cbn in ND. inversion_clear ND as [| ? ? N1 N2].
    destruct (text_dec (ms_name a) (ms_name m)) as [Z | Z].
    - destruct Im as [-> | Im]; [reflexivity |]. exfalso. apply N1. rewrite Z. apply in_map. exact Im.
    - destruct Im as [-> | Im]; [contradiction | apply IH; assumption]. }
  rewrite in_map_iff. split.
  - intros (m & Ei & F). apply filter_In in F. destruct F as [Im F]. destruct (in_dec text_dec (ms_name m) used) as [Y |]; [| discriminate].
    exists m. split; [apply find_mesh_first; rewrite <- Fd; apply Self; exact Im |]. split; [exact Ei |].
    apply U in Y. destruct Y as (Y1 & _ & Y2). split; [exact Y1 |]. rewrite map_rev in Y2. apply in_rev in Y2. exact Y2.
  - intros (m & M & Ei & S & L). apply find_mesh_first in M. rewrite <- Fd in M. exists m. split; [exact Ei |].
    apply filter_In. split; [apply (find_mesh_in _ _ _ M) |]. destruct (in_dec text_dec (ms_name m) used) as [Y | Y]; [reflexivity |].
    exfalso. apply Y. apply U. split; [exact S |]. split; [exists m; exact M |]. rewrite map_rev. apply -> in_rev. exact L.
Qed.
Print Assumptions meshes_kept.

(* C199.  The objects enter the scene in the reverse of the order in which they are declared;
   those whose name is neither "Sphere" nor the name of a mesh are left out, all others have the
   material they name, the default if it is missing, or those of the mesh if they name none. *)
Theorem objects_placed : forall mats meshes l obs del kept, place mats meshes l = (obs, del, kept) ->
  map ob_desc obs = filter (fun w => if text_dec (me_name w) (chars "Sphere") then true
     else if in_dec text_dec (me_name w) (map ms_name meshes) then true else false) (rev l) /\
  forall o, In o obs ->
    (ob_shape o = SSphere <-> me_name (ob_desc o) = chars "Sphere") /\
    ob_materials o =
      (if me_light (ob_desc o) then [default_mat]
       else match me_material (ob_desc o) with
            | [] => match find_mesh meshes (me_name (ob_desc o)) with
                    | Some m => if text_dec (me_name (ob_desc o)) (chars "Sphere") then [default_mat] else ms_materials m
                    | None => [default_mat] end
            | n => [match find_mat mats n with Some m => m | None => default_mat end] end).
Proof.
  intros mats meshes l obs del kept E. unfold place in E. pose proof (allocate_ok meshes [] (NoDup_nil _)) as A.
  destruct (allocate [] meshes) as [shapes dup]. destruct A as (_ & _ & Fd & _). cbn [find_mesh] in Fd.
  destruct (build_meshes mats shapes l) as [obs' used] eqn:B. unfold clean_up in E. injection E as -> _ _.
  unfold build_meshes in B. revert obs used B. generalize (rev l). clear l. 
  assert (Ex : forall n, find_mesh meshes n = None <-> ~ In n (map ms_name meshes)).
  { clear. intros n. induction meshes as [| a s IH]; [split; [intros _ [] | reflexivity] |]. cbn [find_mesh map In].
    destruct (text_dec (ms_name a) n) as [Z | Z]; [split; [discriminate | intros H; exfalso; apply H; left; exact Z] |].
    rewrite IH. tauto. }
  induction l as [| w l IH]; intros obs used B; [injection B as <- <-; split; [reflexivity | intros o []] |].
  cbn [build_objects] in B. destruct (build_objects mats shapes l) as [obs1 used1]. destruct (IH obs1 used1 eq_refl) as [H1 H2]. clear IH.
  cbn [filter]. unfold build_object in B. rewrite Fd in B. change (String.list_ascii_of_string "Sphere") with sphere_name in *. change (chars "Sphere") with sphere_name in *.
  destruct (text_dec (me_name w) sphere_name) as [S | S].
  - injection B as <- <-. cbn [map ob_desc]. split; [rewrite H1; reflexivity |]. intros o [<- | Io]; [| apply H2; exact Io].
    cbn [ob_shape ob_desc ob_materials]. split; [split; [intros _; exact S | reflexivity] |].
    destruct (me_light w); [reflexivity |]. destruct (me_material w); [| reflexivity].
    destruct (find_mesh meshes (me_name w)); [| reflexivity]. destruct (text_dec (me_name w) sphere_name); [reflexivity | contradiction].
  - destruct (find_mesh meshes (me_name w)) as [m |] eqn:F.
    + injection B as <- <-. destruct (in_dec text_dec (me_name w) (map ms_name meshes)) as [I | I]; [| apply Ex in I; congruence].
      cbn [map ob_desc]. split; [rewrite H1; reflexivity |]. intros o [<- | Io]; [| apply H2; exact Io].
      cbn [ob_shape ob_desc ob_materials]. split; [split; [discriminate | intros Z; contradiction] |].
      destruct (me_light w); [reflexivity |]. destruct (me_material w); [| reflexivity]. rewrite F.
      destruct (text_dec (me_name w) sphere_name); [contradiction | reflexivity].
    + injection B as <- <-. destruct (in_dec text_dec (me_name w) (map ms_name meshes)) as [I | I]; [apply Ex in F; contradiction |].
      split; [exact H1 | exact H2].
Qed.
Print Assumptions objects_placed.

Definition ex_meshes : list parsed_mesh := [mk_mesh 1 (chars "Monkey") []; mk_mesh 2 (chars "Plane") []; mk_mesh 3 (chars "Monkey") []; mk_mesh 4 (chars "Sphere") []].
Example place_ex :
  let '(obs, del, kept) := place new_matlib ex_meshes
     [described (chars "Monkey") [] false; described (chars "Sphere") [] true; described (chars "Cat") [] false] in
  map ob_shape obs = [SSphere; SMesh 1] /\ del = [3; 2; 4] /\ kept = [1] /\ NoDup (map ms_id ex_meshes).
Proof. vm_compute. repeat split. repeat constructor; cbn; intuition discriminate. Qed.

(* C200.  The arrays of materials of duplicate meshes and of spheres are never freed. *)
Theorem arrays_balanced : forall meshes l,
  arrays_allocated meshes l = arrays_freed meshes + length (snd (allocate [] meshes)) +
    length (filter (fun w => if text_dec (me_name w) (chars "Sphere") then true else false) l).
Proof.
  intros meshes l. unfold arrays_allocated, arrays_freed. pose proof (allocate_ok meshes [] (NoDup_nil _)) as A.
  destruct (allocate [] meshes) as [shapes dup]. destruct A as (_ & P & _). apply Permutation_length in P.
  cbn [map app] in P. rewrite app_length, !map_length in P. cbn [fst snd]. rewrite P.
  change (chars "Sphere") with sphere_name. lia.
Qed.
Print Assumptions arrays_balanced.
Theorem arrays_leaked_refuted : forall meshes l w, In w l -> me_name w = chars "Sphere" ->
  arrays_freed meshes < arrays_allocated meshes l.
Proof.
  intros meshes l w I E. rewrite arrays_balanced.
  assert (X : In w (filter (fun w => if text_dec (me_name w) (chars "Sphere") then true else false) l)).
  { apply filter_In. split; [exact I |]. destruct (text_dec (me_name w) (chars "Sphere")); [reflexivity | contradiction]. }
  destruct (filter _ l); [destruct X | cbn; lia].
Qed.
Print Assumptions arrays_leaked_refuted.
Example arrays_leaked_ex : arrays_freed ex_meshes = 3 /\ arrays_allocated ex_meshes [described (chars "Sphere") [] false] = 5.
Proof. split; reflexivity. Qed.
