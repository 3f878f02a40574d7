(* Lemmas about parsing configurations. *)
From Coq Require Import QArith.
From Verif Require Import Common PathModel PathSpec PathProofs PathProps DriverModel DriverSpec.
Local Open Scope nat_scope.

Lemma last_of_nil : forall {K A} (f : K -> option A) d, last_of f d [] = d.
Proof. reflexivity. Qed.

Lemma last_cons : forall {A} (l : list A) a d, last (a :: l) d = last l a.
Proof.
  intros A l. induction l as [| b l IH]; intros a d; [reflexivity |].
  change (last (a :: b :: l) d) with (last (b :: l) d). rewrite IH. symmetry. apply IH.
Qed.

Lemma last_of_cons : forall {K A} (f : K -> option A) d k l,
  last_of f d (k :: l) = last_of f (match f k with Some a => a | None => d end) l.
Proof.
  intros K A f d k l. unfold last_of. cbn [flat_map]. destruct (f k) as [a |]; [| reflexivity].
  cbn [app]. apply last_cons.
Qed.

(* ---- keys of objects ---- *)

Definition from_mesh (m : pmesh) (keys : list mkey) : pmesh :=
  mk_pmesh
    (last_of (fun k => match k with KName s => Some s | _ => None end) (me_name m) keys)
    (last_of (fun k => match k with KMaterial s => Some s | _ => None end) (me_material m) keys)
    (last_of (fun k => match k with KPosition v => Some v | _ => None end) (me_position m) keys)
    (last_of (fun k => match k with KRotation v => Some v | _ => None end) (me_rotation m) keys)
    (last_of (fun k => match k with KScale v => Some v | KScale1 q => Some (q, q, q) | _ => None end) (me_scale m) keys)
    (me_light m)
    (last_of (fun k => match k with KTemperature t => Some t | _ => None end) (me_temperature m) keys)
    (last_of (fun k => match k with KColor v => Some v | _ => None end) (me_color m) keys)
    (last_of (fun k => match k with KMask s l => Some (mk_pmask s (attributes_channel l) (attributes_inverted l)) | _ => None end)
             (me_mask m) keys).

Lemma attributes_ok : forall l c, let r := fold_left set_attribute l c in
  pm_chn r = last_of (fun a => match a with AChannel c => Some c | AInverted => None end) (pm_chn c) l /\
  pm_inv r = (attributes_inverted l || pm_inv c)%bool.
Proof.
  induction l as [| a l IH]; intros c; cbn [fold_left].
  - rewrite last_of_nil. split; reflexivity.
  - rewrite last_of_cons. destruct (IH (set_attribute c a)) as [E1 E2]. rewrite E1, E2.
    destruct a; cbn; split; try reflexivity. destruct (attributes_inverted l); reflexivity.
Qed.

Lemma keys_ok : forall keys m, fold_left set_key keys (m, no_mask) = (from_mesh m keys, no_mask).
Proof.
  induction keys as [| k keys IH]; intros m; cbn [fold_left].
  - destruct m. reflexivity.
  - assert (E : exists m', set_key (m, no_mask) k = (m', no_mask) /\ from_mesh m' keys = from_mesh m (k :: keys)).
    { unfold from_mesh. rewrite !last_of_cons. destruct k; eexists; (split; [reflexivity |]); try reflexivity.
      destruct (attributes_ok l no_mask) as [A1 A2]. cbn [me_name me_material me_position me_rotation me_scale me_light me_temperature me_color me_mask].
      rewrite A1, A2. rewrite Bool.orb_false_r. reflexivity. }
    destruct E as (m' & -> & E). rewrite IH, E. reflexivity.
Qed.

Lemma world_ok : forall n keys, fold_left set_key (KName n :: keys) (new_mesh, no_mask) = (described n keys false, no_mask).
Proof.
  intros. rewrite keys_ok. apply f_equal2; [| reflexivity]. unfold from_mesh, described. rewrite !last_of_cons. reflexivity.
Qed.

(* ---- settings ---- *)

Definition from_settings (s : settings) (l : list setting) : settings :=
  mk_settings
    (last_of (fun x => match x with SetOutput s => Some s | _ => None end) (st_output s) l)
    (last_of (fun x => match x with SetWidth s => Some s | _ => None end) (st_width s) l)
    (last_of (fun x => match x with SetHeight h => Some h | _ => None end) (st_height s) l)
    (last_of (fun x => match x with SetSpp n => Some n | _ => None end) (st_spp s) l)
    (last_of (fun x => match x with SetStratified b => Some b | _ => None end) (st_stratified s) l)
    (last_of (fun x => match x with SetFilter k => Some k | _ => None end) (st_filter s) l)
    (last_of (fun x => match x with SetValue0 q => Some q | _ => None end) (st_value0 s) l)
    (last_of (fun x => match x with SetValue1 q => Some q | _ => None end) (st_value1 s) l)
    (last_of (fun x => match x with SetCamera k => Some k | _ => None end) (st_camera s) l)
    (last_of (fun x => match x with SetPosition v => Some v | _ => None end) (st_position s) l)
    (last_of (fun x => match x with SetTarget v => Some v | _ => None end) (st_target s) l)
    (last_of (fun x => match x with SetUp v => Some v | _ => None end) (st_up s) l)
    (last_of (fun x => match x with SetFov q => Some q | _ => None end) (st_fov s) l).

Lemma setting_ok : forall s x l, from_settings (set_setting s x) l = from_settings s (x :: l).
Proof.
  intros s x l. unfold from_settings. rewrite !last_of_cons. destruct s, x; reflexivity.
Qed.

(* ---- statements ---- *)
Section Exec.
Context {mat dualmat : Type} (cwd : text) (usable : text -> bool).
Notation stmt := (stmt mat dualmat).
Notation driver := (driver mat dualmat).

(* between two statements nothing is left of the object before *)
Definition clean (d : driver) : Prop := d_tex d = new_tex /\ d_mesh d = new_mesh /\ d_mask d = no_mask.

Lemma exec_ok : forall dir (d : driver) (s : stmt) d', clean d -> exec cwd usable dir d s = Ok d' ->
  clean d' /\
  d_settings d' = from_settings (d_settings d) (settings_in [s]) /\
  d_shapes d' = d_shapes d ++ shapes_in [s] /\ d_meshes d' = d_meshes d ++ meshes_in [s] /\
  d_mats d' = d_mats d ++ mats_in [s] /\ d_duals d' = d_duals d ++ duals_in [s] /\
  d_children d' = d_children d ++ children_in [s].
Proof.
  intros dir d s d' C E. destruct d as [st kd lib tx me ma sh ms mt du ch]. destruct C as (C1 & C2 & C3). cbn in C1, C2, C3. subst tx me ma.
  assert (N : st = from_settings st []) by (destruct st; reflexivity).
  destruct s; unfold exec in E; try rewrite world_ok in E; unfold clean, settings_in, shapes_in, meshes_in, mats_in, duals_in, children_in;
    cbn [d_settings d_kind d_lib d_tex d_mesh d_mask d_shapes d_meshes d_mats d_duals d_children flat_map app];
    try (injection E as <-; cbn [d_settings d_kind d_lib d_tex d_mesh d_mask d_shapes d_meshes d_mats d_duals d_children];
         rewrite ?app_nil_r; repeat split; try exact N; try reflexivity).
  - rewrite <- setting_ok. destruct (set_setting st x); reflexivity.
  - destruct (load_texture _ _ _ _ _ _ _) as [[lib' t] | |]; [| discriminate | discriminate]. cbn in E. injection E as <-. cbn.
    rewrite ?app_nil_r. repeat split; try exact N; try reflexivity.
Qed.

Lemma from_settings_app : forall l1 l2 s, from_settings (from_settings s l1) l2 = from_settings s (l1 ++ l2).
Proof.
  induction l1 as [| x l1 IH]; intros l2 s.
  - assert (N : from_settings s [] = s) by (destruct s; reflexivity). rewrite N. reflexivity.
  - cbn [app]. rewrite <- !setting_ok. apply IH.
Qed.

Lemma exec_all_ok : forall dir (l : list stmt) (d d' : driver), clean d -> exec_all cwd usable dir d l = Ok d' ->
  clean d' /\
  d_settings d' = from_settings (d_settings d) (settings_in l) /\
  d_shapes d' = d_shapes d ++ shapes_in l /\ d_meshes d' = d_meshes d ++ meshes_in l /\
  d_mats d' = d_mats d ++ mats_in l /\ d_duals d' = d_duals d ++ duals_in l /\
  d_children d' = d_children d ++ children_in l.
Proof.
  intros dir l. induction l as [| s l IH]; intros d d' C E.
  - injection E as <-. cbn. rewrite !app_nil_r. repeat split; try apply C. destruct (d_settings d); reflexivity.
  - cbn [exec_all] in E. destruct (exec cwd usable dir d s) as [d1 | |] eqn:E1; [| discriminate | discriminate]. cbn [bind] in E.
    destruct (exec_ok _ _ _ _ C E1) as (C1 & S1 & A1 & B1 & M1 & D1 & H1).
    destruct (IH _ _ C1 E) as (C2 & S2 & A2 & B2 & M2 & D2 & H2).
    split; [exact C2 |]. rewrite S2, A2, B2, M2, D2, H2, S1, A1, B1, M1, D1, H1, <- !app_assoc, from_settings_app.
    unfold settings_in, shapes_in, meshes_in, mats_in, duals_in, children_in. cbn [flat_map]. rewrite !app_nil_r. repeat split; reflexivity.
Qed.

Lemma children_ok : forall content cs dir (d : driver) d' dir' paths, clean d ->
  run_children cwd usable content dir d cs = Ok (d', dir', paths) ->
  let all := flat_map (fun a => match content a with Some l => l | None => [] end) paths in
  clean d' /\ length paths = length cs /\
  d_shapes d' = d_shapes d ++ shapes_in all /\ d_meshes d' = d_meshes d ++ meshes_in all /\
  d_mats d' = d_mats d ++ mats_in all /\ d_duals d' = d_duals d ++ duals_in all.
Proof.
  intros content cs. induction cs as [| c cs IH]; intros dir d d' dir' paths C E.
  - injection E as <- <- <-. cbn. rewrite !app_nil_r. repeat split; apply C.
  - cbn [run_children] in E. destruct (open_child cwd dir c) as [[f dir1] | |]; [| discriminate | discriminate]. cbn [bind] in E.
    destruct (file_absolute f) as [a | |]; [| discriminate | discriminate]. cbn [bind] in E.
    set (body := match content a with Some l => l | None => [] end).
    assert (X : exists d1, exec_all cwd usable dir1 d body = Ok d1 /\
      (let! (d, dir, paths) := run_children cwd usable content dir1 d1 cs in Ok (d, dir, a :: paths)) = Ok (d', dir', paths)).
    { unfold body. destruct (content a) as [l |].
      - destruct (exec_all cwd usable dir1 d l) as [d1 | |]; [| discriminate | discriminate]. cbn [bind] in E. eauto.
      - cbn [bind] in E. exists d. split; [reflexivity | exact E]. }
    destruct X as (d1 & E1 & E2).
    destruct (run_children cwd usable content dir1 d1 cs) as [[[d2 dir2] paths2] | |] eqn:E3; [| discriminate | discriminate].
    cbn [bind] in E2. injection E2 as <- <- <-.
    destruct (exec_all_ok _ _ _ _ C E1) as (C1 & S1 & A1 & B1 & M1 & D1 & _).
    destruct (IH _ _ _ _ _ C1 E3) as (C2 & L2 & A2 & B2 & M2 & D2). cbn zeta in A2, B2, M2, D2.
    split; [exact C2 |]. split; [cbn [length]; rewrite L2; reflexivity |].
    cbn zeta. cbn [flat_map]. fold body. rewrite A2, B2, M2, D2, A1, B1, M1, D1, <- !app_assoc.
    unfold shapes_in, meshes_in, mats_in, duals_in. rewrite !flat_map_app. repeat split; reflexivity.
Qed.
End Exec.

(* ---- paths ---- *)

Lemma pieces_name : forall c, name c -> pieces c = [c].
Proof.
  intros c (_ & _ & _ & F). induction F as [| x c [H _] F IH]; [reflexivity |].
  cbn [pieces]. rewrite H, IH. reflexivity.
Qed.

Lemma pieces_app_sep : forall c l, name c -> pieces (c ++ "/"%char :: l) = c :: pieces l.
Proof.
  intros c l (_ & _ & _ & F). induction F as [| x c [H _] F IH]; [reflexivity |].
  cbn [app pieces]. rewrite H, IH. reflexivity.
Qed.

Lemma relative_cons : forall n ns, ns <> [] -> relative (n :: ns) = n ++ "/"%char :: relative ns.
Proof.
  intros n ns H. unfold relative, path_of. destruct ns as [| m ns]; [contradiction |]. reflexivity.
Qed.

Lemma pieces_relative : forall ns, ns <> [] -> Forall name ns -> pieces (relative ns) = ns.
Proof.
  induction ns as [| n ns IH]; intros H F; [contradiction |]. inversion_clear F as [| ? ? Hn F'].
  destruct ns as [| m ns].
  - unfold relative, path_of. cbn [flat_map tl chars String.list_ascii_of_string app]. rewrite app_nil_r. apply pieces_name. exact Hn.
  - rewrite relative_cons by discriminate. rewrite pieces_app_sep by exact Hn. rewrite IH by (assumption || discriminate). reflexivity.
Qed.

Lemma resolve_relative : forall cs ns, ns <> [] -> Forall name ns -> resolve cs (relative ns) = cs ++ ns.
Proof.
  intros cs ns H F. unfold resolve. rewrite pieces_relative by assumption. clear H. revert cs.
  induction F as [| n ns Hn F IH]; intros cs; cbn [fold_left]; [rewrite app_nil_r; reflexivity |].
  rewrite IH. unfold walk. destruct Hn as (H1 & H2 & H3 & _).
  destruct (list_eq_dec ascii_dec n []); [contradiction |]. destruct (list_eq_dec ascii_dec n (chars ".")); [contradiction |].
  destruct (list_eq_dec ascii_dec n (chars "..")); [contradiction |]. rewrite <- app_assoc. reflexivity.
Qed.

Lemma relative_cstr : forall ns, Forall name ns -> c_str (relative ns).
Proof.
  intros ns F. unfold relative. pose proof (path_cstr ns F) as H. destruct (path_of ns) as [| c l]; [constructor |].
  inversion_clear H. assumption.
Qed.

Lemma relative_not_absolute : forall ns, ns <> [] -> Forall name ns -> is_absolute (relative ns) = false.
Proof.
  intros ns H F. destruct ns as [| n ns]; [contradiction |]. inversion_clear F as [| ? ? (N1 & _ & _ & N) _].
  unfold relative, path_of. cbn [flat_map tl chars String.list_ascii_of_string app].
  destruct n as [| c n]; [contradiction |]. cbn [app is_absolute]. inversion_clear N as [| ? ? [N' _] _].
  unfold is_separator in N'. destruct (c =? "/")%char eqn:E; [discriminate |]. exact E.
Qed.

Lemma names_long_pops : forall ps cs, Forall name ps -> long_pops cs ps.
Proof.
  induction ps as [| p ps IH]; intros cs F; cbn; [exact I |]. inversion_clear F as [| ? ? (_ & _ & H & _) F'].
  split; [contradiction |]. apply IH. exact F'.
Qed.


Lemma resolve_absolute : forall ns, ns <> [] -> Forall name ns ->
  pieces (path_of ns) = [] :: ns /\ resolve [] (path_of ns) = ns.
Proof.
  intros ns H F. assert (P : pieces (path_of ns) = [] :: ns).
  { assert (X : path_of ns = "/"%char :: relative ns) by (unfold relative; destruct ns; reflexivity).
    rewrite X. cbn [pieces]. change (is_separator "/"%char) with true. cbv iota. rewrite pieces_relative by assumption. reflexivity. }
  split; [exact P |]. pose proof (resolve_relative [] ns H F) as R. unfold resolve in *. rewrite P.
  rewrite pieces_relative in R by assumption. exact R.
Qed.

(* a file object whose path is made of these names *)
Definition placed (f : file) (cs : list text) : Prop :=
  file_absolute f = Ok (path_of cs) /\ file_filename f = Ok (last cs []).

Lemma with_names_placed : forall cs, cs <> [] -> Forall name cs -> exists f, with_names (path_of cs) = Ok f /\ placed f cs.
Proof.
  intros cs H Fc. destruct cs as [| c r _] using rev_ind; [contradiction |].
  pose proof Fc as Fc'. apply Forall_app in Fc'. destruct Fc' as [Hr Hc]. inversion_clear Hc as [| ? ? Hc' _].
  destruct (with_names_ok r c (name_noslash c Hc') (proj1 Hc')) as (e & EW & _ & _).
  rewrite path_of_F by (destruct r; discriminate). eexists. split; [exact EW |]. split.
  - rewrite path_of_F by (destruct r; discriminate). apply (c_string_ok [] (F (r ++ [c])) []). apply F_cstr. exact Fc.
  - rewrite last_last. assert (Sp : F (r ++ [c]) ++ [nul] = (F r ++ [slash]) ++ c ++ [nul]).
    { rewrite F_app. cbn [flat_map]. rewrite app_nil_r, <- !app_assoc. reflexivity. }
    assert (L : length (F r ++ [slash]) = S (length (F r))) by (rewrite app_length; cbn; lia).
    unfold file_filename. cbn [f_mem f_file]. rewrite Sp, <- L. apply c_string_ok. now apply name_cstr.
Qed.

(* appending depends on the path of the object only *)
Lemma append_placed : forall f cs ns, file_absolute f = Ok (path_of cs) -> cs <> [] -> Forall name cs ->
  ns <> [] -> Forall name ns -> exists f', file_append f (relative ns) = Ok f' /\ placed f' (cs ++ ns).
Proof.
  intros f cs ns A Hne Hcs Hns Fns.
  destruct (with_names_placed (cs ++ ns)) as (f' & W & P); [destruct cs; [contradiction | discriminate] | apply Forall_app; auto |].
  exists f'. split; [| exact P]. unfold file_append. rewrite A. cbn [bind].
  pose proof (resolve_relative cs ns Hns Fns) as R.
  assert (X : append_relative (length (path_of cs) + length (relative ns) + 2) (path_of cs) (relative ns) = Ok (path_of (cs ++ ns))).
  { rewrite <- R. pose proof (pieces_relative ns Hns Fns) as E. destruct ns as [| p ps]; [contradiction |].
    inversion_clear Fns as [| ? ? Hp Hps].
    apply (relative_ok cs _ p ps); auto using names_noslash, names_ne.
    - apply first_of with (relative (p :: ps)); [exact E | rewrite E | rewrite E | intros Z; contradiction].
      + intros Z. injection Z as Z _. destruct Hp as (_ & N & _). apply N. exact Z.
      + intros Z. injection Z as Z _. destruct Hp as (_ & _ & N & _). apply N. exact Z.
    - apply names_long_pops. exact Hps.
    - left. intros Z. unfold resolve in R. rewrite E in R. rewrite R in Z. destruct cs; [contradiction | discriminate]. }
  rewrite X. exact W.
Qed.

Lemma copy_placed : forall f cs, file_absolute f = Ok (path_of cs) -> Forall name cs ->
  exists f', file_copy f = Ok f' /\ file_absolute f' = Ok (path_of cs) /\ f_file f' = f_file f /\ f_mem f' = path_of cs ++ [nul].
Proof.
  intros f cs A F. unfold file_absolute in A. unfold file_copy. rewrite A. cbn [bind].
  eexists. split; [reflexivity |]. split; [| split; reflexivity]. apply (c_string_ok [] (path_of cs) []). apply path_cstr. exact F.
Qed.

Lemma new_placed : forall w ns, Forall name w -> ns <> [] -> Forall name ns ->
  exists f, file_new (path_of w) (path_of ns) = Ok f /\ placed f ns.
Proof.
  intros w ns Hw H F. destruct (resolve_absolute ns H F) as [P R].
  assert (S : starts_at_root (path_of ns) = true) by (destruct ns; reflexivity).
  destruct (file_resolved w (path_of ns) Hw (path_cstr ns F)) as (f & E & A & _).
  { unfold resolvable. rewrite S, R, P. split; [left; exact H |]. cbn [long_pops]. split; [discriminate |].
    change (walk [] []) with (@nil (list ascii)). apply names_long_pops. exact F. }
  exists f. split; [exact E |]. unfold base in A. rewrite S, R in A. split; [exact A |].
  destruct ns as [| c r _] using rev_ind; [contradiction |]. rewrite last_last.
  apply (file_names (path_of w) (path_of (r ++ [c])) f r c); auto using path_cstr.
Qed.

Lemma path_is_absolute : forall ns, is_absolute (path_of ns) = true.
Proof. intros [| n ns]; reflexivity. Qed.

(* a path of the configuration *)
Lemma locate_ok : forall w dir cs c, Forall name w -> file_absolute dir = Ok (path_of cs) -> cs <> [] -> Forall name cs ->
  proper_child c -> exists f, locate (path_of w) dir (child_path c) = Ok f /\ placed f (child_place cs c).
Proof.
  intros w dir cs c Hw A Hne Hcs [Hc Fc]. unfold locate. destruct c as [ns | ns]; cbn [child_path child_place child_names] in *.
  - rewrite relative_not_absolute by assumption. destruct (copy_placed dir cs A Hcs) as (d & -> & A' & _). cbn [bind].
    apply append_placed; assumption.
  - rewrite path_is_absolute. apply new_placed; assumption.
Qed.

Lemma open_child_ok : forall w dir cs c, Forall name w -> file_absolute dir = Ok (path_of cs) -> cs <> [] -> Forall name cs ->
  proper_child c -> exists f dir', open_child (path_of w) dir (child_path c) = Ok (f, dir') /\
    file_absolute f = Ok (path_of (child_place cs c)) /\
    file_absolute dir' = Ok (path_of (cs ++ concat (relatives [c]))).
Proof.
  intros w dir cs c Hw A Hne Hcs [Hc Fc]. unfold open_child. destruct c as [ns | ns]; cbn [child_path child_place child_names relatives flat_map concat app] in *.
  - rewrite relative_not_absolute by assumption. destruct (append_placed dir cs ns A Hne Hcs Hc Fc) as (d & -> & P & _). cbn [bind].
    destruct (copy_placed d (cs ++ ns) P) as (f & -> & A' & _); [apply Forall_app; auto |]. cbn [bind].
    exists f, d. rewrite !app_nil_r. split; [reflexivity | split; [exact A' | exact P]].
  - rewrite path_is_absolute. destruct (new_placed w ns Hw Hc Fc) as (f & -> & P & _). cbn [bind].
    exists f, dir. rewrite app_nil_r. split; [reflexivity | split; [exact P | exact A]].
Qed.

Lemma path_of_inj : forall a b, a <> [] -> b <> [] -> Forall name a -> Forall name b -> path_of a = path_of b -> a = b.
Proof.
  intros a b Ha Hb Fa Fb E. destruct (resolve_absolute a Ha Fa) as [Pa _]. destruct (resolve_absolute b Hb Fb) as [Pb _].
  rewrite E, Pb in Pa. injection Pa as ->. reflexivity.
Qed.

Lemma relatives_names : forall cs, Forall proper_child cs -> Forall name (concat (relatives cs)).
Proof.
  induction 1 as [| c cs [_ H] _ IH]; [constructor |]. destruct c; cbn in *; [apply Forall_app; auto | exact IH].
Qed.

Lemma relatives_app : forall a b, relatives (a ++ b) = relatives a ++ relatives b.
Proof. intros. unfold relatives. apply flat_map_app. Qed.

Section Paths.
Context {mat dualmat : Type} (w : list text) (usable : text -> bool).
Hypothesis Hw : Forall name w.
Notation stmt := (stmt mat dualmat).
Notation driver := (driver mat dualmat).

Lemma children_paths : forall content cs dir D (d : driver) d' dir' paths,
  Forall proper_child cs -> file_absolute dir = Ok (path_of D) -> D <> [] -> Forall name D ->
  run_children (path_of w) usable content dir d (map child_path cs) = Ok (d', dir', paths) ->
  file_absolute dir' = Ok (path_of (D ++ concat (relatives cs))) /\
  forall pre c post, cs = pre ++ c :: post ->
    nth_error paths (length pre) = Some (path_of (child_place (D ++ concat (relatives pre)) c)).
Proof.
  intros content cs. induction cs as [| c cs IH]; intros dir D d d' dir' paths P A Hne HD E.
  - injection E as <- <- <-. cbn. rewrite app_nil_r. split; [exact A |]. intros pre c post Z. destruct pre; discriminate.
  - inversion_clear P as [| ? ? Pc P']. cbn [map run_children] in E.
    destruct (open_child_ok w dir D c Hw A Hne HD Pc) as (f & dir1 & EO & Af & A1). rewrite EO in E. cbn [bind] in E.
    rewrite Af in E. cbn [bind] in E.
    destruct (match content (path_of (child_place D c)) with
              | Some l => exec_all (path_of w) usable dir1 d l | None => Ok d end) as [d1 | |]; [| discriminate | discriminate].
    cbn [bind] in E.
    destruct (run_children (path_of w) usable content dir1 d1 (map child_path cs)) as [[[d2 dir2] paths2] | |] eqn:E3; [| discriminate | discriminate].
    cbn [bind] in E. injection E as <- <- <-.
    assert (HD1 : Forall name (D ++ concat (relatives [c]))).
    { apply Forall_app. split; [exact HD |]. apply relatives_names. repeat constructor; apply Pc. }
    destruct (IH dir1 (D ++ concat (relatives [c])) d1 d2 dir2 paths2 P' A1) as [B1 B2]; [destruct D; [contradiction | discriminate] | exact HD1 | exact E3 |].
    split.
    + rewrite B1. change (c :: cs) with ([c] ++ cs). rewrite relatives_app, concat_app, app_assoc. reflexivity.
    + intros pre c0 post Z. destruct pre as [| p pre].
      * injection Z as -> ->. cbn. rewrite app_nil_r. reflexivity.
      * injection Z as <- Z. cbn [length nth_error]. rewrite (B2 pre c0 post Z).
        change (c :: pre) with ([c] ++ pre). rewrite relatives_app, concat_app, app_assoc. reflexivity.
Qed.

(* textures whose sources are proper paths can be loaded *)
Definition proper_stmt (s : stmt) : Prop :=
  match s with Texture _ src => exists c, proper_child c /\ src = child_path c | _ => True end.

Lemma load_ok : forall dir D lib s kind c, file_absolute dir = Ok (path_of D) -> D <> [] -> Forall name D -> proper_child c ->
  load_texture (path_of w) usable dir lib s kind (child_path c) =
  let '(n, sc, sh) := s in
  let n := match n with [] => last (child_names c) [] | _ => n end in
  let a := path_of (child_place D c) in
  match find_texture lib n with
  | Some t => Ok (lib, Some t)
  | None => if usable a then Ok (lib ++ [(n, mk_texture a sc sh kind)], Some (mk_texture a sc sh kind)) else Ok (lib, None)
  end.
Proof.
  intros dir D lib [[n sc] sh] kind c A Hne HD P. unfold load_texture.
  destruct (locate_ok w dir D c Hw A Hne HD P) as (f & -> & Af & Ff). cbn [bind]. rewrite Ff, Af.
  assert (L : last (child_place D c) [] = last (child_names c) []).
  { destruct c as [ns | ns]; [| reflexivity]. destruct P as [Hn _]. cbn [child_place child_names] in *.
    destruct ns as [| x r _] using rev_ind; [contradiction |]. rewrite app_assoc, !last_last. reflexivity. }
  rewrite L. destruct n; reflexivity.
Qed.

Lemma exec_all_total : forall dir D (l : list stmt) (d : driver), file_absolute dir = Ok (path_of D) -> D <> [] -> Forall name D ->
  Forall proper_stmt l -> exists d', exec_all (path_of w) usable dir d l = Ok d'.
Proof.
  intros dir D l. induction l as [| s l IH]; intros d A Hne HD F; [eexists; reflexivity |]. inversion_clear F as [| ? ? Fs Fl].
  assert (X : exists d1, exec (path_of w) usable dir d s = Ok d1).
  { destruct d as [st kd lib tx me ma sh ms mt du ch]. destruct s; unfold exec; try (eexists; reflexivity).
    - destruct Fs as (c & Pc & ->). rewrite (load_ok dir D _ _ _ _ A Hne HD Pc).
      destruct (fold_left set_tex keys tx) as [[n sc] h].
      cbv zeta. destruct (find_texture lib _); [eexists; reflexivity |]. destruct (usable _); eexists; reflexivity.
    - destruct (fold_left set_key _ _). eexists. reflexivity.
    - destruct (fold_left set_key _ _). eexists. reflexivity. }
  destruct X as (d1 & X). cbn [exec_all]. rewrite X. cbn [bind]. apply (IH d1 A Hne HD Fl).
Qed.

Lemma children_total : forall content cs dir D (d : driver),
  Forall proper_child cs -> file_absolute dir = Ok (path_of D) -> D <> [] -> Forall name D ->
  (forall a l, content a = Some l -> Forall proper_stmt l) ->
  exists r, run_children (path_of w) usable content dir d (map child_path cs) = Ok r.
Proof.
  intros content cs. induction cs as [| c cs IH]; intros dir D d P A Hne HD HC; [eexists; reflexivity |].
  inversion_clear P as [| ? ? Pc P']. cbn [map run_children].
  destruct (open_child_ok w dir D c Hw A Hne HD Pc) as (f & dir1 & -> & Af & A1). cbn [bind]. rewrite Af. cbn [bind].
  assert (HD1 : Forall name (D ++ concat (relatives [c]))).
  { apply Forall_app. split; [exact HD |]. apply relatives_names. repeat constructor; apply Pc. }
  assert (Hne1 : D ++ concat (relatives [c]) <> []) by (destruct D; [contradiction | discriminate]).
  assert (X : exists d1, match content (path_of (child_place D c)) with
     | Some l => exec_all (path_of w) usable dir1 d l | None => Ok d end = Ok d1).
  { destruct (content _) as [l |] eqn:E; [| eexists; reflexivity].
    apply (exec_all_total dir1 _ l d A1 Hne1 HD1). apply (HC _ _ E). }
  destruct X as (d1 & ->). cbn [bind].
  destruct (IH dir1 _ d1 P' A1 Hne1 HD1 HC) as [[[d2 dir2] p2] ->]. eexists. reflexivity.
Qed.
End Paths.

(* ---- the whole ---- *)
Lemma parse_inv : forall {mat dualmat} cwd usable content main (body : list (stmt mat dualmat)) r,
  parse cwd usable content main body = Ok r ->
  exists f p dir d0 d, file_new cwd main = Ok f /\ file_parent f = Ok p /\ file_copy p = Ok dir /\
    exec_all cwd usable dir new_driver body = Ok d0 /\ pa_settings r = d_settings d0 /\
    d_shapes d = d_shapes d0 /\ d_meshes d = d_meshes d0 /\ d_mats d = d_mats d0 /\ d_duals d = d_duals d0 /\
    (clean d0 -> clean d) /\
    run_children cwd usable content dir d (d_children d0) = Ok (pa_driver r, pa_dir r, pa_children r).
Proof.
  intros mat dualmat cwd usable content main body r E. unfold parse in E.
  destruct (file_new cwd main) as [f | |] eqn:E1; [| discriminate | discriminate]. cbn [bind] in E.
  destruct (file_parent f) as [p | |] eqn:E2; [| discriminate | discriminate]. cbn [bind] in E.
  destruct (file_copy p) as [dir | |] eqn:E3; [| discriminate | discriminate]. cbn [bind] in E.
  destruct (exec_all cwd usable dir new_driver body) as [d0 | |] eqn:E4; [| discriminate | discriminate]. cbn [bind] in E.
  match type of E with bind (run_children _ _ _ _ ?x _) _ = _ => set (d := x) in * end.
  destruct (run_children cwd usable content dir d (d_children d0)) as [[[d2 dir2] p2] | |] eqn:E5; [| discriminate | discriminate].
  cbn [bind] in E. injection E as <-.
  exists f, p, dir, d0, d. split; [reflexivity |]. split; [exact E2 |]. split; [exact E3 |]. split; [exact E4 |].
  repeat (split; [reflexivity |]). split; [| exact E5]. intros (C1 & C2 & C3). repeat split; assumption.
Qed.

Lemma new_clean : forall {mat dualmat}, clean (@new_driver mat dualmat).
Proof. intros. repeat split. Qed.

(* current_dir at the start: the directory of the main file *)
Lemma start_dir : forall w main f D m, Forall name w -> c_str main -> file_new (path_of w) main = Ok f ->
  file_absolute f = Ok (path_of (D ++ [m])) -> D <> [] -> Forall name (D ++ [m]) ->
  exists p dir, file_parent f = Ok p /\ file_copy p = Ok dir /\ file_absolute dir = Ok (path_of D).
Proof.
  intros w main f D m Hw Hm E A Hne HD.
  destruct (file_ancestors (path_of w) main f D [m] (path_cstr w Hw) Hm E A HD Hne) as (p & U & Ap & _).
  cbn [length up bind] in U.
  apply Forall_app in HD. destruct HD as [HD _].
  destruct (copy_placed p D Ap HD) as (dir & C & Ad & _). exists p, dir. split; [exact U | split; assumption].
Qed.
