(* C176-C188: configuration files and their children. *)
From Coq Require Import QArith.
From Verif Require Import Common PathModel PathSpec PathProofs PathProps MaskModel DriverModel DriverSpec DriverProofs.
Local Open Scope nat_scope.

(* the main configuration file m lies in the directory D *)
Definition main_in (w : list text) (main : text) (D : list text) (m : text) : Prop :=
  Forall name w /\ c_str main /\ D <> [] /\ Forall name (D ++ [m]) /\
  exists f, file_new (path_of w) main = Ok f /\ file_absolute f = Ok (path_of (D ++ [m])).

Lemma main_dir : forall D (m : text), Forall name (D ++ [m]) -> Forall name D.
Proof. intros D m H. apply Forall_app in H. apply H. Qed.

Ltac unfold_parse E :=
  let f := fresh "f" in let p := fresh "p" in let dir := fresh "dir" in let d0 := fresh "d0" in let d := fresh "d" in
  let E1 := fresh "E1" in let E2 := fresh "E2" in let E3 := fresh "E3" in let E4 := fresh "E4" in let ES := fresh "ES" in
  let S1 := fresh "S1" in let S2 := fresh "S2" in let S3 := fresh "S3" in let S4 := fresh "S4" in let CL := fresh "CL" in let ER := fresh "ER" in
  destruct (parse_inv _ _ _ _ _ _ E) as (f & p & dir & d0 & d & E1 & E2 & E3 & E4 & ES & S1 & S2 & S3 & S4 & CL & ER).

(* C176.  Everything declared in the main file and in its children is collected once, in the
   order of the files; each object of the world and each light is described by its own keys,
   the last of each, and by the documented defaults. *)
Theorem declarations_collected : forall mat dualmat cwd usable content main (body : list (stmt mat dualmat)) r,
  parse cwd usable content main body = Ok r ->
  let all := body ++ flat_map (fun a => match content a with Some l => l | None => [] end) (pa_children r) in
  length (pa_children r) = length (children_in body) /\
  d_shapes (pa_driver r) = shapes_in all /\ d_meshes (pa_driver r) = meshes_in all /\
  d_mats (pa_driver r) = mats_in all /\ d_duals (pa_driver r) = duals_in all.
Proof.
  intros mat dualmat cwd usable content main body r E. unfold_parse E.
  destruct (exec_all_ok cwd usable dir body _ d0 new_clean E4) as (C0 & _ & A1 & A2 & A3 & A4 & A5).
  destruct (children_ok cwd usable content (d_children d0) dir d _ _ _ (CL C0) ER) as (_ & L & B1 & B2 & B3 & B4). cbn zeta in *.
  rewrite A5 in L. cbn in L. split; [exact L |].
  rewrite B1, B2, B3, B4, S1, S2, S3, S4, A1, A2, A3, A4. cbn [new_driver d_shapes d_meshes d_mats d_duals app].
  unfold shapes_in, meshes_in, mats_in, duals_in. rewrite !flat_map_app. repeat split; reflexivity.
Qed.
Print Assumptions declarations_collected.

(* C177.  The settings given to the renderer are the last ones of the main file and the
   documented defaults, whatever its children say. *)
Theorem settings_of_main : forall mat dualmat cwd usable content main (body : list (stmt mat dualmat)) r,
  parse cwd usable content main body = Ok r -> pa_settings r = described_settings (settings_in body).
Proof.
  intros mat dualmat cwd usable content main body r E. unfold_parse E.
  destruct (exec_all_ok cwd usable dir body _ d0 new_clean E4) as (_ & S & _). rewrite ES, S. reflexivity.
Qed.
Print Assumptions settings_of_main.

(* C178.  README: "a children can overwrite parent's settings if declared in both files": the width that
   a child declares last has no effect. *)
Theorem children_settings_refuted : forall mat dualmat cwd usable content main (body : list (stmt mat dualmat)) r,
  parse cwd usable content main body = Ok r ->
  let all := body ++ flat_map (fun a => match content a with Some l => l | None => [] end) (pa_children r) in
  width_of (settings_in all) <> width_of (settings_in body) ->
  st_width (pa_settings r) <> width_of (settings_in all).
Proof.
  intros mat dualmat cwd usable content main body r E all H. rewrite (settings_of_main _ _ _ _ _ _ _ _ E). cbn.
  intros Z. apply H. symmetry. exact Z.
Qed.
Print Assumptions children_settings_refuted.

Definition ex_content (a : text) : option (list (stmt unit unit)) :=
  if text_dec a (chars "/home/me/scenes/sub/b.txt")
  then Some [Setting (SetWidth 1920%Z); World (chars "Sphere") [KScale1 2%Q]] else None.
Definition ex_body : list (stmt unit unit) :=
  [Setting (SetWidth 400%Z); Setting (SetWidth 640%Z); Child (chars "sub/b.txt");
   World (chars "Monkey") [KPosition (1, 2, 3)%Q; KMask (chars "leaf.png") [AInverted]]; World (chars "Plane") []].
Lemma ex_parse : exists r, parse (chars "/home/me") (fun _ => false) ex_content (chars "scenes/a.txt") ex_body = Ok r /\
  pa_children r = [chars "/home/me/scenes/sub/b.txt"] /\
  st_width (pa_settings r) = 640%Z /\
  map me_name (d_meshes (pa_driver r)) = [chars "Monkey"; chars "Plane"; chars "Sphere"] /\
  map (fun m => pm_inv (me_mask m)) (d_meshes (pa_driver r)) = [true; false; false].
Proof. eexists. split; [vm_compute; reflexivity |]. repeat split; reflexivity. Qed.
Example children_settings_ex :
  width_of (settings_in (ex_body ++ match ex_content (chars "/home/me/scenes/sub/b.txt") with Some l => l | None => [] end)) = 1920%Z.
Proof. reflexivity. Qed.

(* C179.  A child given by an absolute path is read from there; one given by a relative path is
   read from the directory of the main file if it is the first relative one. *)
Theorem child_paths : forall mat dualmat w usable content main D m (body : list (stmt mat dualmat)) r pre c post,
  main_in w main D m -> parse (path_of w) usable content main body = Ok r ->
  children_in body = map child_path (pre ++ c :: post) -> Forall proper_child (pre ++ c :: post) ->
  nth_error (pa_children r) (length pre) = Some (path_of (child_place (D ++ concat (relatives pre)) c)) /\
  (relatives pre = [] -> nth_error (pa_children r) (length pre) = Some (path_of (child_place D c))).
Proof.
  intros mat dualmat w usable content main D m body r pre c post (Hw & Hm & Hne & HD & f0 & F1 & F2) E B P. unfold_parse E.
  rewrite F1 in E1. injection E1 as <-.
  destruct (start_dir w main f0 D m Hw Hm F1 F2 Hne HD) as (p' & dir' & G1 & G2 & G3).
  rewrite G1 in E2. injection E2 as <-. rewrite G2 in E3. injection E3 as <-.
  destruct (exec_all_ok (path_of w) usable dir' body _ d0 new_clean E4) as (_ & _ & _ & _ & _ & _ & C). cbn in C.
  rewrite C, B in ER. apply children_paths with (D := D) in ER; try assumption; [| apply (main_dir D m); exact HD].
  destruct ER as [_ N]. specialize (N pre c post eq_refl). split; [exact N |].
  intros Z. rewrite N, Z. cbn. rewrite app_nil_r. reflexivity.
Qed.
Print Assumptions child_paths.

(* C180.  README: "every relative path declared inside the input file is resolved from the position of
   the input file itself": not after a relative child, which the following ones are put below. *)
Theorem child_paths_refuted : forall mat dualmat w usable content main D m (body : list (stmt mat dualmat)) r pre ns post,
  main_in w main D m -> parse (path_of w) usable content main body = Ok r ->
  children_in body = map child_path (pre ++ Relative ns :: post) -> Forall proper_child (pre ++ Relative ns :: post) ->
  relatives pre <> [] ->
  nth_error (pa_children r) (length pre) <> Some (path_of (child_place D (Relative ns))).
Proof.
  intros mat dualmat w usable content main D m body r pre ns post M E B P H.
  destruct (child_paths _ _ _ _ _ _ _ _ _ _ _ _ _ M E B P) as [N _]. rewrite N. intros Z. injection Z as Z.
  destruct M as (_ & _ & Hne & HD & _). apply main_dir in HD.
  apply Forall_app in P. destruct P as [P1 P2]. inversion_clear P2 as [| ? ? [Hn Fn] _]. cbn in Hn, Fn.
  apply path_of_inj in Z.
  - rewrite <- app_assoc in Z. apply app_inv_head in Z.
    apply (f_equal (@length _)) in Z. rewrite app_length in Z.
    destruct pre as [| c pre]; [apply H; reflexivity |].
    assert (X : length (concat (relatives (c :: pre))) <> 0).
    { clear - P1 H. revert P1 H. generalize (c :: pre). induction l as [| a l IH]; intros P H; [contradiction |].
      inversion_clear P as [| ? ? [Pa _] Pl]. destruct a as [a | a]; cbn in *; [| apply IH; assumption].
      rewrite app_length. destruct a; [contradiction | cbn; lia]. }
    lia.
  - destruct D; [contradiction | discriminate].
  - cbn. destruct D; [contradiction | discriminate].
  - cbn. rewrite !Forall_app. split; [split; [exact HD | apply relatives_names; exact P1] | exact Fn].
  - cbn. rewrite Forall_app. split; assumption.
Qed.
Print Assumptions child_paths_refuted.

Definition ex_two : list (stmt unit unit) := [Child (chars "b.txt"); Child (chars "c.txt")].
Example child_paths_ex : exists r, parse (chars "/home/me") (fun _ => false) (fun _ => None) (chars "scenes/a.txt") ex_two = Ok r /\
  pa_children r = [chars "/home/me/scenes/b.txt"; chars "/home/me/scenes/b.txt/c.txt"].
Proof. eexists. split; [vm_compute; reflexivity |]. reflexivity. Qed.
Lemma ex_names : forall l, forallb (fun c => negb (is_separator c) && negb (c =? nul)%char)%bool l = true ->
  l <> [] -> l <> chars "." -> l <> chars ".." -> name l.
Proof.
  intros l H H1 H2 H3. repeat split; try assumption. apply Forall_forall. intros c Hc. rewrite forallb_forall in H.
  specialize (H c Hc). apply andb_prop in H. destruct H as [Ha Hb]. apply Bool.negb_true_iff in Ha. apply Bool.negb_true_iff in Hb.
  split; [exact Ha |]. intros ->. discriminate.
Qed.
Ltac ex_name := apply ex_names; [reflexivity | discriminate | discriminate | discriminate].
Lemma ex_main : main_in [chars "home"; chars "me"] (chars "scenes/a.txt") [chars "home"; chars "me"; chars "scenes"] (chars "a.txt").
Proof.
  split; [repeat (apply Forall_cons; [ex_name |]); apply Forall_nil |].
  split; [cbn; repeat (apply Forall_cons; [discriminate |]); apply Forall_nil |]. split; [discriminate |].
  split; [cbn [app]; repeat (apply Forall_cons; [ex_name |]); apply Forall_nil |].
  eexists. split; vm_compute; reflexivity.
Qed.
Example child_paths_refuted_ex :
  children_in ex_two = map child_path ([Relative [chars "b.txt"]] ++ Relative [chars "c.txt"] :: []) /\
  Forall proper_child ([Relative [chars "b.txt"]] ++ Relative [chars "c.txt"] :: []).
Proof.
  split; [reflexivity |]. cbn [app].
  assert (P : forall n, name n -> proper_child (Relative [n])).
  { intros n H. split; [discriminate |]. apply Forall_cons; [exact H | apply Forall_nil]. }
  apply Forall_cons; [apply P; ex_name |]. apply Forall_cons; [apply P; ex_name | apply Forall_nil].
Qed.

(* C181.  The obj files, and the textures of materials and masks, are looked for only after all
   files are read: from the directory of the main file if no child was given by a relative path,
   and below all the relative children otherwise. *)
Theorem deferred_paths : forall mat dualmat w usable content main D m (body : list (stmt mat dualmat)) r cs c,
  main_in w main D m -> parse (path_of w) usable content main body = Ok r ->
  children_in body = map child_path cs -> Forall proper_child cs -> proper_child c ->
  exists f, locate (path_of w) (pa_dir r) (child_path c) = Ok f /\
    file_absolute f = Ok (path_of (child_place (D ++ concat (relatives cs)) c)) /\
    (relatives cs = [] -> file_absolute f = Ok (path_of (child_place D c))).
Proof.
  intros mat dualmat w usable content main D m body r cs c (Hw & Hm & Hne & HD & f0 & F1 & F2) E B P Pc. unfold_parse E.
  rewrite F1 in E1. injection E1 as <-.
  destruct (start_dir w main f0 D m Hw Hm F1 F2 Hne HD) as (p' & dir' & G1 & G2 & G3).
  rewrite G1 in E2. injection E2 as <-. rewrite G2 in E3. injection E3 as <-.
  destruct (exec_all_ok (path_of w) usable dir' body _ d0 new_clean E4) as (_ & _ & _ & _ & _ & _ & C). cbn in C.
  apply main_dir in HD.
  rewrite C, B in ER. apply children_paths with (D := D) in ER; try assumption.
  destruct ER as [A _].
  destruct (locate_ok w (pa_dir r) (D ++ concat (relatives cs)) c Hw A) as (f & L & Af & _).
  - destruct D; [contradiction | discriminate].
  - rewrite Forall_app. split; [exact HD | apply relatives_names; exact P].
  - exact Pc.
  - exists f. split; [exact L |]. split; [exact Af |]. intros Z. rewrite Z in Af. cbn in Af. rewrite app_nil_r in Af. exact Af.
Qed.
Print Assumptions deferred_paths.

(* C182. *)
Theorem deferred_paths_refuted : forall mat dualmat w usable content main D m (body : list (stmt mat dualmat)) r ns ob,
  main_in w main D m -> parse (path_of w) usable content main body = Ok r ->
  children_in body = [relative ns] -> proper_child (Relative ns) -> proper_child (Relative ob) ->
  exists f, locate (path_of w) (pa_dir r) (relative ob) = Ok f /\
    file_absolute f = Ok (path_of (D ++ ns ++ ob)) /\ path_of (D ++ ns ++ ob) <> path_of (D ++ ob).
Proof.
  intros mat dualmat w usable content main D m body r ns ob M E B P Po.
  destruct (deferred_paths _ _ _ _ _ _ _ _ _ _ [Relative ns] (Relative ob) M E B (Forall_cons _ P (Forall_nil _)) Po) as (f & L & A & _).
  exists f. split; [exact L |]. cbn in A. rewrite app_nil_r, <- app_assoc in A. split; [exact A |].
  destruct M as (_ & _ & Hne & HD & _). apply main_dir in HD. destruct P as [Pn Pf]. destruct Po as [Qn Qf]. cbn in Pn, Pf, Qn, Qf.
  intros Z. apply path_of_inj in Z.
  - apply app_inv_head in Z. apply (f_equal (@length _)) in Z. rewrite app_length in Z. destruct ns; [contradiction | cbn in Z; lia].
  - destruct D; [contradiction | discriminate].
  - destruct D; [contradiction | discriminate].
  - rewrite !Forall_app. auto.
  - rewrite !Forall_app. auto.
Qed.
Print Assumptions deferred_paths_refuted.

Example deferred_paths_ex : exists r f, parse (chars "/home/me") (fun _ => false) (fun _ => None) (chars "scenes/a.txt")
    ([Child (chars "b.txt"); Shape (chars "monkey.obj")] : list (stmt unit unit)) = Ok r /\
  locate (chars "/home/me") (pa_dir r) (chars "monkey.obj") = Ok f /\
  file_absolute f = Ok (chars "/home/me/scenes/b.txt/monkey.obj").
Proof. eexists. eexists. split; [vm_compute; reflexivity |]. split; vm_compute; reflexivity. Qed.

(* C183.  Reading is defined on every configuration whose textures and children have proper
   paths, if the main file is not in the root directory. *)
Theorem parse_defined : forall mat dualmat w usable content main D m (body : list (stmt mat dualmat)) cs,
  main_in w main D m -> children_in body = map child_path cs -> Forall proper_child cs ->
  Forall proper_stmt body -> (forall a l, content a = Some l -> Forall proper_stmt l) ->
  exists r, parse (path_of w) usable content main body = Ok r.
Proof.
  intros mat dualmat w usable content main D m body cs (Hw & Hm & Hne & HD & f0 & F1 & F2) B P PB PC.
  destruct (start_dir w main f0 D m Hw Hm F1 F2 Hne HD) as (p' & dir' & G1 & G2 & G3). apply main_dir in HD.
  unfold parse. rewrite F1. cbn [bind]. rewrite G1. cbn [bind]. rewrite G2. cbn [bind].
  destruct (exec_all_total w usable Hw dir' D body new_driver G3 Hne HD PB) as (d0 & E0). rewrite E0. cbn [bind].
  destruct (exec_all_ok (path_of w) usable dir' body _ d0 new_clean E0) as (_ & _ & _ & _ & _ & _ & C). cbn in C. rewrite C, B.
  match goal with |- context [run_children _ _ _ _ ?x _] => destruct (children_total w usable Hw content cs dir' D x P G3 Hne HD PC) as [[[d2 dir2] p2] ->] end.
  eexists. reflexivity.
Qed.
Print Assumptions parse_defined.
Example parse_defined_ex : Forall proper_stmt
  ([Texture [TName (chars "wall")] (chars "folder/wall.tga"); World (chars "Sphere") []] : list (stmt unit unit)).
Proof.
  constructor; [| constructor; [exact I | constructor]]. exists (Relative [chars "folder"; chars "wall.tga"]).
  split; [| reflexivity]. split; [discriminate |]. repeat (apply Forall_cons; [ex_name |]). apply Forall_nil.
Qed.

(* ---- textures ---- *)

(* C184.  A texture object loads its own source with its own scale and shift, under its name or
   the name of its file; textures already there stay. *)
Theorem texture_statement : forall mat dualmat w usable dir D (d : driver mat dualmat) keys c,
  Forall name w -> file_absolute dir = Ok (path_of D) -> D <> [] -> Forall name D -> proper_child c -> d_tex d = new_tex ->
  exists d', exec (path_of w) usable dir d (Texture keys (child_path c)) = Ok d' /\ d_tex d' = new_tex /\
    let n := match last_of (fun k => match k with TName s => Some s | _ => None end) [] keys with
             | [] => last (child_names c) [] | n => n end in
    let t := mk_texture (path_of (child_place D c))
      (last_of (fun k => match k with TScale q => Some q | _ => None end) (1, 1)%Q keys)
      (last_of (fun k => match k with TShift q => Some q | _ => None end) (0, 0)%Q keys) (d_kind d) in
    forall m, find_texture (d_lib d') m =
      match find_texture (d_lib d) m with
      | Some t => Some t
      | None => if text_dec n m then if usable (tx_path t) then Some t else None else None
      end.
Proof.
  intros mat dualmat w usable dir D d keys c Hw A Hne HD Pc C. destruct d as [st kd lib tx me ma sh ms mt du ch]. cbn in C. subst tx.
  assert (K : forall l n c h, fold_left set_tex l (n, c, h) =
    (last_of (fun k => match k with TName s => Some s | _ => None end) n l,
     last_of (fun k => match k with TScale s => Some s | _ => None end) c l,
     last_of (fun k => match k with TShift s => Some s | _ => None end) h l)).
  { clear. induction l as [| k l IH]; intros n c h; [reflexivity |]. cbn [fold_left]. rewrite !last_of_cons.
    destruct k; cbn [set_tex]; rewrite IH; reflexivity. }
  assert (App : forall l k (t : texture) m, find_texture (l ++ [(k, t)]) m =
     match find_texture l m with Some t => Some t | None => if text_dec k m then Some t else None end).
  { clear. induction l as [| [k' t'] l IH]; intros k t m; [reflexivity |]. cbn [app find_texture]. destruct (text_dec k' m); [reflexivity | apply IH]. }
  unfold exec. unfold new_tex. rewrite K. rewrite (load_ok w usable Hw dir D _ _ _ _ A Hne HD Pc). cbv zeta.
  set (n := match last_of (fun k => match k with TName s => Some s | _ => None end) [] keys with
            | [] => last (child_names c) [] | n => n end).
  assert (N : match last_of (fun k => match k with TName s => Some s | _ => None end) [] keys with
            | [] => last (child_names c) [] | _ :: _ => last_of (fun k => match k with TName s => Some s | _ => None end) [] keys end = n).
  { unfold n. unfold text. match goal with |- match ?x with _ => _ end = _ => destruct x end; reflexivity. }
  rewrite N. cbn [d_lib d_kind tx_path].
  destruct (find_texture lib n) as [t |] eqn:F.
  - eexists. split; [reflexivity |]. split; [reflexivity |]. cbn [d_lib]. intros m. destruct (find_texture lib m) eqn:Fm; [reflexivity |].
    destruct (text_dec n m) as [<- |]; [congruence | reflexivity].
  - destruct (usable (path_of (child_place D c))) eqn:U.
    + eexists. split; [reflexivity |]. split; [reflexivity |]. cbn [d_lib]. intros m. rewrite App. reflexivity.
    + eexists. split; [reflexivity |]. split; [reflexivity |]. cbn [d_lib]. intros m. destruct (find_texture lib m); [reflexivity |].
      destruct (text_dec n m); reflexivity.
Qed.
Print Assumptions texture_statement.
Example texture_statement_ex : exists d, exec (chars "/") (fun _ => true)
    {| f_mem := chars "/home/me" ++ [nul]; f_file := 6; f_ext := 8 |} (@new_driver unit unit)
    (Texture [TName (chars "wall"); TScale (2, 3)%Q] (chars "folder/wall.tga")) = Ok d /\
  find_texture (d_lib d) (chars "wall") = Some (mk_texture (chars "/home/me/folder/wall.tga") (2, 3)%Q (0, 0)%Q TTrilinear) /\
  find_texture (d_lib d) (chars "wall.tga") = None.
Proof. eexists. split; [vm_compute; reflexivity |]. split; reflexivity. Qed.

(* C185.  A texture given to a material by a name without separators is the one with that name in
   the library, then the file of that name in the directory, then the default one. *)
Theorem texture_plain_name : forall w usable dir D lib kind n,
  Forall name w -> file_absolute dir = Ok (path_of D) -> D <> [] -> Forall name D -> name n ->
  exists lib', load_texture (path_of w) usable dir lib new_tex kind n =
    Ok (lib', documented_texture usable lib (path_of (D ++ [n])) kind n).
Proof.
  intros w usable dir D lib kind n Hw A Hne HD Hn.
  assert (P : proper_child (Relative [n])) by (split; [discriminate | repeat constructor; apply Hn]).
  assert (R : child_path (Relative [n]) = n) by (unfold child_path, relative, path_of; cbn; apply app_nil_r).
  pose proof (load_ok w usable Hw dir D lib new_tex kind _ A Hne HD P) as L. rewrite R in L. rewrite L. clear L.
  unfold new_tex. cbn [child_names last child_place]. cbv zeta. unfold documented_texture.
  destruct (find_texture lib n); [eexists; reflexivity |]. destruct (usable _); eexists; reflexivity.
Qed.
Print Assumptions texture_plain_name.
Example texture_plain_name_ex : documented_texture (fun _ => true) [(chars "wall", mk_texture (chars "/a.png") (2, 2)%Q (0, 0)%Q TUnfiltered)]
  (chars "/home/wall") TTrilinear (chars "wall") = Some (mk_texture (chars "/a.png") (2, 2)%Q (0, 0)%Q TUnfiltered).
Proof. reflexivity. Qed.

(* C186.  Given by a path with directories it is any texture of the library with the same file name,
   although the library has nothing under the given string. *)
Theorem texture_path_refuted : forall w usable dir D lib kind ns t,
  Forall name w -> file_absolute dir = Ok (path_of D) -> D <> [] -> Forall name D -> Forall name ns -> ns <> [] ->
  find_texture lib (relative ns) = None -> usable (path_of (D ++ ns)) = true ->
  find_texture lib (last ns []) = Some t -> tx_path t <> path_of (D ++ ns) ->
  load_texture (path_of w) usable dir lib new_tex kind (relative ns) = Ok (lib, Some t) /\
  documented_texture usable lib (path_of (D ++ ns)) kind (relative ns) <> Some t.
Proof.
  intros w usable dir D lib kind ns t Hw A Hne HD Hn Hnn F1 U F2 T.
  assert (P : proper_child (Relative ns)) by (split; assumption).
  pose proof (load_ok w usable Hw dir D lib new_tex kind _ A Hne HD P) as L. cbn [child_path] in L. rewrite L. clear L.
  unfold new_tex. cbn [child_names child_place]. cbv zeta. unfold text in *. rewrite F2. split; [reflexivity |].
  unfold documented_texture. rewrite F1, U. intros Z. injection Z as <-. apply T. reflexivity.
Qed.
Print Assumptions texture_path_refuted.
Example texture_path_ex : exists f1 f2, 
  let dir := {| f_mem := chars "/home/me" ++ [nul]; f_file := 6; f_ext := 8 |} in
  load_texture (chars "/") (fun _ => true) dir [] new_tex TTrilinear (chars "stone/wall.png") = Ok (f1, Some (mk_texture (chars "/home/me/stone/wall.png") (1, 1)%Q (0, 0)%Q TTrilinear)) /\
  load_texture (chars "/") (fun _ => true) dir f1 new_tex TTrilinear (chars "wood/wall.png") = Ok (f2, Some (mk_texture (chars "/home/me/stone/wall.png") (1, 1)%Q (0, 0)%Q TTrilinear)).
Proof. eexists. eexists. split; vm_compute; reflexivity. Qed.

(* A texture whose name has a separator is in the library but is not found by its name. *)
Theorem texture_name_refuted : forall w usable dir D lib kind ns t,
  Forall name w -> file_absolute dir = Ok (path_of D) -> D <> [] -> Forall name D -> Forall name ns -> ns <> [] ->
  find_texture lib (relative ns) = Some t -> usable (path_of (D ++ ns)) = false ->
  find_texture lib (last ns []) = None ->
  load_texture (path_of w) usable dir lib new_tex kind (relative ns) = Ok (lib, None) /\
  documented_texture usable lib (path_of (D ++ ns)) kind (relative ns) = Some t.
Proof.
  intros w usable dir D lib kind ns t Hw A Hne HD Hn Hnn F1 U F2.
  assert (P : proper_child (Relative ns)) by (split; assumption).
  pose proof (load_ok w usable Hw dir D lib new_tex kind _ A Hne HD P) as L. cbn [child_path] in L. rewrite L. clear L.
  unfold new_tex. cbn [child_names child_place]. cbv zeta. unfold text in *. rewrite F2, U. split; [reflexivity |].
  unfold documented_texture. rewrite F1. reflexivity.
Qed.
Print Assumptions texture_name_refuted.
Example texture_name_ex : load_texture (chars "/") (fun _ => false) {| f_mem := chars "/home/me" ++ [nul]; f_file := 6; f_ext := 8 |}
    [(chars "stone/wall", mk_texture (chars "/a.png") (1, 1)%Q (0, 0)%Q TTrilinear)] new_tex TTrilinear (chars "stone/wall") =
  Ok ([(chars "stone/wall", mk_texture (chars "/a.png") (1, 1)%Q (0, 0)%Q TTrilinear)], None).
Proof. vm_compute. reflexivity. Qed.

(* ---- masks ---- *)

(* C187.  An object without a mask is visible everywhere, also if its mask is not found and not
   inverted. *)
Theorem mask_disabled : forall H (image : texture -> H -> N) w usable dir D lib kind m,
  Forall name w -> file_absolute dir = Ok (path_of D) -> D <> [] -> Forall name D ->
  pm_tex m = [] \/
  (name (pm_tex m) /\ documented_texture usable lib (path_of (D ++ [pm_tex m])) kind (pm_tex m) = None /\ pm_inv m = false) ->
  exists lib' k, build_mask image (path_of w) usable dir lib kind m = Ok (lib', k) /\ forall h, is_visible k h = true.
Proof.
  intros H image w usable dir D lib kind m Hw A Hne HD [E | (Hn & E & I)]; unfold build_mask.
  - rewrite E. eexists. eexists. split; [reflexivity |]. reflexivity.
  - destruct (texture_plain_name w usable dir D lib kind (pm_tex m) Hw A Hne HD Hn) as (lib' & L). unfold text in *. rewrite E in L.
    destruct (pm_tex m) as [| x s]; [destruct Hn as [Z _]; contradiction |]. rewrite L. cbn [bind].
    eexists. eexists. split; [reflexivity |]. intros h. unfold is_visible. cbn [mk_map mk_channel mk_inverted]. rewrite I.
    destruct (pm_chn m); reflexivity.
Qed.
Print Assumptions mask_disabled.

(* C188.  README: "if also this can't be found, the mask is disabled": an inverted one hides the object. *)
Theorem mask_missing_refuted : forall H (image : texture -> H -> N) w usable dir D lib kind m,
  Forall name w -> file_absolute dir = Ok (path_of D) -> D <> [] -> Forall name D -> name (pm_tex m) ->
  documented_texture usable lib (path_of (D ++ [pm_tex m])) kind (pm_tex m) = None -> pm_inv m = true ->
  exists lib' k, build_mask image (path_of w) usable dir lib kind m = Ok (lib', k) /\ forall h, is_visible k h = false.
Proof.
  intros H image w usable dir D lib kind m Hw A Hne HD Hn E I. unfold build_mask.
  destruct (texture_plain_name w usable dir D lib kind (pm_tex m) Hw A Hne HD Hn) as (lib' & L). unfold text in *. rewrite E in L.
  destruct (pm_tex m) as [| x s]; [destruct Hn as [Z _]; contradiction |]. rewrite L. cbn [bind].
  eexists. eexists. split; [reflexivity |]. intros h. unfold is_visible. cbn [mk_map mk_channel mk_inverted]. rewrite I.
  destruct (pm_chn m); reflexivity.
Qed.
Print Assumptions mask_missing_refuted.
Example mask_missing_ex : documented_texture (fun _ => false) [] (chars "/home/leaf.png") TTrilinear (chars "leaf.png") = None.
Proof. reflexivity. Qed.

(* C305.  A mask whose texture is found shows the object where the named channel of the texture is at
   least 128, or where it is below if the mask is inverted. *)
Theorem mask_as_written : forall H (image : texture -> H -> N) w usable dir D lib kind m t,
  Forall name w -> file_absolute dir = Ok (path_of D) -> D <> [] -> Forall name D -> name (pm_tex m) ->
  documented_texture usable lib (path_of (D ++ [pm_tex m])) kind (pm_tex m) = Some t ->
  exists lib' k, build_mask image (path_of w) usable dir lib kind m = Ok (lib', k) /\
  forall h a r g b, image t h = (a + r * 2 ^ 8 + g * 2 ^ 16 + b * 2 ^ 24)%N -> (a < 256 -> r < 256 -> g < 256 -> b < 256 ->
  let c := match pm_chn m with CAlpha => a | CRed => r | CGreen => g | CBlue => b end in
  is_visible k h = if pm_inv m then c <? 128 else 128 <=? c)%N.
Proof.
  intros H image w usable dir D lib kind m t Hw A Hne HD Hn E; unfold build_mask.
  destruct (texture_plain_name w usable dir D lib kind (pm_tex m) Hw A Hne HD Hn) as (lib' & L); unfold text in *; rewrite E in L.
  destruct (pm_tex m) as [| x s]; [destruct Hn as [Z _]; contradiction |]; rewrite L; cbn [bind].
  eexists; eexists; split; [reflexivity |]; intros h a r g b I LA LR LG LB; cbv zeta.
  unfold is_visible; cbn [mk_map mk_channel mk_inverted]; rewrite I.
  assert (T : texel_byte (a + r * 2 ^ 8 + g * 2 ^ 16 + b * 2 ^ 24) (image_channel (pm_chn m)) =
    match pm_chn m with CAlpha => a | CRed => r | CGreen => g | CBlue => b end).
  { clear - LA LR LG LB; unfold texel_byte; rewrite N.shiftr_div_pow2.
    assert (D : forall q x y, (x < 2 ^ q -> (x + y * 2 ^ q) / 2 ^ q = y)%N).
    { intros q x y X; rewrite N.div_add by (apply N.pow_nonzero; discriminate); rewrite (N.div_small x) by exact X; reflexivity. }
    assert (M : forall x y, (x < 256 -> (x + y * 256) mod 256 = x)%N).
    { intros x y X; rewrite N.mod_add by discriminate; apply N.mod_small, X. }
    destruct (pm_chn m); cbn [image_channel channel_offset].
    - change (8 * 1)%N with 8%N; replace (a + r * 2 ^ 8 + g * 2 ^ 16 + b * 2 ^ 24)%N with (a + (r + (g + b * 2 ^ 8) * 256) * 2 ^ 8)%N by lia.
      rewrite D by exact LA; apply M, LR.
    - change (8 * 2)%N with 16%N; replace (a + r * 2 ^ 8 + g * 2 ^ 16 + b * 2 ^ 24)%N with ((a + r * 2 ^ 8) + (g + b * 256) * 2 ^ 16)%N by lia.
      rewrite D by lia; apply M, LG.
    - change (8 * 3)%N with 24%N; rewrite D by lia; apply N.mod_small, LB.
    - change (8 * 0)%N with 0%N; rewrite N.pow_0_r, N.div_1_r; rewrite <- (M a (r + g * 2 ^ 8 + b * 2 ^ 16)%N LA) at 2; f_equal; lia. }
  rewrite T; set (c := match pm_chn m with CAlpha => a | CRed => r | CGreen => g | CBlue => b end).
  destruct (pm_inv m); destruct (N.leb_spec 128 c), (N.ltb_spec c 128); cbn; try reflexivity; lia.
Qed.
Print Assumptions mask_as_written.
Example mask_as_written_ex : exists lib' k,
  build_mask (fun t (h : nat) => if Nat.eqb h 0 then 0x00C00000%N else 0%N) (chars "/") (fun _ => true)
    {| f_mem := chars "/home/me" ++ [nul]; f_file := 6; f_ext := 8 |} [] TTrilinear (mk_pmask (chars "leaf.png") CGreen false) = Ok (lib', k) /\
  is_visible k 0 = true /\ is_visible k 1 = false.
Proof. eexists; eexists; split; [vm_compute; reflexivity | split; reflexivity]. Qed.
