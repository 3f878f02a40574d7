(* C289-C298: file objects and the file system, the output file of the film. *)
From Coq Require Import String.
From Verif Require Import Common ArrayIO PathModel PathSpec PathProofs PathProps CodecModel CodecProps
  FsModel FsSpec FsProofs.
Local Open Scope char_scope.
Local Open Scope list_scope.
Local Open Scope nat_scope.

(* what the theorems know of an object: it was made from a string and stands for a path *)
Definition made_for (x : ofile) (cs : path) : Prop :=
  exists o cwd s, c_str cwd /\ c_str s /\ ofile_new o cwd s = Ok x /\ names_path x cs /\ Forall name cs.

Lemma new_inv : forall o cwd s x, ofile_new o cwd s = Ok x ->
  exists f a, file_new cwd s = Ok f /\ file_absolute f = Ok a /\ x = mk_ofile f (os_stat o a).
Proof.
  intros o cwd s x E. unfold ofile_new in E. destruct (file_new cwd s) as [f | |]; try discriminate. cbn [bind] in E.
  destruct (file_absolute f) as [a | |] eqn:A; try discriminate. cbn [bind] in E. injection E as <-. exists f, a. auto.
Qed.

Lemma made_mem : forall x cs, made_for x cs -> with_names (path_of cs) = Ok (o_file x) /\ Forall name cs.
Proof.
  intros x cs (o & cwd & s & Hc & Hs & E & A & N). destruct (new_inv _ _ _ _ E) as (f & a & Ef & Ea & ->).
  unfold names_path in A. cbn [o_file] in *. destruct (file_new_inv _ _ _ Hc Hs Ef) as (abs & Ha & W).
  assert (Z := with_names_abs _ _ _ Ha W A). subst abs. auto.
Qed.

Lemma made_abs : forall x cs, made_for x cs -> file_absolute (o_file x) = Ok (path_of cs).
Proof. intros x cs (o & cwd & s & _ & _ & _ & A & _). exact A. Qed.

(* ---- creating folders ---- *)

(* C289.  mkdir succeeds exactly if nothing is at the path and its parent is a folder that
   can be written to; then a folder is there and nothing else changes, and otherwise
   nothing changes.  The object knows what is there afterwards. *)
Theorem folder_created : forall o x cs c, sane o -> made_for x (cs ++ [c]) ->
  exists r o' x', of_mkdir o x = Ok (r, o', x') /\ o_file x' = o_file x /\ knows o' x' (cs ++ [c]) /\ sane o' /\
    (r = true <-> node o (cs ++ [c]) = None /\ node o cs = Some Folder /\ may o cs = true) /\
    (r = false -> o' = o) /\
    (r = true -> may o' = may o /\
       forall q, node o' q = if path_dec (cs ++ [c]) q then Some Folder else node o q).
Proof.
  intros o x cs c S M. destruct (made_mem _ _ M) as [W N]. pose proof (names_os _ N) as NO.
  unfold of_mkdir. rewrite (made_abs _ _ M). cbn [bind].
  assert (K : forall o', os_stat o' (path_of (cs ++ [c])) = node o' (cs ++ [c])).
  { intros o'. unfold os_stat. now rewrite os_path_of. }
  destruct (node o (cs ++ [c])) as [k |] eqn:E.
  - assert (Em : os_mkdir o (path_of (cs ++ [c])) = (false, o)) by (unfold os_mkdir; rewrite os_path_of by exact NO; now rewrite E).
    rewrite Em. exists false, o, (mk_ofile (o_file x) (os_stat o (path_of (cs ++ [c])))).
    split; [reflexivity |]. split; [reflexivity |]. split; [apply K |]. split; [exact S |].
    split; [split; [discriminate | intros (X & _); discriminate] |]. split; [reflexivity | discriminate].
  - rewrite (mkdir_eq o cs c NO E).
    assert (FAIL : (node o cs = Some Folder -> may o cs = true -> False) ->
      exists r o' x', Ok (false, o, mk_ofile (o_file x) (os_stat o (path_of (cs ++ [c])))) = Ok (r, o', x') /\
        o_file x' = o_file x /\ knows o' x' (cs ++ [c]) /\ sane o' /\
        (r = true <-> @None kind = None /\ node o cs = Some Folder /\ may o cs = true) /\ (r = false -> o' = o) /\
        (r = true -> may o' = may o /\ forall q, node o' q = if path_dec (cs ++ [c]) q then Some Folder else node o q)).
    { intros X. exists false, o, (mk_ofile (o_file x) (os_stat o (path_of (cs ++ [c])))).
      split; [reflexivity |]. split; [reflexivity |]. split; [apply K |]. split; [exact S |].
      split; [split; [discriminate | intros (_ & Y & Z); destruct (X Y Z)] |]. split; [reflexivity | discriminate]. }
    destruct (node o cs) as [[|] |] eqn:Ea; [| apply FAIL; discriminate ..].
    destruct (may o cs) eqn:Em; [| apply FAIL; discriminate]. clear FAIL.
    eexists. eexists. eexists. split; [reflexivity |]. split; [reflexivity |]. split; [apply K |].
    split; [now apply sane_add |]. split; [tauto |]. split; [discriminate |]. intros _. split; [reflexivity |].
    intros q. apply node_cons. destruct cs; discriminate.
Qed.
Print Assumptions folder_created.

Definition demo : os :=
  mk_os [([chars "home"; chars "a.bmp"], Regular); ([chars "home"], Folder)] (fun _ => true).

Lemma demo_sane : sane demo.
Proof.
  split.
  - cbn. constructor; [intros [E | []]; discriminate |]. constructor; [intros [] | constructor].
  - intros p k [E | [E | []]]; injection E as <- <-; (split; [discriminate |]; split; [| reflexivity]);
      repeat constructor; discriminate.
Qed.

Ltac name_tac := split; [discriminate |]; split; [discriminate |]; split; [discriminate |]; repeat constructor; discriminate.

Example folder_created_ex : exists x, sane demo /\ made_for x ([chars "home"] ++ [chars "x"]) /\
  exists o' x', of_mkdir demo x = Ok (true, o', x').
Proof.
  eexists. split; [exact demo_sane |]. split.
  - exists demo, (chars "/home"), (chars "x"). split; [repeat constructor; discriminate |].
    split; [repeat constructor; discriminate |]. split; [reflexivity |]. split; [reflexivity |].
    constructor; [name_tac | constructor; [name_tac | constructor]].
  - eexists. eexists. reflexivity.
Qed.

(* C290.  mkdirs changes nothing but creating folders on the way to the path; it reports
   success exactly if nothing was at the path and a folder is there now, which is the
   case whenever folders can be created all the way; the object is unharmed and knows
   what is there afterwards. *)
Theorem folders_created : forall o x cs, sane o -> made_for x cs -> cs <> [] ->
  exists r o' x', of_mkdirs o x = Ok (r, o', x') /\ o_file x' = o_file x /\ knows o' x' cs /\ sane o' /\
    only_folders_on cs o o' /\
    (r = true <-> node o cs = None /\ node o' cs = Some Folder) /\
    (creatable o cs -> node o cs = None -> r = true).
Proof.
  intros o x cs S M Ne. destruct (made_mem _ _ M) as [W N]. pose proof (names_os _ N) as NO.
  destruct cs as [| c cs _] using rev_ind; [contradiction |]. clear Ne.
  destruct (folder_created o x cs c S M) as (r & o1 & x1 & E & Ef & Ek & S1 & R1 & R2 & R3).
  unfold of_mkdirs. rewrite E. cbn [bind]. destruct r.
  - exists true, o1, x1. split; [reflexivity |]. split; [exact Ef |]. split; [exact Ek |]. split; [exact S1 |].
    destruct R1 as [R1 _]. destruct (R1 eq_refl) as (A & B & C). destruct (R3 eq_refl) as [Mm G].
    split.
    { split; [exact Mm |]. split.
      - intros q k H. rewrite G. destruct (path_dec (cs ++ [c]) q) as [<- | _]; [congruence | exact H].
      - intros q H. rewrite G. destruct (path_dec (cs ++ [c]) q) as [<- | _]; [| contradiction].
        intros _. split; [reflexivity |]. split; [destruct cs; discriminate |]. exists []. now rewrite app_nil_r. }
    split; [| reflexivity]. split; [| reflexivity]. intros _. split; [exact A |]. rewrite G.
    destruct (path_dec (cs ++ [c]) (cs ++ [c])); [reflexivity | contradiction].
  - rewrite (R2 eq_refl) in *. clear R3.
    rewrite Ef, (made_abs _ _ M). cbn [bind].
    assert (Em : f_mem (o_file x) = F (cs ++ [c]) ++ [nul]).
    { rewrite (with_names_inv _ _ W). rewrite path_of_F by (destruct cs; discriminate). reflexivity. }
    rewrite Em. rewrite path_of_F by (destruct cs; discriminate).
    assert (L : length (cs ++ [c]) < Datatypes.S (length (F (cs ++ [c])))).
    { clear. induction (cs ++ [c]) as [| d l IH]; [cbn; lia |]. rewrite F_cons_len. cbn [length]. lia. }
    pose proof (mkdirs_loop_ok (cs ++ [c]) [] o (o_stat x1) false _ 1 N ltac:(destruct cs; discriminate) L (or_intror (conj eq_refl eq_refl))) as LO.
    pose proof (make_spec (cs ++ [c]) [] o (o_stat x1) false S NO ltac:(discriminate)) as MS. cbn [app] in LO, MS.
    destruct (make o [] (cs ++ [c]) (o_stat x1) false) as [[o' st'] r].
    destruct LO as (m & LO & z & ->). rewrite LO. cbn [bind]. rewrite upd_at. cbn [bind].
    eexists. eexists. eexists. split; [reflexivity |]. cbn [o_file o_stat].
    split.
    { rewrite <- Em. destruct (o_file x); reflexivity. }
    destruct MS as (S' & O' & MS). unfold knows. cbn [o_stat].
    destruct MS as [(P & -> & -> & ->) | (P & -> & Q & T)].
    + split; [exact Ek |]. split; [exact S |]. split; [apply only_refl |]. split; [| intros _ Z; contradiction].
      split; [discriminate |]. intros [Z _]. contradiction.
    + split; [reflexivity |]. split; [exact S' |]. split; [exact O' |]. split; [| intros C _; now apply T].
      split; [intros Z; split; [exact P | now apply Q] | intros [_ Z]; now apply Q].
Qed.
Print Assumptions folders_created.

Example folders_created_ex : exists x, made_for x [chars "home"; chars "x"; chars "y"] /\
  creatable demo [chars "home"; chars "x"; chars "y"] /\
  exists o' x', of_mkdirs demo x = Ok (true, o', x').
Proof.
  eexists. split; [| split].
  - exists demo, (chars "/home"), (chars "x/y"). split; [repeat constructor; discriminate |].
    split; [repeat constructor; discriminate |]. split; [reflexivity |]. split; [reflexivity |].
    constructor; [name_tac | constructor; [name_tac | constructor; [name_tac | constructor]]].
  - intros q c r E. split; [| reflexivity].
    destruct q as [| q1 [| q2 [| q3 q]]]; cbn [app] in E; injection E; intros; subst; try (right; reflexivity);
      try (left; reflexivity).
  - eexists. eexists. reflexivity.
Qed.

(* ---- what an object knows ---- *)

Lemma knows_new : forall o cwd s x cs, ofile_new o cwd s = Ok x -> names_path x cs -> Forall name cs -> knows o x cs.
Proof.
  intros o cwd s x cs E A N. destruct (new_inv _ _ _ _ E) as (f & a & Ef & Ea & ->). unfold names_path, knows in *.
  cbn [o_file o_stat] in *. rewrite Ea in A. injection A as ->. unfold os_stat. rewrite os_path_of by now apply names_os. reflexivity.
Qed.

(* C291.  Just after it is made from a string or appended to, an object knows whether a
   folder, a file or nothing is at its path. *)
Theorem kind_fresh : forall o cs x,
  (forall cwd s, ofile_new o cwd s = Ok x -> names_path x cs -> Forall name cs ->
     of_exists o x = Ok (match node o cs with Some _ => true | None => false end) /\
     (of_is_folder x = true <-> node o cs = Some Folder) /\ (of_is_file x = true <-> node o cs = Some Regular)) /\
  (forall y s, ofile_append o y s = Ok x -> names_path x cs -> Forall name cs ->
     of_exists o x = Ok (match node o cs with Some _ => true | None => false end) /\
     (of_is_folder x = true <-> node o cs = Some Folder) /\ (of_is_file x = true <-> node o cs = Some Regular)).
Proof.
  intros o cs x.
  assert (G : names_path x cs -> Forall name cs -> knows o x cs ->
     of_exists o x = Ok (match node o cs with Some _ => true | None => false end) /\
     (of_is_folder x = true <-> node o cs = Some Folder) /\ (of_is_file x = true <-> node o cs = Some Regular)).
  { intros A N K. unfold of_exists, of_is_folder, of_is_file. rewrite A, K. cbn [bind]. unfold os_access, os_stat.
    rewrite os_path_of by now apply names_os. split; [reflexivity |].
    destruct (node o cs) as [[|] |]; split; split; congruence. }
  split.
  - intros cwd s E A N. apply G; auto. eapply knows_new; eauto.
  - intros y s E A N. apply G; auto. unfold ofile_append in E.
    destruct (file_append (o_file y) s) as [f | |]; try discriminate. cbn [bind] in E.
    destruct (file_absolute f) as [a | |] eqn:Ea; try discriminate. cbn [bind] in E. injection E as <-.
    unfold names_path, knows in *. cbn [o_file o_stat] in *. rewrite Ea in A. injection A as ->. unfold os_stat.
    rewrite os_path_of by now apply names_os. reflexivity.
Qed.
Print Assumptions kind_fresh.
Example kind_fresh_ex : exists x, ofile_new demo (chars "/home") (chars "a.bmp") = Ok x /\
  names_path x [chars "home"; chars "a.bmp"] /\ of_is_file x = true /\
  exists y, ofile_append demo x (chars "../") = Ok y /\ names_path y [chars "home"] /\ of_is_folder y = true.
Proof. eexists. split; [reflexivity |]. split; [reflexivity |]. split; [reflexivity |]. eexists. repeat split. Qed.

Lemma parent_abs : forall x cs c, made_for x (cs ++ [c]) ->
  exists g, ofile_parent x = Ok (mk_ofile g (o_stat x)) /\ file_absolute g = Ok (path_of cs).
Proof.
  intros x cs c (o & cwd & s & Hc & Hs & E & A & N). destruct (new_inv _ _ _ _ E) as (f & a & Ef & Ea & ->).
  unfold names_path, ofile_parent in *. cbn [o_file o_stat] in *. destruct cs as [| d cs].
  - destruct (file_parent_root cwd s f c Hc Hs Ef A) as (g & P & Q & _); [now inversion N |].
    exists g. rewrite P. cbn [bind]. auto.
  - destruct (file_ancestors cwd s f (d :: cs) [c] Hc Hs Ef A N ltac:(discriminate)) as (g & P & Q & _).
    cbn [length up bind] in P. exists g. rewrite P. cbn [bind]. auto.
Qed.

(* C292.  False of the other objects.  A folder made through another object is not seen: the
   object that was made before says that its path exists but is not a folder, and lists
   nothing. *)
Theorem kind_stale_refuted : forall o x y cs c cwd, sane o -> made_for x (cs ++ [c]) -> made_for y (cs ++ [c]) ->
  knows o y (cs ++ [c]) -> node o (cs ++ [c]) = None -> node o cs = Some Folder -> may o cs = true ->
  exists o' x', of_mkdir o x = Ok (true, o', x') /\ of_is_folder x' = true /\
    of_exists o' y = Ok true /\ of_is_folder y = false /\ of_ls o' cwd y = Ok [].
Proof.
  intros o x y cs c cwd S Mx My K Z P M. destruct (folder_created o x cs c S Mx) as (r & o' & x' & E & Ef & Ek & S' & R1 & R2 & R3).
  assert (r = true) by (apply R1; auto). subst r. exists o', x'. split; [exact E |]. destruct (R3 eq_refl) as [_ G].
  assert (N : node o' (cs ++ [c]) = Some Folder).
  { rewrite G. destruct (path_dec (cs ++ [c]) (cs ++ [c])); [reflexivity | contradiction]. }
  split; [unfold of_is_folder; now rewrite Ek, N |].
  assert (B : of_is_folder y = false) by (unfold of_is_folder; now rewrite K, Z).
  unfold of_exists, of_ls. rewrite (made_abs _ _ My), B. cbn [bind]. split; [| split; reflexivity].
  unfold os_access, os_stat. destruct (made_mem _ _ My) as [_ Nm]. rewrite os_path_of by now apply names_os. now rewrite N.
Qed.
Print Assumptions kind_stale_refuted.

(* C293.  The parent of a regular file is said to be a regular file and not a folder, and lists
   nothing. *)
Theorem parent_kind_refuted : forall o x cs c cwd, sane o -> made_for x (cs ++ [c]) ->
  knows o x (cs ++ [c]) -> node o (cs ++ [c]) = Some Regular ->
  exists p, ofile_parent x = Ok p /\ names_path p cs /\ node o cs = Some Folder /\
    of_exists o p = Ok true /\ of_is_folder p = false /\ of_is_file p = true /\ of_ls o cwd p = Ok [].
Proof.
  intros o x cs c cwd S M K R. destruct (parent_abs x cs c M) as (g & P & A). eexists. split; [exact P |].
  split; [exact A |]. assert (D : node o cs = Some Folder) by (apply (sane_up o cs c S); congruence). split; [exact D |].
  destruct (made_mem _ _ M) as [_ N]. apply Forall_app in N. destruct N as [N _].
  unfold of_exists, of_ls, of_is_folder, of_is_file. cbn [o_file o_stat]. rewrite A. cbn [bind]. unfold knows in K.
  rewrite K, R. split; [| repeat split]. unfold os_access, os_stat. rewrite os_path_of by now apply names_os. now rewrite D.
Qed.
Print Assumptions parent_kind_refuted.
Example parent_kind_refuted_ex : exists x, made_for x ([chars "home"] ++ [chars "a.bmp"]) /\
  knows demo x ([chars "home"] ++ [chars "a.bmp"]) /\ node demo ([chars "home"] ++ [chars "a.bmp"]) = Some Regular.
Proof.
  eexists. split.
  - exists demo, (chars "/home"), (chars "a.bmp"). split; [repeat constructor; discriminate |].
    split; [repeat constructor; discriminate |]. split; [reflexivity |]. split; [reflexivity |].
    constructor; [name_tac | constructor; [name_tac | constructor]].
  - split; reflexivity.
Qed.

(* ---- listing ---- *)

Lemma pieces_app : forall c l, noslash c -> pieces (c ++ l) = match pieces l with p :: ps => (c ++ p) :: ps | [] => [] end.
Proof.
  induction 1 as [| x c Hx _ IH]; cbn [app pieces].
  - destruct (pieces l); reflexivity.
  - rewrite Hx, IH. destruct (pieces l) eqn:E; [destruct (pieces_ne l E) | reflexivity].
Qed.

Lemma pieces_name : forall c, noslash c -> pieces c = [c].
Proof. intros c H. rewrite <- (app_nil_r c) at 1. rewrite pieces_app by exact H. cbn [pieces]. now rewrite app_nil_r. Qed.

Lemma pieces_F : forall cs l, Forall noslash cs -> pieces (F cs ++ slash :: l) = [] :: cs ++ pieces l.
Proof.
  induction 1 as [| c cs Hc _ IH]; [reflexivity |]. cbn [flat_map app pieces].
  change (is_separator slash) with true. cbv iota. rewrite <- app_assoc, pieces_app by exact Hc. rewrite IH, app_nil_r. reflexivity.
Qed.

Lemma pieces_child : forall cs l, Forall noslash cs ->
  exists z, Forall (fun p => p = []) z /\ pieces (path_of cs ++ [slash] ++ l) = z ++ cs ++ pieces l.
Proof.
  intros [| c cs] l H.
  - exists [[]; []]. split; [repeat constructor | reflexivity].
  - exists [[]]. split; [repeat constructor |]. rewrite path_of_F by discriminate. cbn [app]. now rewrite pieces_F.
Qed.

Lemma long_pops_no : forall ps at_, Forall (fun p => p <> chars "..") ps -> long_pops at_ ps.
Proof.
  induction ps as [| p ps IH]; intros at_ H; cbn [long_pops]; [exact I |]. inversion_clear H. split; [tauto | auto].
Qed.

Lemma walk_empties : forall z at_, Forall (fun p => p = []) z -> fold_left walk z at_ = at_.
Proof. induction z as [| p z IH]; intros at_ H; [reflexivity |]. inversion_clear H. subst. cbn [fold_left]. now apply IH. Qed.

(* an absolute path whose last part has the pieces ns *)
Lemma new_child : forall o w cs l ns, Forall name w -> Forall name cs -> c_str l -> pieces l = ns -> Forall name ns -> ns <> [] ->
  exists x, ofile_new o (path_of w) (path_of cs ++ [slash] ++ l) = Ok x /\ names_path x (cs ++ ns) /\ knows o x (cs ++ ns).
Proof.
  intros o w cs l ns W N Cl E Nn Ne. destruct (pieces_child cs l (names_noslash _ N)) as (z & Z & P).
  assert (R0 : starts_at_root (path_of cs ++ [slash] ++ l) = true) by (destruct cs; reflexivity).
  assert (NN : Forall name (cs ++ ns)) by (apply Forall_app; auto).
  assert (RS : resolve [] (path_of cs ++ [slash] ++ l) = cs ++ ns).
  { unfold resolve. rewrite P, fold_left_app, (walk_empties z) by exact Z. rewrite E. rewrite (walks (cs ++ ns)) by now apply names_os. reflexivity. }
  assert (RV : resolvable w (path_of cs ++ [slash] ++ l)).
  { unfold resolvable. rewrite R0. split.
    - left. rewrite RS. destruct cs; [exact Ne | discriminate].
    - apply long_pops_no. rewrite P, E. apply Forall_app. split; [eapply Forall_impl; [| exact Z]; intros p ->; discriminate |].
      eapply Forall_impl; [| exact NN]. intros p (_ & _ & Hp & _). exact Hp. }
  assert (CS : c_str (path_of cs ++ [slash] ++ l)).
  { apply c_str_app; [now apply path_cstr |]. apply c_str_app; [repeat constructor; discriminate | exact Cl]. }
  destruct (file_resolved w _ W CS RV) as (f & Ef & Ea & _). unfold base in Ea. rewrite R0, RS in Ea.
  unfold ofile_new. rewrite Ef. cbn [bind]. rewrite Ea. cbn [bind]. eexists. split; [reflexivity |]. split; [exact Ea |].
  unfold knows. cbn [o_stat]. unfold os_stat. rewrite os_path_of by now apply names_os. reflexivity.
Qed.

Definition entries (o : os) (p : path) : list (list ascii) :=
  flat_map (fun e =>
    match fst e with
    | [] => []
    | _ => if path_dec (removelast (fst e)) p then [last (fst e) []] else []
    end) (nodes o).

Lemma entries_in : forall o p n, sane o -> (In n (entries o p) <-> node o (p ++ [n]) <> None).
Proof.
  intros o p n [D S]. unfold entries. rewrite in_flat_map. split.
  - intros ([q k] & I & J). cbn [fst] in J. destruct q as [| a q]; [destruct J |].
    destruct (path_dec (removelast (a :: q)) p) as [E | _]; [| destruct J]. destruct J as [J | []].
    assert (Q : a :: q = p ++ [n]) by (rewrite <- E, <- J; apply app_removelast_last; discriminate).
    rewrite <- Q. unfold node. rewrite (in_find _ _ _ D I). discriminate.
  - intros H. destruct (node o (p ++ [n])) as [k |] eqn:E; [| contradiction]. apply node_in in E; [| destruct p; discriminate].
    exists (p ++ [n], k). split; [exact E |]. cbn [fst]. rewrite removelast_last, last_last.
    destruct (p ++ [n]) eqn:X; [destruct p; discriminate |]. destruct (path_dec p p); [now left | contradiction].
Qed.

Lemma entries_nodup : forall o p, sane o -> NoDup (entries o p).
Proof.
  intros o p [D _]. unfold entries. induction (nodes o) as [| [q k] l IH]; cbn [flat_map fst]; [constructor |].
  cbn [map fst] in D. inversion_clear D as [| ? ? N D']. specialize (IH D').
  destruct q as [| a q]; [exact IH |]. destruct (path_dec (removelast (a :: q)) p) as [E | _]; [| exact IH].
  cbn [app]. constructor; [| exact IH]. intros I. apply N. rewrite in_flat_map in I. destruct I as ([q' k'] & I & J).
  cbn [fst] in J. destruct q' as [| a' q']; [destruct J |]. destruct (path_dec (removelast (a' :: q')) p) as [E' | _]; [| destruct J].
  destruct J as [J | []]. apply in_map_iff. exists (a' :: q', k'). split; [| exact I]. cbn [fst].
  rewrite (app_removelast_last [] (l := a' :: q')) by discriminate. rewrite (app_removelast_last [] (l := a :: q)) by discriminate.
  congruence.
Qed.

Lemma ls_cons : forall o cwd abs al n names, n <> chars "." -> n <> chars ".." ->
  exists al', ls_loop o cwd abs al (n :: names) =
    let! x := ofile_new o cwd (abs ++ [slash] ++ n) in let! xs := ls_loop o cwd abs al' names in Ok (x :: xs).
Proof.
  intros o cwd abs al n names A B. cbn [ls_loop].
  destruct (list_eq_dec ascii_dec n (chars ".")); [contradiction |].
  destruct (list_eq_dec ascii_dec n (chars "..")); [contradiction |].
  destruct (Nat.leb_spec al (length abs + 1 + 2 + length n)) as [L | L];
    match goal with |- context [?u <? ?v] => destruct (Nat.ltb_spec u v) as [K | K] end; eauto;
    rewrite !app_length in K; cbn [length] in K; lia.
Qed.

Lemma ls_names : forall o w cs names al, Forall name w -> Forall name cs -> Forall name names ->
  exists xs, ls_loop o (path_of w) (path_of cs) al names = Ok xs /\
    Forall2 (fun n y => names_path y (cs ++ [n]) /\ knows o y (cs ++ [n])) names xs.
Proof.
  intros o w cs names al W N H. revert al. induction H as [| n names Hn _ IH]; intros al; [exists []; split; [reflexivity | constructor] |].
  destruct (ls_cons o (path_of w) (path_of cs) al n names) as (al' & ->); [apply Hn .. |].
  destruct (new_child o w cs n [n] W N (name_cstr _ Hn) (pieces_name _ (name_noslash _ Hn)) ltac:(now constructor) ltac:(discriminate)) as (x & -> & A & K).
  destruct (IH al') as (xs & E & R). cbn [bind]. rewrite E. cbn [bind]. exists (x :: xs). split; [reflexivity |]. now constructor.
Qed.

Lemma ls_start : forall o w x cs, Forall name cs -> names_path x cs -> knows o x cs -> node o cs = Some Folder ->
  exists al, of_ls o (path_of w) x = ls_loop o (path_of w) (path_of cs) al (entries o cs).
Proof.
  intros o w x cs N A K D. unfold of_ls, of_is_folder. rewrite A, K, D. cbn [bind]. unfold os_stat.
  rewrite os_path_of by now apply names_os. rewrite D. unfold os_readdir. fold (entries o cs). cbn [ls_loop].
  destruct (list_eq_dec ascii_dec (chars ".") (chars ".")); [| contradiction].
  destruct (list_eq_dec ascii_dec (chars "..") (chars ".")); [discriminate |].
  destruct (list_eq_dec ascii_dec (chars "..") (chars "..")); [| contradiction]. eauto.
Qed.

(* C294.  A folder that knows it is one lists exactly what is in it, everything once and
   nothing else, and every listed object stands for its entry and knows its kind; names of
   any length fit.  Names with backslashes excepted. *)
Theorem listing_exact : forall o w x cs, sane o -> Forall name w -> Forall name cs ->
  names_path x cs -> knows o x cs -> node o cs = Some Folder ->
  (forall n, node o (cs ++ [n]) <> None -> name n) ->
  exists ns xs, of_ls o (path_of w) x = Ok xs /\ NoDup ns /\
    (forall n, In n ns <-> node o (cs ++ [n]) <> None) /\
    Forall2 (fun n y => names_path y (cs ++ [n]) /\ knows o y (cs ++ [n])) ns xs.
Proof.
  intros o w x cs S W N A K D H. destruct (ls_start o w x cs N A K D) as (al & E).
  destruct (ls_names o w cs (entries o cs) al W N) as (xs & L & R).
  { apply Forall_forall. intros n I. apply H. now apply entries_in. }
  exists (entries o cs), xs. rewrite E. split; [exact L |]. split; [now apply entries_nodup |].
  split; [intros n; now apply entries_in | exact R].
Qed.
Print Assumptions listing_exact.
Example listing_exact_ex : exists x, ofile_new demo (chars "/") (chars "/home/") = Ok x /\ names_path x [chars "home"] /\
  knows demo x [chars "home"] /\ exists y, of_ls demo (chars "/") x = Ok [y] /\ names_path y [chars "home"; chars "a.bmp"].
Proof. eexists. split; [reflexivity |]. split; [reflexivity |]. split; [reflexivity |]. eexists. split; reflexivity. Qed.

(* C295.  An entry with a backslash in its name is listed as an entry of a folder that need not
   exist. *)
Theorem listing_backslash_refuted : forall o w x cs a b, sane o -> Forall name w -> Forall name cs ->
  names_path x cs -> knows o x cs -> node o cs = Some Folder -> name a -> name b ->
  (forall n, node o (cs ++ [n]) <> None <-> n = a ++ "\" :: b) ->
  exists y, of_ls o (path_of w) x = Ok [y] /\ names_path y (cs ++ [a; b]) /\ node o (cs ++ [a; b]) = None /\
    of_exists o y = Ok false.
Proof.
  intros o w x cs a b S W N A K D Na Nb H. destruct (ls_start o w x cs N A K D) as (al & E).
  set (n := a ++ "\" :: b) in *.
  assert (EN : entries o cs = [n]).
  { pose proof (entries_nodup o cs S) as ND. pose proof (fun m => entries_in o cs m S) as I.
    destruct (entries o cs) as [| m [| m' l]].
    - exfalso. apply (in_nil (a := n)). apply I. now apply H.
    - f_equal. apply H. apply I. now left.
    - exfalso. assert (m = n) by (apply H, I; now left). assert (m' = n) by (apply H, I; right; now left). subst.
      inversion_clear ND as [| ? ? X _]. apply X. now left. }
  assert (P : pieces n = [a; b]).
  { unfold n. rewrite pieces_app by now apply name_noslash. cbn [pieces]. change (is_separator "\") with true. cbv iota.
    rewrite pieces_name by now apply name_noslash. now rewrite app_nil_r. }
  assert (C : c_str n).
  { unfold n. apply c_str_app; [now apply name_cstr |]. constructor; [discriminate | now apply name_cstr]. }
  assert (Nn1 : n <> chars ".") by (intros X; rewrite X in P; discriminate).
  assert (Nn2 : n <> chars "..") by (intros X; rewrite X in P; discriminate).
  destruct (new_child o w cs n [a; b] W N C P) as (y & Ey & Ay & Ky); [constructor; [exact Na | constructor; [exact Nb | constructor]] | discriminate |].
  exists y. rewrite E, EN. destruct (ls_cons o (path_of w) (path_of cs) al n [] Nn1 Nn2) as (al' & ->).
  rewrite Ey. cbn [bind ls_loop]. split; [reflexivity |]. split; [exact Ay |].
  assert (Z : node o (cs ++ [a; b]) = None).
  { destruct (node o (cs ++ [a; b])) as [k |] eqn:X; [| reflexivity]. exfalso.
    assert (Q : node o (cs ++ [a]) = Some Folder).
    { apply (sane_up o (cs ++ [a]) b S). rewrite <- app_assoc. cbn [app]. congruence. }
    assert (a = n) by (apply H; congruence). unfold n in H0. apply (f_equal (@length ascii)) in H0.
    rewrite app_length in H0. cbn [length] in H0. lia. }
  split; [exact Z |]. unfold of_exists. rewrite Ay. cbn [bind]. unfold os_access, os_stat. rewrite os_path_of; [now rewrite Z |].
  apply Forall_app. split; [now apply names_os |]. constructor; [now apply name_os | constructor; [now apply name_os | constructor]].
Qed.
Print Assumptions listing_backslash_refuted.
Example listing_backslash_ex : let o := mk_os [([chars "a\b"], Regular)] (fun _ => true) in
  exists x y, ofile_new o (chars "/") (chars "/") = Ok x /\ of_ls o (chars "/") x = Ok [y] /\
    names_path y [chars "a"; chars "b"].
Proof. eexists. eexists. split; [reflexivity |]. split; reflexivity. Qed.

(* ---- the output file of the film ---- *)

Lemma pieces_end : forall l t, noslash t -> pieces (l ++ t) = removelast (pieces l) ++ [last (pieces l) [] ++ t].
Proof.
  induction l as [| x l IH]; intros t H; [now rewrite pieces_name |]. cbn [app pieces].
  pose proof (pieces_ne l) as Ne. rewrite IH by exact H. destruct (is_separator x).
  - cbn [removelast last]. destruct (pieces l); [contradiction | reflexivity].
  - destruct (pieces l) as [| p [| p' ps]]; [contradiction | reflexivity | reflexivity].
Qed.

Lemma long_pops_last : forall ps at_ p p', long_pops at_ (ps ++ [p]) -> p' <> chars ".." -> long_pops at_ (ps ++ [p']).
Proof.
  induction ps as [| q ps IH]; intros at_ p p' H N; cbn [app long_pops] in *.
  - split; [contradiction | exact I].
  - destruct H as [A B]. split; [exact A |]. eapply IH; eauto.
Qed.

Definition ppm_name (p : list ascii) : list ascii := p ++ chars ".ppm".

Lemma ppm_noslash : noslash (chars ".ppm").
Proof. repeat constructor. Qed.

Lemma ppm_is_name : forall p, name p -> name (ppm_name p).
Proof.
  intros p (A & B & C & D). unfold ppm_name, name.
  assert (L : 5 <= length (p ++ chars ".ppm")).
  { rewrite app_length. destruct p; [contradiction | cbn [length]; cbn; lia]. }
  split; [| split; [| split]]; try (intros E; rewrite E in L; cbn in L; lia).
  apply Forall_app. split; [exact D | repeat constructor; discriminate].
Qed.

Lemma last_dot : forall (x : ascii) b p e f, b ++ x :: e = p ++ x :: f -> ~ In x e -> ~ In x f -> e = f.
Proof.
  intros x. induction b as [| y b IH]; intros [| z p] e f E A B; cbn [app] in E.
  - now injection E.
  - injection E as -> E. exfalso. apply A. rewrite E. apply in_or_app. right. now left.
  - injection E as <- E. exfalso. apply B. rewrite <- E. apply in_or_app. right. now left.
  - injection E as _ E. eapply IH; eauto.
Qed.

Lemma extension_one : forall n e f, PathSpec.extension_of n e -> PathSpec.extension_of n f -> e = f.
Proof.
  intros n e f A B.
  destruct A as [n N | n N | b e Ne N]; inversion B as [m M Q | m M Q | p g Pe M Q]; subst; try reflexivity.
  - exfalso. apply N. apply in_or_app. right. now left.
  - destruct p as [| z p]; [contradiction |]. cbn [app] in Q. injection Q as _ Q. exfalso. apply N. rewrite <- Q.
    apply in_or_app. right. now left.
  - exfalso. apply M. apply in_or_app. right. now left.
  - destruct b as [| z b]; [contradiction |]. cbn [app] in Q. injection Q as _ Q. exfalso. apply M. rewrite Q.
    apply in_or_app. right. now left.
  - symmetry in Q. eapply last_dot; eauto.
Qed.

Lemma ppm_ext : forall p e, name p -> PathSpec.extension_of (ppm_name p) e -> e = chars "ppm".
Proof.
  intros p e (A & _) H. apply (extension_one _ _ _ H). unfold ppm_name.
  change (chars ".ppm") with ("." :: chars "ppm"). constructor; [exact A |]. intros [X | [X | [X | []]]]; discriminate.
Qed.

(* the film makes an object for a string whose last piece is a name *)
Lemma film_file : forall o w full ps p, sane o -> Forall name w -> c_str full -> resolvable w full ->
  pieces full = ps ++ [p] -> name p ->
  let cs := fold_left walk ps (base w full) in
  exists x e, ofile_new o (path_of w) full = Ok x /\ made_for x (cs ++ [p]) /\ knows o x (cs ++ [p]) /\
    file_extension (o_file x) = Ok e /\ PathSpec.extension_of p e.
Proof.
  intros o w full ps p S W C R P Np cs. destruct (file_resolved w full W C R) as (f & Ef & Ea & N).
  assert (Q : resolve (base w full) full = cs ++ [p]).
  { unfold resolve. rewrite P, fold_left_app. cbn [fold_left]. apply walk_name; apply Np. }
  rewrite Q in Ea, N.
  exists (mk_ofile f (os_stat o (path_of (cs ++ [p])))).
  destruct (file_names _ _ _ cs p (path_cstr _ W) C Ef Ea N) as (_ & e & E & X). exists e.
  assert (O : ofile_new o (path_of w) full = Ok (mk_ofile f (os_stat o (path_of (cs ++ [p]))))).
  { unfold ofile_new. rewrite Ef. cbn [bind]. rewrite Ea. reflexivity. }
  split; [exact O |]. split; [| split; [| split; [exact E | exact X]]].
  - exists o, (path_of w), full. split; [now apply path_cstr |]. split; [exact C |]. split; [exact O |]. split; [exact Ea | exact N].
  - unfold knows. cbn [o_stat]. unfold os_stat. now rewrite os_path_of by now apply names_os.
Qed.

Lemma ppm_resolvable : forall w full ps p, resolvable w full -> pieces full = ps ++ [p] -> name p ->
  pieces (full ++ chars ".ppm") = ps ++ [ppm_name p] /\ base w (full ++ chars ".ppm") = base w full /\
  resolvable w (full ++ chars ".ppm").
Proof.
  intros w full ps p [R1 R2] P Np. pose proof (ppm_is_name p Np) as Nq.
  assert (Pq : pieces (full ++ chars ".ppm") = ps ++ [ppm_name p]).
  { rewrite pieces_end by apply ppm_noslash. rewrite P, removelast_last, last_last. reflexivity. }
  assert (St : starts_at_root (full ++ chars ".ppm") = starts_at_root full).
  { destruct full as [| x full]; [| reflexivity]. exfalso. cbn [pieces] in P.
    destruct ps as [| a [| b ps]]; try discriminate. injection P as P. destruct Np as (X & _). congruence. }
  split; [exact Pq |]. split; [unfold base; now rewrite St |].
  unfold resolvable. rewrite St. split.
  - left. unfold resolve. rewrite Pq, fold_left_app. cbn [fold_left]. rewrite walk_name by apply Nq.
    intros X. now apply app_eq_nil in X.
  - rewrite Pq. rewrite P in R2. destruct Nq as (_ & N1 & N2 & _). destruct Np as (_ & M1 & M2 & _). destruct (starts_at_root full).
    + eapply long_pops_last; eauto.
    + destruct R2 as (_ & _ & A & B). destruct ps as [| a ps]; cbn [app hd tl] in *.
      * split; [congruence |]. split; [congruence |]. split; [intros X; destruct (M2 (A X)) | exact I].
      * split; [destruct ps; discriminate |]. split; [destruct ps; discriminate |]. split; [exact A |].
        eapply long_pops_last; eauto.
Qed.

(* C296.  The film accepts an output path exactly if it is not a folder and the path of its
   parent exists and can be written to; if the extension is not one of a format that can be
   written, .ppm is added, and then that must not be a folder.  What is accepted is
   written in the format its name says. *)
Theorem film_output_chosen : forall l o w full ps p e, sane o -> Forall name w -> c_str full -> resolvable w full ->
  pieces full = ps ++ [p] -> name p -> PathSpec.extension_of p e ->
  let cs := fold_left walk ps (base w full) in
  let n := match write_format l (string_of_list_ascii e) with Some _ => p | None => ppm_name p end in
  exists r, film_output l o (path_of w) full = Ok r /\
  (r <> None <-> node o (cs ++ [p]) <> Some Folder /\ node o (cs ++ [n]) <> Some Folder /\
     node o cs <> None /\ may o cs = true) /\
  forall out, r = Some out -> names_path out (cs ++ [n]) /\ knows o out (cs ++ [n]) /\
    exists fm, film_format l out = Ok (Some fm) /\
      (write_format l (string_of_list_ascii e) = Some fm \/ n = ppm_name p /\ fm = Ppm).
Proof.
  intros l o w full ps p e S W C R P Np X cs n.
  destruct (film_file o w full ps p S W C R P Np) as (x & e' & Ex & M & K & Ee & Xe). fold cs in M, K.
  assert (e' = e) by (eapply extension_one; eauto). subst e'.
  destruct (parent_abs x cs p M) as (g & Eg & Ag).
  pose proof (made_abs _ _ M) as A. destruct (made_mem _ _ M) as [_ N].
  assert (Ncs : Forall name cs) by now apply Forall_app in N.
  unfold film_output. rewrite Ex. cbn [bind]. unfold of_exists at 1. rewrite A. cbn [bind].
  assert (D : (os_access o (path_of (cs ++ [p])) && of_is_folder x = true) <-> node o (cs ++ [p]) = Some Folder).
  { unfold os_access, os_stat, of_is_folder. rewrite os_path_of by now apply names_os. rewrite K.
    destruct (node o (cs ++ [p])) as [[|] |]; split; cbn; congruence. }
  destruct (os_access o (path_of (cs ++ [p])) && of_is_folder x).
  { exists None. split; [reflexivity |]. split; [| discriminate]. split; [congruence |]. intros [Z _]. tauto. }
  assert (D' : node o (cs ++ [p]) <> Some Folder) by (intros Z; apply D in Z; discriminate). clear D.
  rewrite Eg. cbn [bind]. unfold of_writable. cbn [o_file]. rewrite Ag. cbn [bind].
  assert (V : os_writable o (path_of cs) = true <-> node o cs <> None /\ may o cs = true).
  { unfold os_writable, os_access, os_stat. rewrite os_path_of by now apply names_os.
    destruct (node o cs), (may o cs); split; cbn; intuition congruence. }
  destruct (os_writable o (path_of cs)).
  2:{ exists None. split; [reflexivity |]. split; [| discriminate]. split; [congruence |]. intros (_ & _ & Z).
      apply V in Z. discriminate. }
  destruct (proj1 V eq_refl) as [V1 V2]. clear V.
  rewrite Ee. cbn [bind]. destruct (extensions_agree l (string_of_list_ascii e)) as (_ & _ & Su & _).
  subst n. destruct (write_format l (string_of_list_ascii e)) as [fm |] eqn:Wf.
  - assert (Z : supported l (string_of_list_ascii e) = true) by (apply Su; discriminate). rewrite Z.
    exists (Some x). split; [reflexivity |]. split; [split; [auto | discriminate] |].
    intros out E. injection E as <-. split; [exact A |]. split; [exact K |]. exists fm. split; [| now left].
    unfold film_format. rewrite Ee. cbn [bind]. now rewrite Wf.
  - destruct (supported l (string_of_list_ascii e)); [destruct (proj1 Su eq_refl eq_refl) |].
    destruct (ppm_resolvable w full ps p R P Np) as (Pq & Bq & Rq).
    assert (Cq : c_str (full ++ chars ".ppm")) by (apply c_str_app; [exact C | repeat constructor; discriminate]).
    destruct (film_file o w _ ps _ S W Cq Rq Pq (ppm_is_name p Np)) as (y & f & Ey & My & Ky & Ef & Xf).
    rewrite Bq in My, Ky. fold cs in My, Ky. apply (ppm_ext p f Np) in Xf. subst f.
    rewrite Ey. cbn [bind]. pose proof (made_abs _ _ My) as Ay. unfold of_exists. rewrite Ay. cbn [bind].
    destruct (made_mem _ _ My) as [_ Ny].
    assert (Dy : (os_access o (path_of (cs ++ [ppm_name p])) && of_is_folder y = true) <-> node o (cs ++ [ppm_name p]) = Some Folder).
    { unfold os_access, os_stat, of_is_folder. rewrite os_path_of by now apply names_os. rewrite Ky.
      destruct (node o (cs ++ [ppm_name p])) as [[|] |]; split; cbn; congruence. }
    destruct (os_access o (path_of (cs ++ [ppm_name p])) && of_is_folder y).
    + exists None. split; [reflexivity |]. split; [| discriminate]. split; [congruence |]. intros (_ & Z & _). tauto.
    + exists (Some y). split; [reflexivity |]. split.
      * split; [intros _ | discriminate]. split; [exact D' |]. split; [| auto]. intros Z. apply Dy in Z. discriminate.
      * intros out E. injection E as <-. split; [exact Ay |]. split; [exact Ky |]. exists Ppm. split; [| now right].
        unfold film_format. rewrite Ef. reflexivity.
Qed.
Print Assumptions film_output_chosen.
Example film_output_ex : forall l, exists x y,
  film_output l demo (chars "/home") (chars "out.ppm") = Ok (Some x) /\ names_path x [chars "home"; chars "out.ppm"] /\
  film_output l demo (chars "/home") (chars "../home/out.txt") = Ok (Some y) /\ names_path y [chars "home"; chars "out.txt.ppm"] /\
  film_output l demo (chars "/home") (chars "/home") = Ok None /\
  film_output l demo (chars "/home") (chars "/nowhere/a.bmp") = Ok None.
Proof.
  intros [[|] [|] [|]]; eexists; eexists;
    (split; [reflexivity |]; split; [reflexivity |]; split; [reflexivity |]; split; [reflexivity |]; split; reflexivity).
Qed.

(* C297.  Accepting is not enough to write: the parent may be a regular file, and the output
   may be a file that cannot be written to. *)
Theorem film_accepts_unwritable_refuted : forall l o w full ps p e fm, sane o -> Forall name w -> c_str full -> resolvable w full ->
  pieces full = ps ++ [p] -> name p -> PathSpec.extension_of p e -> write_format l (string_of_list_ascii e) = Some fm ->
  let cs := fold_left walk ps (base w full) in
  may o cs = true ->
  (node o cs = Some Regular \/ node o (cs ++ [p]) = Some Regular /\ may o (cs ++ [p]) = false) ->
  exists out, film_output l o (path_of w) full = Ok (Some out) /\ names_path out (cs ++ [p]).
Proof.
  intros l o w full ps p e fm S W C R P Np X Wf cs M H.
  destruct (film_output_chosen l o w full ps p e S W C R P Np X) as (r & E & A & B). fold cs in A, B. rewrite Wf in A, B.
  assert (Z : r <> None).
  { apply A. destruct H as [H | [H _]].
    - assert (Q : node o (cs ++ [p]) = None).
      { destruct (node o (cs ++ [p])) as [k |] eqn:Z; [| reflexivity]. assert (node o cs = Some Folder) by (apply (sane_up o cs p S); congruence). congruence. }
      rewrite Q, H. repeat split; try discriminate. exact M.
    - assert (Q : node o cs = Some Folder) by (apply (sane_up o cs p S); congruence). rewrite H, Q.
      repeat split; try discriminate. exact M. }
  destruct r as [out |]; [| contradiction]. exists out. split; [exact E |]. now apply B.
Qed.
Print Assumptions film_accepts_unwritable_refuted.
Example film_accepts_unwritable_ex : forall l, exists x,
  node demo [chars "home"; chars "a.bmp"] = Some Regular /\
  film_output l demo (chars "/home") (chars "a.bmp/b.ppm") = Ok (Some x) /\
  names_path x [chars "home"; chars "a.bmp"; chars "b.ppm"].
Proof. intros [[|] [|] [|]]; eexists; (split; [reflexivity |]; split; reflexivity). Qed.

(* C298.  An output path that ends with a separator and names nothing is accepted; the
   output is a file called .ppm in the folder that is not there, and as its extension is
   empty no format is chosen and nothing is written. *)
Theorem film_trailing_separator_refuted : forall l o w ds d e, sane o -> Forall name w -> Forall name (ds ++ [d]) ->
  node o (ds ++ [d]) = None -> node o ds <> None -> may o ds = true ->
  PathSpec.extension_of d e -> write_format l (string_of_list_ascii e) = None ->
  exists out, film_output l o (path_of w) (path_of (ds ++ [d]) ++ [slash]) = Ok (Some out) /\
    names_path out (ds ++ [d; chars ".ppm"]) /\ film_format l out = Ok None.
Proof.
  intros l o w ds d e S W N Z1 Z2 Mw X Wf.
  assert (Ne : ds ++ [d] <> []) by (destruct ds; discriminate).
  set (full := path_of (ds ++ [d]) ++ [slash]).
  assert (C : c_str full) by (apply c_str_app; [now apply path_cstr | repeat constructor; discriminate]).
  assert (St : starts_at_root full = true) by (unfold full; rewrite path_of_F by exact Ne; destruct ds; reflexivity).
  assert (P : pieces full = [] :: (ds ++ [d]) ++ [[]]).
  { unfold full. rewrite path_of_F by exact Ne. rewrite (pieces_F (ds ++ [d]) []) by now apply names_noslash. reflexivity. }
  assert (RS : resolve [] full = ds ++ [d]).
  { unfold resolve. rewrite P. cbn [fold_left]. change (walk [] []) with (@nil (list ascii)). rewrite fold_left_app.
    rewrite (walks (ds ++ [d])) by now apply names_os. reflexivity. }
  assert (R : resolvable w full).
  { unfold resolvable. rewrite St, RS. split; [now left |]. rewrite P. apply long_pops_no. constructor; [discriminate |].
    apply Forall_app. split; [| constructor; [discriminate | constructor]]. eapply Forall_impl; [| exact N]. intros q (_ & _ & Hq & _). exact Hq. }
  destruct (file_resolved w full W C R) as (f & Ef & Ea & _). unfold base in Ea. rewrite St, RS in Ea.
  destruct (file_names _ _ _ ds d (path_cstr _ W) C Ef Ea N) as (_ & e' & Ee & Xe).
  assert (e' = e) by (eapply extension_one; eauto). subst e'.
  set (x := mk_ofile f (os_stat o (path_of (ds ++ [d])))).
  assert (Ox : ofile_new o (path_of w) full = Ok x) by (unfold ofile_new; rewrite Ef; cbn [bind]; now rewrite Ea).
  assert (M : made_for x (ds ++ [d])).
  { exists o, (path_of w), full. split; [now apply path_cstr |]. split; [exact C |]. split; [exact Ox |]. split; [exact Ea | exact N]. }
  destruct (parent_abs x ds d M) as (g & Eg & Ag).
  assert (Nds : Forall name ds) by now apply Forall_app in N.
  unfold film_output. rewrite Ox. cbn [bind]. unfold of_exists at 1. rewrite (made_abs _ _ M). cbn [bind].
  assert (Q : os_stat o (path_of (ds ++ [d])) = None) by (unfold os_stat; now rewrite os_path_of by now apply names_os).
  unfold os_access at 1. rewrite Q. cbn [andb]. rewrite Eg. cbn [bind]. unfold of_writable. cbn [o_file]. rewrite Ag. cbn [bind].
  unfold os_writable, os_access at 1, os_stat at 1. rewrite os_path_of by now apply names_os. rewrite Mw.
  destruct (node o ds) as [k |]; [| contradiction]. cbn [andb].
  unfold x at 1. cbn [o_file]. rewrite Ee. cbn [bind].
  destruct (extensions_agree l (string_of_list_ascii e)) as (_ & _ & Su & _).
  destruct (supported l (string_of_list_ascii e)); [destruct (proj1 Su eq_refl Wf) |].
  assert (Np : name (chars ".ppm")) by name_tac.
  destruct (new_child o w (ds ++ [d]) (chars ".ppm") [chars ".ppm"] W N) as (y & Ey & Ay & Ky);
    [repeat constructor; discriminate | reflexivity | now constructor | discriminate |].
  assert (Z3 : node o ((ds ++ [d]) ++ [chars ".ppm"]) = None).
  { destruct (node o ((ds ++ [d]) ++ [chars ".ppm"])) eqn:Y; [| reflexivity].
    assert (node o (ds ++ [d]) = Some Folder) by (apply (sane_up o _ (chars ".ppm") S); congruence). congruence. }
  unfold full. rewrite <- app_assoc. rewrite Ey. cbn [bind]. unfold of_exists. rewrite Ay. cbn [bind].
  unfold of_is_folder. rewrite Ky, Z3, andb_false_r. exists y. split; [reflexivity |].
  rewrite <- app_assoc in Ay. split; [exact Ay |].
  assert (NN : Forall name (ds ++ [d; chars ".ppm"])).
  { change [d; chars ".ppm"] with ([d] ++ [chars ".ppm"]). rewrite app_assoc. apply Forall_app. split; [exact N | now constructor]. }
  destruct (new_inv _ _ _ _ Ey) as (fy & ay & Efy & Eay & ->). unfold names_path in Ay. cbn [o_file] in *.
  assert (Cy : c_str (path_of (ds ++ [d]) ++ [slash] ++ chars ".ppm")).
  { apply c_str_app; [now apply path_cstr | repeat constructor; discriminate]. }
  change [d; chars ".ppm"] with ([d] ++ [chars ".ppm"]) in Ay, NN. rewrite app_assoc in Ay, NN.
  destruct (file_names _ _ _ (ds ++ [d]) (chars ".ppm") (path_cstr _ W) Cy Efy Ay NN) as (_ & e2 & Ee2 & Xe2).
  assert (e2 = []).
  { apply (extension_one _ _ _ Xe2). apply (ext_hidden (chars "ppm")). intros [V | [V | [V | []]]]; discriminate. }
  subst e2. unfold film_format. cbn [o_file]. rewrite Ee2. cbn [bind].
  destruct l as [[|] [|] [|]]; reflexivity.
Qed.
Print Assumptions film_trailing_separator_refuted.
Example film_trailing_separator_ex : forall l, exists x,
  film_output l demo (chars "/home") (chars "/home/renders/") = Ok (Some x) /\
  names_path x [chars "home"; chars "renders"; chars ".ppm"].
Proof. intros [[|] [|] [|]]; eexists; split; reflexivity. Qed.
