(* C11, C12: file paths, names and parents. *)
From Verif Require Import Common ArrayIO PathModel PathSpec PathProofs.
Local Open Scope char_scope.
Local Open Scope list_scope.
Local Open Scope nat_scope.

Definition base (at_ : list (list ascii)) (path : list ascii) : list (list ascii) :=
  if starts_at_root path then [] else at_.

Lemma tail_end : forall path p ps, pieces path = p :: ps -> ends_with_separator path -> ps <> [] /\ tail_of ps = [slash].
Proof.
  intros path p ps E H. destruct (tail_sep path H) as (p' & ps' & E' & T). rewrite E in E'. injection E' as <- <-.
  split; [| exact T]. intros ->. discriminate T.
Qed.

Lemma first_of : forall cs path p ps, pieces path = p :: ps -> pieces path <> [chars "."] -> pieces path <> [chars ".."] ->
  (cs = [] -> hd [] (pieces path) = chars "..") -> first_ok cs p ps.
Proof.
  intros cs path p ps E N1 N2 H. rewrite E in *. split; [| exact H].
  intros [-> | ->] ->; [now apply N1 | now apply N2].
Qed.

(* C11.  On every resolvable path the stored path is the one found by walking
   down the components from the current directory (from the root for an absolute
   path), and it has no dot, dot-dot or empty component. *)
Theorem file_resolved : forall cs path, Forall name cs -> c_str path -> resolvable cs path ->
  exists f, file_new (path_of cs) path = Ok f /\
    file_absolute f = Ok (path_of (resolve (base cs path) path)) /\
    Forall name (resolve (base cs path) path).
Proof.
  intros cs path Hcs Hp [H1 H2]. unfold base.
  set (b := if starts_at_root path then [] else cs) in *.
  assert (Hn : Forall name (resolve b path)).
  { apply resolve_names; [| exact Hp]. unfold b. destruct (starts_at_root path); auto. }
  assert (A : (match path with
    | c :: _ => if (c =? slash)%char then append_relative (length path + 1) [] path
      else append_relative (length (path_of cs) + 1 + length path + 1) (path_of cs) path
    | [] => append_relative (length (path_of cs) + 1 + length path + 1) (path_of cs) path
    end) = Ok (path_of (resolve b path))).
  { destruct (pieces path) as [| p ps] eqn:E; [destruct (pieces_ne path E) |].
    assert (R : starts_at_root path = false ->
      append_relative (length (path_of cs) + 1 + length path + 1) (path_of cs) path = Ok (path_of (resolve b path))).
    { intros S. unfold b in *. rewrite S in *. destruct H2 as (N1 & N2 & N3 & LP).
      apply (relative_ok cs path p ps); auto using names_noslash, names_ne; [now apply first_of with path; try rewrite E | |lia].
      destruct H1 as [H1 | H1]; [left; unfold resolve in H1; now rewrite E in H1 | right; eapply tail_end; eauto]. }
    destruct path as [| c path]; [apply R; reflexivity |].
    destruct (c =? slash)%char eqn:Ec; [| apply R; exact Ec].
    apply Ascii.eqb_eq in Ec. subst c. change (starts_at_root (slash :: path)) with true in *. cbv iota in *.
    assert (Ep : p = [] /\ ps = pieces path).
    { cbn [pieces] in E. change (is_separator slash) with true in E. cbv iota in E. injection E as <- <-. now split. }
    destruct Ep as [-> Eps]. unfold resolve. unfold b. rewrite E. cbn [fold_left walk].
    destruct H2 as [_ LP].
    apply (absolute_ok (slash :: path) [] ps); auto.
    - rewrite Eps. apply pieces_ne.
    - destruct H1 as [H1 | H1]; [left | right; exact (proj2 (tail_end _ _ _ E H1))].
      unfold b, resolve in H1. rewrite E in H1. exact H1. }
  assert (W : exists f, with_names (path_of (resolve b path)) = Ok f /\ file_absolute f = Ok (path_of (resolve b path))).
  { destruct (resolve b path) as [| c r _] eqn:E using rev_ind; [eexists; split; reflexivity |].
    apply Forall_app in Hn. destruct Hn as [Hr Hc]. inversion_clear Hc as [| ? ? Hc' _].
    destruct (with_names_ok r c (name_noslash c Hc') (proj1 Hc')) as (e & EW & _ & _).
    rewrite path_of_F by (destruct r; discriminate). eexists. split; [exact EW |].
    apply (c_string_ok [] (F (r ++ [c])) []). apply F_cstr. apply Forall_app. auto. }
  destruct W as (f & W1 & W2). exists f. split; [| split; [exact W2 | exact Hn]].
  unfold file_new.
  match goal with |- bind ?x _ = _ => change (bind x with_names = Ok f) end.
  rewrite A. exact W1.
Qed.

Example file_resolved_ex :
  resolvable [chars "home"; chars "me"] (chars "../you//./pics/../a.png") /\
  resolve [chars "home"; chars "me"] (chars "../you//./pics/../a.png") = [chars "home"; chars "you"; chars "a.png"].
Proof.
  split; [| reflexivity]. split; [left; discriminate |].
  split; [discriminate |]. split; [discriminate |]. split; [discriminate |]. cbn.
  repeat split; try discriminate; intros _; right; repeat constructor.
Qed.

(* The same for File::append on a file that is not the root. *)
Theorem file_append_resolved : forall cs cwd p0 f path, Forall name cs -> c_str cwd -> c_str p0 -> c_str path ->
  file_new cwd p0 = Ok f -> file_absolute f = Ok (path_of cs) -> cs <> [] ->
  pieces path <> [chars "."] -> pieces path <> [chars ".."] ->
  long_pops (walk cs (hd [] (pieces path))) (tl (pieces path)) ->
  resolve cs path <> [] \/ ends_with_separator path ->
  exists f', file_append f path = Ok f' /\ file_absolute f' = Ok (path_of (resolve cs path)).
Proof.
  intros cs cwd p0 f path Hcs Hw H0 Hp Ef Ea Hne N1 N2 LP H.
  destruct (pieces path) as [| p ps] eqn:E; [destruct (pieces_ne path E) |].
  assert (A : append_relative (length (path_of cs) + length path + 2) (path_of cs) path = Ok (path_of (resolve cs path))).
  { apply (relative_ok cs path p ps); auto using names_noslash, names_ne.
    - apply first_of with path; auto; try (rewrite E; assumption). intros Z. contradiction.
    - destruct H as [H | H]; [left; unfold resolve in H; now rewrite E in H | right; eapply tail_end; eauto]. }
  assert (Hn := resolve_names cs path Hcs Hp).
  assert (W : exists f, with_names (path_of (resolve cs path)) = Ok f /\ file_absolute f = Ok (path_of (resolve cs path))).
  { destruct (resolve cs path) as [| c r _] using rev_ind; [eexists; split; reflexivity |].
    apply Forall_app in Hn. destruct Hn as [Hr Hc]. inversion_clear Hc as [| ? ? Hc' _].
    destruct (with_names_ok r c (name_noslash c Hc') (proj1 Hc')) as (e & EW & _ & _).
    rewrite path_of_F by (destruct r; discriminate). eexists. split; [exact EW |].
    apply (c_string_ok [] (F (r ++ [c])) []). apply F_cstr. apply Forall_app. auto. }
  destruct W as (f' & W1 & W2). exists f'. split; [| exact W2].
  unfold file_append. rewrite Ea. cbn [bind]. rewrite A. exact W1.
Qed.

(* ---- where resolution goes wrong ---- *)

Lemma new_absolute : forall cwd path, file_new cwd (slash :: path) =
  let! abs := append_relative (length (slash :: path) + 1) [] (slash :: path) in with_names abs.
Proof. reflexivity. Qed.

Lemma unix_noslash : forall c, noslash c -> map unix c = c.
Proof. induction 1 as [| x c Hx _ IH]; [reflexivity |]. cbn [map]. now rewrite (nosep_unix x Hx), IH. Qed.

Lemma unix_F : forall cs, Forall noslash cs -> map unix (F cs) = F cs.
Proof.
  induction 1 as [| c cs Hc _ IH]; [reflexivity |]. cbn [flat_map map]. rewrite map_app, IH. cbn [map]. rewrite (unix_noslash c Hc). reflexivity.
Qed.

Lemma start_F : forall cap c cs, append_start cap [] (F (c :: cs)) = Ok ([], F (c :: cs)).
Proof. intros. cbn [flat_map app append_start]. destruct (c ++ F cs); reflexivity. Qed.

Lemma loop_names : forall cap cs rest st, Forall name cs -> rest <> [] ->
  length st + length (F cs) <= cap ->
  append_loop cap (F (cs ++ rest)) (st) = append_loop cap (F rest) (rev (F cs) ++ st).
Proof.
  intros cap cs rest st H Hr L. revert st L.
  induction H as [| c cs Hc _ IH]; intros st L; [reflexivity |]. rewrite F_cons_len in L.
  change ((c :: cs) ++ rest) with (c :: (cs ++ rest)).
  destruct Hc as (N1 & N2 & N3 & Hf).
  rewrite loop_name; auto; [| apply name_noslash; unfold name; auto | lia].
  rewrite IH by (rewrite app_length, rev_length; cbn [length]; lia).
  f_equal. cbn [flat_map]. change (slash :: c ++ F cs) with ([slash] ++ c ++ F cs).
  rewrite !rev_app_distr. cbn [rev app]. now rewrite <- !app_assoc.
Qed.

(* Going up from a directory with a one-letter name removes its parent too:
   "/ab/c/../x" becomes "/x". *)
Theorem file_dotdot_refuted : forall cwd cs d c x, Forall name (cs ++ [d]) -> name x -> name [c] ->
  exists f, file_new cwd (path_of (cs ++ [d; [c]; chars ".."; x])) = Ok f /\
    file_absolute f = Ok (path_of (cs ++ [x])) /\
    resolve [] (path_of (cs ++ [d; [c]; chars ".."; x])) = cs ++ [d; x].
Proof.
  intros cwd cs d c x Hcs Hx Hc.
  assert (Hd : Forall name cs /\ name d).
  { apply Forall_app in Hcs. destruct Hcs as [H1 H2]. inversion_clear H2. auto. }
  destruct Hd as [Hcs' Hd].
  assert (Hns : Forall noslash (cs ++ [d; [c]; chars ".."; x])).
  { apply Forall_app. split; [now apply names_noslash |].
    constructor; [now apply name_noslash |]. constructor; [now apply name_noslash |].
    constructor; [repeat constructor |]. constructor; [now apply name_noslash | constructor]. }
  set (path := path_of (cs ++ [d; [c]; chars ".."; x])).
  assert (Ep : path = F (cs ++ [d; [c]; chars ".."; x])) by (apply path_of_F; destruct cs; discriminate).
  assert (A : append_relative (length path + 1) [] path = Ok (path_of (cs ++ [x]))).
  { unfold append_relative. destruct (Nat.ltb_spec (length (@nil ascii)) (length path + 1)) as [_ | Z]; [| cbn in Z; lia].
    rewrite Ep at 2. rewrite unix_F by exact Hns.
    assert (S : append_start (length path + 1) (rev []) (F (cs ++ [d; [c]; chars ".."; x])) = Ok ([], F (cs ++ [d; [c]; chars ".."; x]))).
    { destruct (cs ++ [d; [c]; chars ".."; x]) eqn:Z; [destruct cs; discriminate |]. apply start_F. }
    rewrite S. cbn [bind].
    assert (Lp : length path = length (F (cs ++ [d])) + 2 + 3 + (1 + length x)).
    { rewrite Ep. change [d; [c]; chars ".."; x] with ([d] ++ [[c]; chars ".."; x]). rewrite app_assoc, F_app, app_length.
      cbn [flat_map app length chars String.list_ascii_of_string]. rewrite app_length. cbn [length]. lia. }
    replace (cs ++ [d; [c]; chars ".."; x]) with ((cs ++ [d; [c]]) ++ [chars ".."; x]) by now rewrite <- app_assoc.
    assert (Ld : length (F (cs ++ [d; [c]])) = length (F (cs ++ [d])) + 2).
    { change [d; [c]] with ([d] ++ [[c]]). now rewrite app_assoc, length_F_snoc. }
    rewrite loop_names; [| apply Forall_app; split; auto | discriminate | cbn [length]; lia].
    rewrite app_nil_r. cbn [flat_map app append_loop chars String.list_ascii_of_string].
    change ((slash =? slash)%char) with true. change (("." =? dot)%char) with true. cbv iota.
    change (ends_component ("."%char :: slash :: x ++ [])) with false.
    change (ends_component (slash :: x ++ [])) with true. cbn [andb].
    rewrite rev_length. destruct (Nat.leb_spec (length (F (cs ++ [d; [c]]))) 1); [lia |].
    assert (B : back (skipn 2 (rev (F (cs ++ [d; [c]])))) = Ok (rev (F cs))).
    { change [d; [c]] with ([d] ++ [[c]]). rewrite app_assoc, rev_F_snoc. cbn [rev app skipn].
      apply back_F. now apply name_noslash. }
    rewrite B. cbn [bind].
    assert (G := loop_ok (length path + 1) [x] cs).
    assert (Wx : walk cs x = cs ++ [x]).
    { destruct Hx as (X1 & X2 & X3 & _). unfold walk.
      destruct (list_eq_dec ascii_dec x []); [contradiction |].
      destruct (list_eq_dec ascii_dec x (chars ".")); [contradiction |].
      destruct (list_eq_dec ascii_dec x (chars "..")); [contradiction | reflexivity]. }
    cbn [flat_map fold_left app] in G. rewrite Wx in G.
    assert (Tx : tail_of [x] = []) by (unfold tail_of; cbn [last]; destruct Hx as [X1 _]; destruct x; [contradiction | reflexivity]).
    rewrite Tx in G.
    assert (Ldd : length (F (cs ++ [d])) = length (F cs) + (1 + length d)) by apply length_F_snoc.
    match type of G with _ -> _ -> _ -> _ -> _ -> ?l = ?r => match goal with |- bind ?a _ = _ => change a with l end end.
    rewrite G.
    - cbn [bind]. assert (EN := end_ok (length path + 1) (cs ++ [x]) [x]). rewrite Tx in EN. apply EN.
      + apply Forall_app; split; [now apply names_ne |]. constructor; [apply Hx | constructor].
      + apply Forall_app; split; [now apply names_noslash |]. constructor; [now apply name_noslash | constructor].
      + left. destruct cs; discriminate.
      + right. split; [| destruct cs; discriminate]. rewrite length_F_snoc. lia.
    - constructor; [now apply name_noslash | constructor].
    - now apply names_noslash.
    - now apply names_ne.
    - split; [| exact I]. intros ->. destruct Hx as (_ & _ & X3 & _). contradiction.
    - cbn [length]. rewrite app_length. cbn [length]. lia. }
  assert (Hcx : Forall name (cs ++ [x])) by (apply Forall_app; auto).
  destruct (with_names_ok cs x (name_noslash x Hx) (proj1 Hx)) as (e & EW & _ & _).
  rewrite <- path_of_F in EW by (destruct cs; discriminate).
  eexists. split; [| split].
  - unfold file_new. assert (Es : exists t, path = slash :: t) by (rewrite Ep; destruct cs; eexists; reflexivity).
    destruct Es as [t Et]. rewrite Et in *. change ((slash =? slash)%char) with true. cbv iota. rewrite A. cbn [bind]. exact EW.
  - apply (c_string_ok [] (path_of (cs ++ [x])) []). now apply path_cstr.
  - fold path. unfold resolve.
    assert (Pn : forall cs, Forall noslash cs -> pieces (F cs) = [] :: cs).
    { clear. induction 1 as [| c cs Hc _ IH]; [reflexivity |]. cbn [flat_map app pieces].
      change (is_separator slash) with true. cbv iota. f_equal.
      assert (Q : forall c l, noslash c -> pieces (c ++ l) = match pieces l with p :: ps => (c ++ p) :: ps | [] => [] end).
      { clear. induction c as [| x c IH]; intros l H; cbn [app pieces]; [destruct (pieces l); reflexivity |].
        inversion_clear H as [| ? ? Hx Hc]. rewrite Hx, (IH l Hc). destruct (pieces l); reflexivity. }
      rewrite Q, IH by exact Hc. now rewrite app_nil_r. }
    rewrite Ep, Pn by exact Hns. cbn [fold_left]. change (walk [] []) with (@nil (list ascii)).
    assert (Wn : forall l at_, Forall name l -> fold_left walk l at_ = at_ ++ l).
    { clear. intros l at_ H. revert at_. induction H as [| y l Hy _ IH]; intros at_; [symmetry; apply app_nil_r |].
      cbn [fold_left]. rewrite IH. unfold walk. destruct Hy as (Y1 & Y2 & Y3 & _).
      destruct (list_eq_dec ascii_dec y []); [contradiction |].
      destruct (list_eq_dec ascii_dec y (chars ".")); [contradiction |].
      destruct (list_eq_dec ascii_dec y (chars "..")); [contradiction |]. now rewrite <- app_assoc. }
    replace (cs ++ [d; [c]; chars ".."; x]) with ((cs ++ [d; [c]]) ++ [chars ".."] ++ [x]) by now rewrite <- app_assoc.
    rewrite fold_left_app, (fold_left_app walk [chars ".."] [x]), (Wn (cs ++ [d; [c]])) by (apply Forall_app; auto). cbn [app].
    change (fold_left walk [chars ".."] (cs ++ [d; [c]])) with (removelast (cs ++ [d; [c]])).
    change [d; [c]] with ([d] ++ [[c]]). rewrite app_assoc, removelast_last.
    rewrite (Wn [x]) by auto. now rewrite <- app_assoc.
Qed.

Example file_dotdot_ex : exists f,
  file_new (chars "/") (chars "/ab/c/../x") = Ok f /\ file_absolute f = Ok (chars "/x") /\
  resolve [] (chars "/ab/c/../x") = [chars "ab"; chars "x"].
Proof. eexists. split; [reflexivity | split; reflexivity]. Qed.

(* An absolute path that resolves to the root and does not end with a separator:
   the byte before the buffer is read. *)
Theorem file_root_refuted : forall cwd path, c_str path -> starts_at_root path = true ->
  long_pops [] (pieces path) -> resolve [] path = [] -> ~ ends_with_separator path ->
  file_new cwd path = UB.
Proof.
  intros cwd path Hp S LP R N. destruct path as [| c path]; [discriminate |].
  cbn [starts_at_root] in S. apply Ascii.eqb_eq in S. subst c. change "/"%char with slash in *.
  rewrite new_absolute. set (full := slash :: path) in *.
  assert (E : pieces full = [] :: pieces path) by reflexivity.
  destruct (pieces path) as [| p ps] eqn:Ep; [destruct (pieces_ne path Ep) |].
  assert (M := pieces_flat _ _ _ E). cbn [app] in M.
  assert (PN := pieces_noslash full). rewrite E in PN. inversion_clear PN as [| ? ? _ PS].
  unfold resolve in R. rewrite E in R, LP. destruct LP as [_ LP]. cbn [fold_left] in R.
  change (walk [] []) with (@nil (list ascii)) in *.
  unfold append_relative. destruct (Nat.ltb_spec (length (@nil ascii)) (length full + 1)) as [_ | Z]; [| cbn in Z; lia].
  rewrite M.
  assert (St : append_start (length full + 1) (rev []) (F (p :: ps)) = Ok ([], F (p :: ps))) by apply start_F.
  rewrite St. cbn [bind].
  assert (L : length full = length (F (p :: ps))) by (rewrite <- M; symmetry; apply map_unix_length).
  assert (G := loop_ok (length full + 1) (p :: ps) [] PS (Forall_nil _) (Forall_nil _) LP).
  change (rev (F [])) with (@nil ascii) in G. rewrite G by (change (length (F [])) with 0; lia).
  cbn [bind fold_left] in *. rewrite R.
  assert (T : tail_of (p :: ps) = []).
  { unfold tail_of. destruct (last (p :: ps) [dot]) as [| x l] eqn:El; [exfalso | reflexivity].
    apply N. clear - E El.
    assert (Q : forall l, pieces l <> [[]] -> last (pieces l) [dot] = [] -> ends_with_separator l).
    { clear. induction l as [| c l IH]; cbn [pieces]; intros H1 H2; [now destruct H1 |].
      destruct (is_separator c) eqn:Ec.
      - destruct l as [| d l]; [exists [], c; auto |].
        destruct (list_eq_dec (list_eq_dec ascii_dec) (pieces (d :: l)) [[]]) as [Z | Z].
        + exfalso. cbn [pieces] in Z. destruct (is_separator d); [destruct (pieces l) eqn:Y; [now apply pieces_ne in Y | discriminate] |].
          destruct (pieces l); discriminate.
        + destruct IH as (a & x & Ea & Hx); [exact Z | |].
          * destruct (pieces (d :: l)) eqn:Y; [now apply pieces_ne in Y | exact H2].
          * exists (c :: a), x. rewrite Ea. auto.
      - destruct (pieces l) as [| q qs] eqn:Eq; [now apply pieces_ne in Eq |].
        destruct qs as [| q2 qs]; [discriminate |].
        destruct IH as (a & x & -> & Hx); [discriminate | exact H2 |]. exists (c :: a), x. auto. }
    apply Q; rewrite E; [discriminate | exact El]. }
  rewrite T. reflexivity.
Qed.

Example file_root_ex :
  file_new (chars "/tmp") (chars "/..") = UB /\ file_new (chars "/tmp") (chars "/usr/bin/../..") = UB /\
  exists f, file_new (chars "/tmp") (chars "/usr/bin/../../") = Ok f /\ file_absolute f = Ok (chars "/").
Proof. split; [reflexivity | split; [reflexivity |]]. eexists. split; reflexivity. Qed.

(* The paths "." and ".." themselves are not resolved, and appending to the root
   doubles the slash. *)
Theorem file_dot_refuted : forall cs, Forall name cs -> cs <> [] ->
  (exists f, file_new (path_of cs) (chars ".") = Ok f /\ file_absolute f = Ok (path_of cs ++ chars "/.")) /\
  (exists f, file_new (path_of cs) (chars "..") = Ok f /\ file_absolute f = Ok (path_of cs ++ chars "/..")).
Proof.
  intros cs Hcs Hne. assert (P := path_of_F cs Hne).
  assert (Hs := path_cstr cs Hcs). assert (L1 := F_length_pos cs Hne). rewrite P in *.
  assert (Hrev : rev (F cs) <> []) by (intros Z; apply (f_equal (@length ascii)) in Z; rewrite rev_length in Z; cbn in Z; lia).
  assert (G : forall p, p = chars "." \/ p = chars ".." -> append_relative (length (F cs) + 1 + length p + 1) (F cs) p = Ok (F cs ++ slash :: p)).
  { intros p Hp. unfold append_relative. destruct (Nat.ltb_spec (length (F cs)) (length (F cs) + 1 + length p + 1)); [| lia].
    assert (Np : noslash p) by (destruct Hp as [-> | ->]; repeat constructor).
    rewrite unix_noslash by exact Np.
    assert (S := start_name (length (F cs) + 1 + length p + 1) (rev (F cs)) p [] Np Hrev (fun _ => eq_refl) (or_intror eq_refl)).
    cbn [flat_map] in S. rewrite app_nil_r in S. rewrite S by (rewrite rev_length; lia). cbn [bind].
    assert (C := loop_copy (length (F cs) + 1 + length p + 1) p [] (slash :: rev (F cs)) Np). rewrite app_nil_r in C.
    rewrite C by (cbn [length]; rewrite rev_length; lia). cbn [append_loop bind].
    destruct Hp as [-> | ->]; cbn [chars String.list_ascii_of_string rev app append_end];
      change (("." =? slash)%char) with false; cbn [andb length];
      match goal with |- (if ?a <? ?b then _ else _) = _ => destruct (Nat.ltb_spec a b) as [_ | Z] end;
      try (rewrite rev_length in Z; lia); cbn [rev]; rewrite rev_involutive, <- !app_assoc; reflexivity. }
  assert (W : forall p, p = chars "." \/ p = chars ".." ->
    exists f, with_names (F cs ++ slash :: p) = Ok f /\ file_absolute f = Ok (F cs ++ slash :: p)).
  { intros p Hp. assert (Np : noslash p) by (destruct Hp as [-> | ->]; repeat constructor).
    assert (Ne : p <> []) by (destruct Hp as [-> | ->]; discriminate).
    destruct (with_names_ok cs p Np Ne) as (e & EW & _ & _).
    assert (Es : F (cs ++ [p]) = F cs ++ slash :: p) by (rewrite F_app; cbn [flat_map]; now rewrite app_nil_r).
    rewrite Es in EW. eexists. split; [exact EW |]. apply (c_string_ok [] (F cs ++ slash :: p) []).
    apply c_str_app; [exact Hs |]. destruct Hp as [-> | ->]; repeat constructor; discriminate. }
  split.
  - destruct (W (chars ".") (or_introl eq_refl)) as (f & W1 & W2). exists f. split; [| exact W2].
    unfold file_new. cbn [chars String.list_ascii_of_string]. change (("." =? slash)%char) with false. cbv iota.
    change ["."] with (chars "."). rewrite (G (chars ".")) by auto. exact W1.
  - destruct (W (chars "..") (or_intror eq_refl)) as (f & W1 & W2). exists f. split; [| exact W2].
    unfold file_new. cbn [chars String.list_ascii_of_string]. change (("." =? slash)%char) with false. cbv iota.
    change ["."; "."] with (chars ".."). rewrite (G (chars "..")) by auto. exact W1.
Qed.

Example file_dot_ex : exists f, file_new (chars "/tmp") (chars "..") = Ok f /\ file_absolute f = Ok (chars "/tmp/..").
Proof. eexists. split; reflexivity. Qed.

Example file_root_append_refuted : exists f, file_new (chars "/") (chars "ab") = Ok f /\ file_absolute f = Ok (chars "//ab").
Proof. eexists. split; reflexivity. Qed.

(* ---- C12: names ---- *)

Theorem file_names : forall cwd path f cs c, c_str cwd -> c_str path -> file_new cwd path = Ok f ->
  file_absolute f = Ok (path_of (cs ++ [c])) -> Forall name (cs ++ [c]) ->
  file_filename f = Ok c /\ exists e, file_extension f = Ok e /\ extension_of c e.
Proof.
  intros cwd path f cs c Hw Hp Ef Ea Hn.
  destruct (file_new_inv _ _ _ Hw Hp Ef) as (abs & Ha & W).
  assert (Z := with_names_abs _ _ _ Ha W Ea). subst abs.
  rewrite path_of_F in * by (destruct cs; discriminate).
  assert (Hc : name c) by (apply Forall_app in Hn; destruct Hn as [_ H]; now inversion H).
  destruct (with_names_ok cs c (name_noslash c Hc) (proj1 Hc)) as (e & W' & X & Le).
  rewrite W in W'. injection W' as ->.
  assert (Sp : F (cs ++ [c]) ++ [nul] = (F cs ++ [slash]) ++ c ++ [nul]).
  { rewrite F_app. cbn [flat_map]. rewrite app_nil_r, <- !app_assoc. reflexivity. }
  assert (L : length (F cs ++ [slash]) = S (length (F cs))) by (rewrite app_length; cbn; lia).
  split.
  - unfold file_filename. cbn [f_mem f_file]. rewrite Sp, <- L. apply c_string_ok. now apply name_cstr.
  - exists (skipn e c). split; [| exact X]. unfold file_extension. cbn [f_mem f_ext]. rewrite Sp.
    match goal with |- c_string _ ?o = _ => replace o with (length (F cs ++ [slash]) + e) by (rewrite L; lia) end.
    replace ((F cs ++ [slash]) ++ c ++ [nul]) with (((F cs ++ [slash]) ++ firstn e c) ++ skipn e c ++ [nul])
      by (rewrite <- !app_assoc; do 2 f_equal; rewrite app_assoc, firstn_skipn; reflexivity).
    replace (length (F cs ++ [slash]) + e) with (length ((F cs ++ [slash]) ++ firstn e c))
      by (rewrite app_length, firstn_length; lia).
    apply c_string_ok. apply cstr_skipn. now apply name_cstr.
Qed.

Example file_names_ex : exists f, file_new (chars "/tmp") (chars "a/archive.tar.gz") = Ok f /\
  file_filename f = Ok (chars "archive.tar.gz") /\ file_extension f = Ok (chars "gz").
Proof. eexists. split; [reflexivity | split; reflexivity]. Qed.

Theorem file_root_names : forall cwd path f, c_str cwd -> c_str path -> file_new cwd path = Ok f ->
  file_absolute f = Ok (chars "/") ->
  file_filename f = Ok (chars "/") /\ file_extension f = Ok [] /\ exists p, file_parent f = Ok p /\ file_absolute p = Ok (chars "/").
Proof.
  intros cwd path f Hw Hp Ef Ea. destruct (file_new_inv _ _ _ Hw Hp Ef) as (abs & Ha & W).
  assert (Z := with_names_abs _ _ _ Ha W Ea). subst abs.
  change (with_names (path_of []) = Ok f) in W. rewrite with_names_root in W. injection W as <-.
  split; [reflexivity | split; [reflexivity |]]. eexists. split; reflexivity.
Qed.

(* going up k times *)
Fixpoint up (k : nat) (f : file) : res file :=
  match k with O => Ok f | S k => let! p := up k f in file_parent p end.

Lemma up_S : forall k f, up (S k) f = let! p := up k f in file_parent p.
Proof. reflexivity. Qed.

(* The k-th ancestor of a file, k at most its depth minus 1, has the right
   path; if its depth is at least two its name is right as well. *)
Lemma ancestors : forall a b f, Forall name (a ++ b) -> a <> [] -> with_names (path_of (a ++ b)) = Ok f ->
  exists t e, up (length b) f = Ok {| f_mem := F a ++ nul :: t;
    f_file := if (length a =? 1) && negb (length b =? 0) then S (length (F a)) else S (length (F (removelast a)));
    f_ext := e |} /\ (b <> [] -> e = length (F a) /\ t <> [] /\ t = hd [] b ++ [nul]) /\ (b = [] -> t = []).
Proof.
  intros a b f. revert a. induction b as [| c b IH]; intros a Hn Ha W.
  - rewrite app_nil_r in *. destruct a as [| d a _] using rev_ind; [contradiction |].
    rewrite path_of_F in W by (destruct a; discriminate).
    assert (Hd : name d) by (apply Forall_app in Hn; destruct Hn as [_ H]; now inversion H).
    destruct (with_names_ok a d (name_noslash d Hd) (proj1 Hd)) as (e & W' & _ & _).
    rewrite W in W'. injection W' as ->. exists [], (S (length (F a)) + e). split; [| split; [intros Z; contradiction | reflexivity]].
    cbn [up length Nat.eqb negb]. rewrite andb_false_r, removelast_last. reflexivity.
  - replace (a ++ c :: b) with ((a ++ [c]) ++ b) in * by now rewrite <- app_assoc.
    assert (Hdc : Forall name (a ++ [c])) by (apply Forall_app in Hn; tauto).
    destruct (IH (a ++ [c]) Hn ltac:(destruct a; discriminate) W) as (t & e & E & _ & _).
    cbn [length]. rewrite up_S, E. cbn [bind].
    destruct a as [| d a _] using rev_ind; [contradiction |]. clear IH.
    rewrite <- app_assoc in *. cbn [app] in *.
    assert (L : (length (a ++ [d; c]) =? 1) = false).
    { apply Nat.eqb_neq. rewrite app_length. cbn. lia. }
    rewrite L. cbn [andb]. replace (removelast (a ++ [d; c])) with (a ++ [d]) by
      (change [d; c] with ([d] ++ [c]); now rewrite app_assoc, removelast_last).
    rewrite parent_deep by exact Hdc. eexists. eexists. split; [| split].
    + f_equal. f_equal. rewrite removelast_last, app_length. cbn [length negb Nat.eqb].
      destruct a; [reflexivity |]. cbn [length]. replace (S (length a) + 1 =? 1) with false; [reflexivity |].
      symmetry. apply Nat.eqb_neq. lia.
    + intros _. repeat split. destruct c; discriminate.
    + discriminate.
Qed.

Theorem file_ancestors : forall cwd path f a b, c_str cwd -> c_str path -> file_new cwd path = Ok f ->
  file_absolute f = Ok (path_of (a ++ b)) -> Forall name (a ++ b) -> a <> [] ->
  exists p, up (length b) f = Ok p /\ file_absolute p = Ok (path_of a) /\
    (2 <= length a -> file_filename p = Ok (last a [])).
Proof.
  intros cwd path f a b Hw Hp Ef Ea Hn Ha.
  destruct (file_new_inv _ _ _ Hw Hp Ef) as (abs & Hc & W).
  assert (Z := with_names_abs _ _ _ Hc W Ea). subst abs.
  destruct (ancestors a b f Hn Ha W) as (t & e & E & _ & _).
  assert (Hna : Forall name a) by (apply Forall_app in Hn; tauto).
  eexists. split; [exact E |]. split.
  - rewrite path_of_F by exact Ha. apply (c_string_ok [] (F a) t). now apply F_cstr.
  - intros L. destruct (Nat.eqb_spec (length a) 1); [lia |]. cbn [andb].
    destruct a as [| d a _] using rev_ind; [contradiction |]. rewrite removelast_last, last_last.
    unfold file_filename. cbn [f_mem f_file].
    replace (F (a ++ [d]) ++ nul :: t) with ((F a ++ [slash]) ++ d ++ nul :: t)
      by (rewrite F_app; cbn [flat_map]; rewrite app_nil_r, <- !app_assoc; reflexivity).
    replace (S (length (F a))) with (length (F a ++ [slash])) by (rewrite app_length; cbn; lia).
    apply c_string_ok. apply name_cstr. apply Forall_app in Hna. destruct Hna as [_ H]. now inversion H.
Qed.

Theorem file_parent_root : forall cwd path f c, c_str cwd -> c_str path -> file_new cwd path = Ok f ->
  file_absolute f = Ok (path_of [c]) -> name c ->
  exists p, file_parent f = Ok p /\ file_absolute p = Ok (chars "/") /\ file_filename p = Ok (chars "/") /\
    file_extension p = Ok [].
Proof.
  intros cwd path f c Hw Hp Ef Ea Hc.
  destruct (file_new_inv _ _ _ Hw Hp Ef) as (abs & Ha & W).
  assert (Z := with_names_abs _ _ _ Ha W Ea). subst abs.
  destruct (with_names_ok [] c (name_noslash c Hc) (proj1 Hc)) as (e & W' & _ & _).
  change (with_names (F ([] ++ [c]))) with (with_names (path_of [c])) in W'. rewrite W in W'. injection W' as ->.
  eexists. split; [apply (parent_root c _ Hc) |]. repeat split.
Qed.

(* Going up from the second level to the first leaves the name pointer on the
   removed component, outside of any copy of the object: going on to the root is
   undefined, whatever the path. *)
Theorem file_parent_refuted : forall cwd path f d c, c_str cwd -> c_str path -> file_new cwd path = Ok f ->
  file_absolute f = Ok (path_of [d; c]) -> name d -> name c ->
  exists p q, file_parent f = Ok p /\ file_filename p = Ok c /\
    file_copy p = Ok q /\ file_filename q = UB /\ file_parent p = UB.
Proof.
  intros cwd path f d c Hw Hp Ef Ea Hd Hc.
  destruct (file_new_inv _ _ _ Hw Hp Ef) as (abs & Ha & W).
  assert (Z := with_names_abs _ _ _ Ha W Ea). subst abs.
  destruct (with_names_ok [d] c (name_noslash c Hc) (proj1 Hc)) as (e & W' & _ & _).
  change (with_names (F ([d] ++ [c]))) with (with_names (path_of [d; c])) in W'. rewrite W in W'. injection W' as ->.
  assert (Hs : c_str (F [d])) by (apply F_cstr; auto).
  eexists. eexists. split; [apply (parent_deep [] d c _ []); cbn [app]; constructor; [exact Hd | constructor; [exact Hc | constructor]] |].
  cbn [app]. split; [| split; [| split]].
  - unfold file_filename. cbn [f_mem f_file].
    replace (F [d] ++ nul :: c ++ [nul]) with ((F [d] ++ [nul]) ++ c ++ [nul]) by now rewrite <- app_assoc.
    replace (S (length (F [d]))) with (length (F [d] ++ [nul])) by (rewrite app_length; cbn; lia).
    apply c_string_ok. now apply name_cstr.
  - apply copy_ok. exact Hs.
  - unfold file_filename, c_string. cbn [f_mem f_file]. rewrite skipn_all2; [reflexivity |]. rewrite app_length; cbn [length]; lia.
  - unfold file_parent. rewrite copy_ok by exact Hs. cbn [bind f_mem f_file].
    unfold rd. destruct (Z.ltb_spec (Z.of_nat (S (length (F [d])))) 0); [lia |]. rewrite Nat2Z.id.
    rewrite (proj2 (nth_error_None _ _)) by (rewrite app_length; cbn [length]; lia). reflexivity.
Qed.

Example file_parent_ex : exists f p, file_new (chars "/") (chars "/home/me") = Ok f /\ file_parent f = Ok p /\
  file_absolute p = Ok (chars "/home") /\ file_filename p = Ok (chars "me").
Proof. eexists. eexists. split; [reflexivity | split; [reflexivity | split; reflexivity]]. Qed.

(* A parent never has an extension. *)
Theorem file_parent_extension_refuted : forall cwd path f cs d c, c_str cwd -> c_str path -> file_new cwd path = Ok f ->
  file_absolute f = Ok (path_of (cs ++ [d; c])) -> Forall name (cs ++ [d; c]) ->
  exists p, file_parent f = Ok p /\ file_absolute p = Ok (path_of (cs ++ [d])) /\ file_extension p = Ok [].
Proof.
  intros cwd path f cs d c Hw Hp Ef Ea Hn.
  destruct (file_new_inv _ _ _ Hw Hp Ef) as (abs & Ha & W).
  assert (Z := with_names_abs _ _ _ Ha W Ea). subst abs.
  assert (Hc : name c).
  { apply Forall_app in Hn. destruct Hn as [_ H]. inversion_clear H as [| ? ? _ H']. now inversion H'. }
  destruct (with_names_ok (cs ++ [d]) c (name_noslash c Hc) (proj1 Hc)) as (e & W' & _ & _).
  rewrite <- app_assoc in W'. cbn [app] in W'.
  rewrite path_of_F in W by (destruct cs; discriminate). rewrite W in W'. injection W' as ->.
  rewrite parent_deep by exact Hn. eexists. split; [reflexivity |].
  assert (Hs : c_str (F (cs ++ [d]))).
  { apply F_cstr. change [d; c] with ([d] ++ [c]) in Hn. rewrite app_assoc in Hn. apply Forall_app in Hn. tauto. }
  split.
  - rewrite path_of_F by (destruct cs; discriminate). now apply (c_string_ok [] (F (cs ++ [d]))).
  - unfold file_extension. cbn [f_mem f_ext]. apply (c_string_ok (F (cs ++ [d])) []). constructor.
Qed.

Example file_parent_extension_ex : exists f p, file_new (chars "/") (chars "/a/b.dir/c") = Ok f /\ file_parent f = Ok p /\
  file_absolute p = Ok (chars "/a/b.dir") /\ file_filename p = Ok (chars "b.dir") /\ file_extension p = Ok [] /\
  extension_of (chars "b.dir") (chars "dir").
Proof.
  eexists. eexists. split; [reflexivity | split; [reflexivity | split; [reflexivity | split; [reflexivity | split; [reflexivity |]]]]].
  apply (ext_some ["b"] (chars "dir")); [discriminate |]. cbn. intuition discriminate.
Qed.

Print Assumptions file_resolved.
Print Assumptions file_append_resolved.
Print Assumptions file_dotdot_refuted.
Print Assumptions file_root_refuted.
Print Assumptions file_dot_refuted.
Print Assumptions file_names.
Print Assumptions file_root_names.
Print Assumptions file_ancestors.
Print Assumptions file_parent_root.
Print Assumptions file_parent_refuted.
Print Assumptions file_parent_extension_refuted.
