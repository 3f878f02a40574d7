(* Lemmas about path resolution. *)
From Verif Require Import Common ArrayIO PathModel PathSpec.
Local Open Scope char_scope.
Local Open Scope list_scope.
Local Open Scope nat_scope.

Notation F := (flat_map (fun c : list ascii => slash :: c)).
Notation noslash := (Forall (fun x => is_separator x = false)).

Lemma name_noslash : forall c, name c -> noslash c.
Proof. intros c (_ & _ & _ & H). eapply Forall_impl; [| exact H]. now intros x [H1 _]. Qed.

Lemma nosep_slash : forall x, is_separator x = false -> (x =? slash)%char = false.
Proof. intros x H. unfold is_separator in H. apply orb_false_iff in H. exact (proj1 H). Qed.

Lemma nosep_unix : forall x, is_separator x = false -> unix x = x.
Proof. intros x H. unfold unix. apply orb_false_iff in H. now rewrite (proj2 H). Qed.

Lemma sep_unix : forall x, is_separator x = true -> unix x = slash.
Proof.
  intros x H. unfold unix. destruct (x =? "\")%char eqn:E; [reflexivity |].
  unfold is_separator in H. rewrite E, orb_false_r in H. now apply Ascii.eqb_eq in H.
Qed.

Lemma pieces_ne : forall l, pieces l <> [].
Proof.
  induction l as [| c l IH]; cbn [pieces]; [discriminate |].
  destruct (is_separator c); [discriminate |]. destruct (pieces l); [contradiction | discriminate].
Qed.

Lemma pieces_noslash : forall l, Forall noslash (pieces l).
Proof.
  induction l as [| c l IH]; cbn [pieces]; [repeat constructor |].
  destruct (is_separator c) eqn:E; [now constructor |].
  destruct (pieces l) as [| p ps]; [constructor |]. inversion_clear IH. constructor; [now constructor | assumption].
Qed.

Lemma pieces_flat : forall l p ps, pieces l = p :: ps -> map unix l = p ++ F ps.
Proof.
  induction l as [| c l IH]; cbn [pieces map]; intros p ps E.
  - injection E as <- <-. reflexivity.
  - destruct (is_separator c) eqn:S.
    + injection E as <- <-. destruct (pieces l) as [| q qs] eqn:P; [destruct (pieces_ne l P) |].
      rewrite (IH q qs eq_refl), (sep_unix c S). reflexivity.
    + destruct (pieces l) as [| q qs] eqn:P; [discriminate |]. injection E as <- <-.
      rewrite (IH q qs eq_refl), (nosep_unix c S). reflexivity.
Qed.

Lemma F_app : forall a b, F (a ++ b) = F a ++ F b.
Proof. intros. apply flat_map_app. Qed.

Lemma path_of_F : forall cs, cs <> [] -> path_of cs = F cs.
Proof. intros [| c cs] H; [contradiction | reflexivity]. Qed.

Lemma put_ok : forall cap c st, length st < cap -> put cap c st = Ok (c :: st).
Proof. intros cap c st H. unfold put. destruct (Nat.ltb_spec (length st) cap); [reflexivity | lia]. Qed.

(* ---- the main loop ---- *)

Lemma back_ok : forall c t, noslash c -> back (c ++ slash :: t) = Ok t.
Proof.
  induction c as [| x c IH]; intros t H; cbn [app back]; [reflexivity |].
  inversion_clear H as [| ? ? Hx Hc]. rewrite (nosep_slash x Hx). now apply IH.
Qed.

Lemma noslash_rev : forall c, noslash c -> noslash (rev c).
Proof. intros c H. now apply Forall_rev. Qed.

Lemma noslash_skipn : forall n c, noslash c -> noslash (skipn n c).
Proof.
  intros n c H. rewrite Forall_forall in *. intros x Hx. apply H.
  rewrite <- (firstn_skipn n c). apply in_or_app. now right.
Qed.

Lemma rev_F_snoc : forall cs c, rev (F (cs ++ [c])) = rev c ++ slash :: rev (F cs).
Proof.
  intros cs c. rewrite F_app. cbn [flat_map]. rewrite app_nil_r, rev_app_distr. cbn [rev].
  now rewrite <- app_assoc.
Qed.

Lemma back_F : forall cs c, noslash c -> back (rev (F (cs ++ [c]))) = Ok (rev (F cs)).
Proof. intros cs c H. rewrite rev_F_snoc. apply back_ok. now apply noslash_rev. Qed.

Lemma back2_F : forall cs c, noslash c -> 2 <= length c ->
  back (skipn 2 (rev (F (cs ++ [c])))) = Ok (rev (F cs)).
Proof.
  intros cs c H L. rewrite rev_F_snoc, skipn_app. rewrite rev_length.
  replace (2 - length c) with 0 by lia. rewrite skipn_O. apply back_ok.
  apply noslash_skipn. now apply noslash_rev.
Qed.

Lemma loop_copy : forall cap p rest st, noslash p -> length st + length p <= cap ->
  append_loop cap (p ++ rest) st = append_loop cap rest (rev p ++ st).
Proof.
  induction p as [| c p IH]; intros rest st H L; [reflexivity |].
  inversion_clear H as [| ? ? Hc Hp]. cbn [length] in L. cbn [app append_loop].
  rewrite (nosep_slash c Hc), put_ok by lia. cbn [bind]. rewrite IH; cbn [length]; try lia; auto.
  cbn [rev]. now rewrite <- app_assoc.
Qed.

Lemma ends_flat : forall ps, ends_component (F ps) = true.
Proof. intros [| p ps]; reflexivity. Qed.

Lemma ends_other : forall c l, is_separator c = false -> ends_component (c :: l) = false.
Proof. intros c l H. cbn. now apply nosep_slash. Qed.

Lemma loop_name : forall cap p ps st, noslash p -> p <> [] -> p <> chars "." -> p <> chars ".." ->
  length st + 1 + length p <= cap ->
  append_loop cap (F (p :: ps)) st = append_loop cap (F ps) (rev p ++ slash :: st).
Proof.
  intros cap p ps st H N1 N2 N3 L. cbn [flat_map app append_loop].
  rewrite <- (loop_copy cap p (F ps) (slash :: st) H) by (cbn [length]; lia).
  change ((slash =? slash)%char) with true. cbv iota.
  assert (E : put cap slash st = Ok (slash :: st)) by (apply put_ok; lia).
  destruct p as [| c1 p]; [contradiction |]. cbn [app].
  inversion_clear H as [| ? ? H1 Hp]. rewrite (nosep_slash c1 H1), E. cbn [bind].
  destruct (c1 =? dot)%char eqn:Ed; [| reflexivity]. apply Ascii.eqb_eq in Ed. subst c1.
  destruct p as [| c2 p]; [contradiction N2; reflexivity |].
  inversion_clear Hp as [| ? ? H2 Hp']. cbn [app]. rewrite (ends_other c2) by exact H2.
  destruct (c2 =? dot)%char eqn:Ed; [| reflexivity]. apply Ascii.eqb_eq in Ed. subst c2. cbn [andb].
  destruct p as [| c3 p]; [contradiction N3; reflexivity |].
  inversion_clear Hp' as [| ? ? H3 _]. cbn [app]. now rewrite (ends_other c3) by exact H3.
Qed.

Definition tail_of (ps : list (list ascii)) : list ascii :=
  match last ps [dot] with [] => [slash] | _ => [] end.

Lemma tail_cons : forall p q ps, tail_of (p :: q :: ps) = tail_of (q :: ps).
Proof. reflexivity. Qed.

Lemma length_F_snoc : forall cs c, length (F (cs ++ [c])) = length (F cs) + S (length c).
Proof. intros. rewrite F_app, app_length. cbn [flat_map length]. now rewrite app_nil_r. Qed.

Lemma walk_names : forall cs p, Forall name cs -> noslash p -> c_str p -> Forall name (walk cs p).
Proof.
  intros cs p H Hp Hc. unfold walk.
  destruct (list_eq_dec ascii_dec p []) as [| N1]; [assumption |].
  destruct (list_eq_dec ascii_dec p (chars ".")) as [| N2]; [assumption |].
  destruct (list_eq_dec ascii_dec p (chars "..")) as [| N3].
  - destruct cs as [| c cs] using rev_ind; [constructor |]. rewrite removelast_last.
    apply Forall_app in H. tauto.
  - apply Forall_app. split; [assumption |]. constructor; [| constructor].
    unfold name. repeat split; try assumption.
    clear - Hp Hc. induction Hp; inversion_clear Hc; constructor; auto.
Qed.

Lemma loop_ok : forall cap ps cs, Forall noslash ps -> Forall noslash cs -> Forall (fun c => c <> []) cs ->
  long_pops cs ps -> length (F cs) + length (F ps) <= cap ->
  append_loop cap (F ps) (rev (F cs)) = Ok (rev (F (fold_left walk ps cs) ++ tail_of ps)).
Proof.
  induction ps as [| p ps IH]; intros cs Hps Hcs Hne LP L.
  - cbn. now rewrite app_nil_r.
  - inversion_clear Hps as [| ? ? Hp Hps']. cbn [fold_left].
    destruct LP as [LP1 LP2]. cbn [flat_map] in L. rewrite app_length in L. cbn [length] in L.
    cbn [fold_left].
    assert (T : p <> [] -> tail_of (p :: ps) = tail_of ps).
    { intros Hn. destruct ps; [| reflexivity]. unfold tail_of. cbn [last]. now destruct p. }
    unfold walk in *. destruct (list_eq_dec ascii_dec p []) as [-> | N1].
    { destruct ps as [| q ps].
      - cbn [flat_map append_loop app]. change ((slash =? slash)%char) with true. cbv iota.
        rewrite put_ok by (rewrite rev_length; cbn [length flat_map] in L; lia). cbn [fold_left].
        unfold tail_of. cbn [last]. rewrite rev_app_distr. reflexivity.
      - rewrite tail_cons. rewrite <- (IH _ Hps' Hcs Hne LP2) by (cbn [length chars String.list_ascii_of_string] in *; lia).
        cbn [flat_map app append_loop]. reflexivity. }
    rewrite T by exact N1.
    destruct (list_eq_dec ascii_dec p (chars ".")) as [-> | N2].
    { rewrite <- (IH _ Hps' Hcs Hne LP2) by (cbn [length chars String.list_ascii_of_string] in *; lia).
      cbn [flat_map app append_loop chars String.list_ascii_of_string].
      change ((slash =? slash)%char) with true. change (("." =? dot)%char) with true. cbv iota.
      now rewrite ends_flat. }
    destruct (list_eq_dec ascii_dec p (chars "..")) as [-> | N3].
    { specialize (LP1 eq_refl).
      cbn [flat_map app append_loop chars String.list_ascii_of_string].
      change ((slash =? slash)%char) with true. change (("." =? dot)%char) with true. cbv iota.
      change (ends_component ("."%char :: F ps)) with false. cbv iota. rewrite ends_flat. cbn [andb].
      destruct cs as [| c cs _] using rev_ind.
      - cbn [flat_map rev length Nat.leb]. cbn [removelast] in *. apply (IH [] Hps' Hcs Hne LP2).
        cbn [flat_map length chars String.list_ascii_of_string] in *. lia.
      - assert (Hc : noslash c) by (apply Forall_app in Hcs; destruct Hcs as [_ Hc]; now inversion Hc).
        rewrite rev_length, length_F_snoc. rewrite length_F_snoc in L.
        destruct LP1 as [E | LP1]; [destruct cs; discriminate |]. rewrite last_last in LP1.
        destruct (Nat.leb_spec (length (F cs) + S (length c)) 1); [lia |].
        rewrite back2_F by assumption. cbn [bind]. rewrite removelast_last in *.
        apply Forall_app in Hcs. apply Forall_app in Hne.
        apply (IH cs Hps' (proj1 Hcs) (proj1 Hne) LP2). cbn [length chars String.list_ascii_of_string] in *. lia. }
    rewrite loop_name; auto; [| rewrite rev_length; lia].
    rewrite <- rev_F_snoc. apply IH; auto.
    + apply Forall_app; split; auto.
    + apply Forall_app; split; auto.
    + rewrite length_F_snoc. lia.
Qed.

Lemma F_cons_len : forall cs c, length (F (c :: cs)) = S (length c) + length (F cs).
Proof. intros. cbn [flat_map length]. now rewrite app_length. Qed.

Lemma end_ok : forall cap cs ps, Forall (fun c => c <> []) cs -> Forall noslash cs ->
  cs <> [] \/ tail_of ps = [slash] -> length (F cs) + 1 < cap \/ length (F cs) < cap /\ cs <> [] ->
  append_end cap (rev (F cs ++ tail_of ps)) = Ok (path_of cs).
Proof.
  intros cap cs ps Hne Hns H L. destruct cs as [| c cs _] using rev_ind.
  - destruct H as [H | ->]; [contradiction |]. destruct L as [L | [_ L]]; [| contradiction].
    cbn [flat_map length] in L. cbn. destruct cap as [| [| cap]]; [lia | lia | reflexivity].
  - rewrite path_of_F by (destruct cs; discriminate).
    assert (Lc : length (F (cs ++ [c])) < cap) by lia. clear L H.
    assert (E : exists x t, rev (F (cs ++ [c])) = x :: t /\ (x =? slash)%char = false).
    { rewrite rev_F_snoc. apply Forall_app in Hne. destruct Hne as [_ Hc]. inversion_clear Hc as [| ? ? Hc0 _].
      apply Forall_app in Hns. destruct Hns as [_ Hs]. inversion_clear Hs as [| ? ? Hs0 _].
      destruct c as [| x c _] using rev_ind; [contradiction |]. rewrite rev_app_distr. cbn [rev app].
      exists x. eexists. split; [reflexivity |]. apply Forall_app in Hs0. destruct Hs0 as [_ Hx]. inversion_clear Hx.
      now apply nosep_slash. }
    destruct E as (x & t & E & Hx). rewrite rev_app_distr.
    assert (R : rev (x :: t) = F (cs ++ [c])) by (rewrite <- E; apply rev_involutive).
    assert (Ln : length (x :: t) < cap) by (rewrite <- E, rev_length; exact Lc).
    assert (T : tail_of ps = [slash] \/ tail_of ps = []) by (unfold tail_of; destruct (last ps [dot]); auto).
    rewrite E. destruct T as [-> | ->]; cbn [rev app]; unfold append_end.
    + change ((slash =? slash)%char) with true. cbn [length andb] in *.
      destruct (Nat.ltb_spec 1 (S (S (length t)))); [| lia]. destruct (Nat.ltb_spec (length (x :: t)) cap); [| cbn [length] in *; lia].
      now rewrite R.
    + rewrite Hx. cbn [andb]. destruct (Nat.ltb_spec (length (x :: t)) cap); [| lia]. now rewrite R.
Qed.

Lemma walk_nonempty : forall ps cs, Forall (fun c => c <> []) cs -> Forall (fun c => c <> []) (fold_left walk ps cs).
Proof.
  induction ps as [| p ps IH]; intros cs H; [assumption |]. cbn [fold_left]. apply IH. unfold walk.
  destruct (list_eq_dec ascii_dec p []); [assumption |].
  destruct (list_eq_dec ascii_dec p (chars ".")); [assumption |].
  destruct (list_eq_dec ascii_dec p (chars "..")).
  - destruct cs as [| c cs _] using rev_ind; [constructor |]. rewrite removelast_last. apply Forall_app in H. tauto.
  - apply Forall_app. split; auto.
Qed.

Lemma walk_noslash : forall ps cs, Forall noslash ps -> Forall noslash cs -> Forall noslash (fold_left walk ps cs).
Proof.
  induction ps as [| p ps IH]; intros cs Hp H; [assumption |]. inversion_clear Hp. cbn [fold_left]. apply IH; [assumption |].
  unfold walk.
  destruct (list_eq_dec ascii_dec p []); [assumption |].
  destruct (list_eq_dec ascii_dec p (chars ".")); [assumption |].
  destruct (list_eq_dec ascii_dec p (chars "..")).
  - destruct cs as [| c cs _] using rev_ind; [constructor |]. rewrite removelast_last. apply Forall_app in H. tauto.
  - apply Forall_app. split; auto.
Qed.

Lemma walk_length : forall ps cs, length (F (fold_left walk ps cs)) <= length (F cs) + length (F ps).
Proof.
  induction ps as [| p ps IH]; intros cs; cbn [fold_left]; [cbn; lia |].
  etransitivity; [apply IH |]. rewrite F_cons_len. unfold walk.
  destruct (list_eq_dec ascii_dec p []); [lia |].
  destruct (list_eq_dec ascii_dec p (chars ".")); [lia |].
  destruct (list_eq_dec ascii_dec p (chars "..")).
  - destruct cs as [| c cs _] using rev_ind; [cbn; lia |]. rewrite removelast_last, length_F_snoc. lia.
  - rewrite length_F_snoc. lia.
Qed.

(* an empty result wastes at least two characters, unless nothing was read *)
Lemma end_cap : forall ps cs, Forall (fun c => c <> []) cs ->
  length (F cs) + length (F ps) >= 1 -> tail_of ps = [slash] \/ fold_left walk ps cs <> [] ->
  length (F (fold_left walk ps cs)) + 1 < length (F cs) + length (F ps) + 1 \/
  length (F (fold_left walk ps cs)) < length (F cs) + length (F ps) + 1 /\ fold_left walk ps cs <> [].
Proof.
  intros ps cs Hne L H. destruct (fold_left walk ps cs) as [| c r] eqn:E.
  - left. cbn [flat_map length]. lia.
  - right. rewrite <- E. split; [| rewrite E; discriminate]. assert (W := walk_length ps cs). lia.
Qed.

Lemma tail_sep : forall path, ends_with_separator path -> exists p ps, pieces path = p :: ps /\ tail_of ps = [slash].
Proof.
  intros path (l & c & -> & Hc). induction l as [| x l (p & ps & E & T)]; cbn [app pieces].
  - rewrite Hc. cbn [pieces]. exists [], [[]]. split; reflexivity.
  - rewrite E. destruct (is_separator x).
    + exists [], (p :: ps). split; [reflexivity |]. destruct ps; [discriminate T | exact T].
    + exists (x :: p), ps. split; [reflexivity | exact T].
Qed.

Lemma map_unix_length : forall l, length (map unix l) = length l.
Proof. intros. apply map_length. Qed.

(* a path from the root *)
Lemma absolute_ok : forall path p ps, pieces path = p :: ps -> p = [] -> ps <> [] ->
  long_pops [] ps -> fold_left walk ps [] <> [] \/ tail_of ps = [slash] ->
  append_relative (length path + 1) [] path = Ok (path_of (fold_left walk ps [])).
Proof.
  intros path p ps E -> N LP H. unfold append_relative. cbn [length].
  destruct (Nat.ltb_spec 0 (length path + 1)); [| lia].
  assert (M := pieces_flat _ _ _ E). cbn [app] in M. rewrite M.
  assert (L : length path = length (F ps)) by (rewrite <- M; symmetry; apply map_unix_length).
  assert (PN := pieces_noslash path). rewrite E in PN. inversion_clear PN as [| ? ? _ PS].
  assert (S : append_start (length path + 1) (rev []) (F ps) = Ok ([], F ps)).
  { destruct ps as [| q ps]; [contradiction |]. cbn [flat_map app append_start rev].
    destruct (q ++ F ps); reflexivity. }
  rewrite S. cbn [bind].
  assert (R := loop_ok (length path + 1) ps [] PS (Forall_nil _) (Forall_nil _) LP).
  cbn [flat_map length rev] in R. rewrite R by lia. cbn [bind].
  assert (W1 := walk_nonempty ps [] (Forall_nil _)).
  assert (C := end_cap ps [] (Forall_nil _)). cbn [flat_map length] in C.
  apply end_ok; auto.
  - now apply walk_noslash.
  - rewrite L. apply C; [| tauto]. destruct ps as [| q ps]; [contradiction |]. rewrite F_cons_len. lia.
Qed.

(* from a directory other than the root *)
Lemma start_name : forall cap st p ps, noslash p -> st <> [] ->
  (p = chars "." \/ p = chars ".." -> ps = []) -> p <> [] \/ ps = [] -> length st < cap ->
  append_start cap st (p ++ F ps) = Ok (slash :: st, p ++ F ps).
Proof.
  intros cap st p ps Hp Hst Hd He L. unfold append_start.
  assert (Z : (0 <? length st) = true) by (destruct st; [contradiction | reflexivity]).
  assert (E : exists r, r = p ++ F ps) by eauto. destruct E as [r E]. rewrite <- E.
  assert (N : match r with c :: _ => (c =? slash)%char | [] => false end = false).
  { subst r. destruct p as [| c p]; cbn [app].
      - destruct He as [He | ->]; [contradiction | reflexivity].
      - inversion_clear Hp as [| ? ? Hc _]. now apply nosep_slash. }
  assert (B : match r with
    | c0 :: c1 :: rel2 =>
      if (c0 =? dot)%char then
        match rel2 with
        | c2 :: _ =>
          if ((c1 =? dot)%char && (c2 =? slash)%char)%bool then
            let! st := back st in Ok (st, rel2)
          else if (c1 =? slash)%char then Ok (st, c1 :: rel2)
          else Ok (st, r)
        | [] => if (c1 =? slash)%char then Ok (st, [c1]) else Ok (st, r)
        end
      else Ok (st, r)
    | _ => Ok (st, r)
    end = Ok (st, r)).
  { destruct r as [| c0 r]; [reflexivity |]. destruct r as [| c1 r]; [reflexivity |].
    destruct (c0 =? dot)%char eqn:Ed; [| reflexivity]. apply Ascii.eqb_eq in Ed. subst c0.
    destruct p as [| a p]; cbn [app] in E.
    { destruct ps; discriminate. }
    injection E as <- E. inversion_clear Hp as [| ? ? _ Hp'].
    destruct p as [| b p]; cbn [app] in E.
    { specialize (Hd (or_introl eq_refl)). subst ps. discriminate. }
    injection E as <- E. inversion_clear Hp' as [| ? ? Hb Hp]. rewrite (nosep_slash c1 Hb).
    destruct r as [| c2 r]; [reflexivity |].
    destruct (c1 =? dot)%char eqn:Ed; [| reflexivity]. apply Ascii.eqb_eq in Ed. subst c1. cbn [andb].
    destruct p as [| c p]; cbn [app] in E.
    { specialize (Hd (or_intror eq_refl)). subst ps. discriminate. }
    injection E as <- E. inversion_clear Hp as [| ? ? Hc _]. now rewrite (nosep_slash c2 Hc). }
  rewrite B. cbn [bind]. rewrite N, Z. cbn [negb andb]. rewrite put_ok by exact L. reflexivity.
Qed.

(* the extra slash in front of a relative path behaves as if it had been there *)
Lemma loop_slash : forall cap p ps cs, noslash p -> p <> chars "." -> p <> chars ".." -> p <> [] \/ ps = [] ->
  length (F cs) + S (length p) <= cap ->
  append_loop cap (p ++ F ps) (slash :: rev (F cs)) = append_loop cap (F (p :: ps)) (rev (F cs)).
Proof.
  intros cap p ps cs Hp N1 N2 He L. destruct p as [| c p].
  - destruct He as [He | ->]; [contradiction |]. cbn [flat_map app append_loop].
    rewrite put_ok by (rewrite rev_length; cbn [length] in L; lia). reflexivity.
  - rewrite loop_copy by (cbn [length] in *; rewrite ?rev_length; auto; lia).
    rewrite loop_name; auto; [discriminate | rewrite rev_length; cbn [length] in *; lia].
Qed.

(* first component *)
Definition first_ok (cs : list (list ascii)) (p : list ascii) (ps : list (list ascii)) : Prop :=
  (p = chars "." \/ p = chars ".." -> ps <> []) /\ (cs = [] -> p = chars "..").

Ltac conj := repeat match goal with |- _ /\ _ => split end.

Lemma relative_start : forall cs p ps cap, Forall noslash cs -> Forall (fun c => c <> []) cs ->
  Forall noslash (p :: ps) -> first_ok cs p ps -> long_pops (walk cs p) ps ->
  length (path_of cs) + length (p ++ F ps) + 1 < cap ->
  exists st rel ps' cs',
    append_start cap (rev (path_of cs)) (p ++ F ps) = Ok (st, rel) /\
    append_loop cap rel st = append_loop cap (F ps') (rev (F cs')) /\
    Forall noslash cs' /\ Forall (fun c => c <> []) cs' /\ Forall noslash ps' /\ long_pops cs' ps' /\
    fold_left walk ps' cs' = fold_left walk (p :: ps) cs /\
    (ps <> [] -> tail_of ps' = tail_of ps) /\ (ps = [] -> p = [] -> tail_of ps' = [slash]) /\
    length (F cs') + length (F ps') + 1 <= cap /\ length (F cs') + length (F ps') >= 1.
Proof.
  intros cs p ps cap Hcs Hne Hps [D1 D2] LP L. inversion_clear Hps as [| ? ? Hp Hps'].
  destruct (list_eq_dec ascii_dec p (chars "..")) as [-> | N2].
  { specialize (D1 (or_intror eq_refl)). destruct ps as [| q ps]; [contradiction |].
    assert (B : back (rev (path_of cs)) = Ok (rev (F (removelast cs)))).
    { destruct cs as [| c cs _] using rev_ind; [reflexivity |].
      rewrite path_of_F by (destruct cs; discriminate). rewrite removelast_last. apply back_F.
      apply Forall_app in Hcs. destruct Hcs as [_ Hc]. now inversion Hc. }
    exists (rev (F (removelast cs))), (F (q :: ps)), (q :: ps), (removelast cs).
    split. { change (chars ".." ++ F (q :: ps)) with (dot :: dot :: slash :: (q ++ F ps)).
      unfold append_start. rewrite !Ascii.eqb_refl. cbn [andb]. rewrite B. reflexivity. }
    assert (Lr : length (F (removelast cs)) <= length (path_of cs)).
    { destruct cs as [| c cs _] using rev_ind; [cbn; lia |]. rewrite path_of_F by (destruct cs; discriminate).
      rewrite removelast_last, length_F_snoc. lia. }
    assert (G : forall (P : list ascii -> Prop), Forall P cs -> Forall P (removelast cs)).
    { intros P H. destruct cs as [| c cs _] using rev_ind; [constructor |]. rewrite removelast_last.
      apply Forall_app in H. tauto. }
    conj; auto; try (intros; discriminate).
    - rewrite app_length in L. cbn [chars String.list_ascii_of_string length] in L. lia.
    - rewrite F_cons_len. lia. }
  assert (Hcn : cs <> []) by (intros Z; apply N2; auto).
  rewrite path_of_F in * by exact Hcn.
  assert (Lcs : 1 <= length (F cs)) by (destruct cs; [contradiction | rewrite F_cons_len; lia]).
  destruct (list_eq_dec ascii_dec p (chars ".")) as [-> | N1].
  { specialize (D1 (or_introl eq_refl)). destruct ps as [| q ps]; [contradiction |].
    exists (rev (F cs)), (F (q :: ps)), (q :: ps), cs. split.
    { cbn [flat_map chars String.list_ascii_of_string app append_start].
      change (("." =? dot)%char) with true. cbv iota.
      change ((slash =? dot)%char) with false. change ((slash =? slash)%char) with true.
      destruct (q ++ F ps); reflexivity. }
    conj; auto; try (intros; discriminate); [| lia].
    rewrite app_length in L. cbn [chars String.list_ascii_of_string length] in L. lia. }
  assert (Hrev : rev (F cs) <> []) by (intros Z; apply (f_equal (@length ascii)) in Z; rewrite rev_length in Z; cbn in Z; lia).
  destruct p as [| c p]; [destruct ps as [| q ps] |].
  - exists (slash :: rev (F cs)), [], [[]], cs. split.
    { apply (start_name cap (rev (F cs)) [] []); auto. rewrite rev_length. lia. }
    split. { apply (loop_slash cap [] [] cs); auto. cbn [length] in *; lia. }
    conj; auto; try (intros; discriminate).
    + cbn. split; [intros Z; discriminate Z | exact I].
    + intros Z. contradiction.
    + cbn [flat_map app length] in *. lia.
    + lia.
  - exists (rev (F cs)), (F (q :: ps)), (q :: ps), cs. split.
    { cbn [flat_map app append_start]. destruct (q ++ F ps); reflexivity. }
    conj; auto; try (intros; discriminate); [| lia].
    cbn [app] in L. lia.
  - rewrite app_length in L. cbn [length] in L.
    exists (slash :: rev (F cs)), ((c :: p) ++ F ps), ((c :: p) :: ps), cs. split.
    { apply start_name; auto; [intros [? | ?]; contradiction | left; discriminate | rewrite rev_length; lia]. }
    split. { apply loop_slash; auto; [left; discriminate | cbn [length]; lia]. }
    conj; auto.
    + split; [intros Z; contradiction | exact LP].
    + intros Hn. destruct ps; [contradiction | reflexivity].
    + intros _ Z. discriminate Z.
    + rewrite F_cons_len. cbn [length]. lia.
    + lia.
Qed.

Lemma relative_ok : forall cs path p ps cap, Forall noslash cs -> Forall (fun c => c <> []) cs ->
  pieces path = p :: ps -> first_ok cs p ps -> long_pops (walk cs p) ps ->
  fold_left walk (p :: ps) cs <> [] \/ (ps <> [] /\ tail_of ps = [slash]) ->
  length (path_of cs) + length path + 2 <= cap ->
  append_relative cap (path_of cs) path = Ok (path_of (resolve cs path)).
Proof.
  intros cs path p ps cap Hcs Hne E Hf LP H L. unfold resolve. rewrite E. unfold append_relative.
  destruct (Nat.ltb_spec (length (path_of cs)) cap); [| lia].
  assert (M := pieces_flat _ _ _ E). rewrite M.
  assert (Hl : length path = length (p ++ F ps)) by (rewrite <- M; symmetry; apply map_unix_length).
  assert (PN := pieces_noslash path). rewrite E in PN.
  destruct (relative_start cs p ps cap Hcs Hne PN Hf LP ltac:(lia)) as
    (st & rel & ps' & cs' & ES & EL & H1 & H2 & H3 & H4 & H5 & H6 & H7 & H8 & H9).
  rewrite ES. cbn [bind]. rewrite EL, loop_ok by (try assumption; lia). cbn [bind]. rewrite H5.
  assert (T : fold_left walk (p :: ps) cs <> [] \/ tail_of ps' = [slash]).
  { destruct H as [H | [Hn H]]; [now left | right]. rewrite H6; assumption. }
  apply end_ok; auto.
  - now apply walk_nonempty.
  - now apply walk_noslash.
  - assert (W := walk_length ps' cs'). rewrite H5 in W. destruct (fold_left walk (p :: ps) cs); [left; cbn [flat_map length]; lia | right; split; [lia | discriminate]].
Qed.

(* ---- names ---- *)

Lemma until_nul_ok : forall s t, c_str s -> until_nul (s ++ nul :: t) = Ok s.
Proof.
  induction s as [| c s IH]; intros t H; cbn [app until_nul]; [reflexivity |].
  inversion_clear H as [| ? ? Hc Hs]. destruct (c =? nul)%char eqn:E.
  - apply Ascii.eqb_eq in E. now subst.
  - now rewrite (IH t Hs).
Qed.

Lemma c_string_ok : forall a s t, c_str s -> c_string (a ++ s ++ nul :: t) (length a) = Ok s.
Proof.
  intros a s t H. unfold c_string. rewrite skipn_app, skipn_all, Nat.sub_diag, skipn_O. cbn [app].
  now apply until_nul_ok.
Qed.

Lemma last_index_none : forall c l, ~ In c l -> last_index c l = None.
Proof.
  induction l as [| x l IH]; intros H; cbn [last_index]; [reflexivity |].
  rewrite IH by (intros Hi; apply H; now right). destruct (x =? c)%char eqn:E; [| reflexivity].
  apply Ascii.eqb_eq in E. subst. destruct H. now left.
Qed.

Lemma last_index_some : forall c a b, ~ In c b -> last_index c (a ++ c :: b) = Some (length a).
Proof.
  induction a as [| x a IH]; intros b H; cbn [app last_index length].
  - rewrite last_index_none by exact H. now rewrite Ascii.eqb_refl.
  - now rewrite IH.
Qed.

Lemma noslash_notin : forall c, noslash c -> ~ In slash c.
Proof. intros c H Hi. rewrite Forall_forall in H. now specialize (H _ Hi). Qed.

Lemma c_str_app : forall a b, c_str a -> c_str b -> c_str (a ++ b).
Proof. intros. apply Forall_app. now split. Qed.

Lemma name_cstr : forall c, name c -> c_str c.
Proof. intros c (_ & _ & _ & H). eapply Forall_impl; [| exact H]. now intros x [_ H2]. Qed.

Lemma F_cstr : forall cs, Forall name cs -> c_str (F cs).
Proof.
  induction 1 as [| c cs Hc _ IH]; [constructor |]. cbn [flat_map]. constructor; [discriminate |].
  apply c_str_app; [now apply name_cstr | exact IH].
Qed.

Lemma F_length_pos : forall cs, cs <> [] -> 1 <= length (F cs).
Proof. intros [| c cs] H; [contradiction |]. rewrite F_cons_len. lia. Qed.

(* what with_names builds *)
Lemma with_names_ok : forall cs c, noslash c -> c <> [] ->
  exists e, with_names (F (cs ++ [c])) = Ok {| f_mem := F (cs ++ [c]) ++ [nul];
    f_file := S (length (F cs)); f_ext := S (length (F cs)) + e |} /\
    extension_of c (skipn e c) /\ e <= length c.
Proof.
  intros cs c Hs Hn. unfold with_names.
  assert (E : F (cs ++ [c]) = F cs ++ slash :: c) by (rewrite F_app; cbn [flat_map]; now rewrite app_nil_r).
  rewrite E. rewrite last_index_some by now apply noslash_notin.
  assert (Lc : 1 <= length c) by (destruct c; [contradiction | cbn; lia]).
  rewrite app_length. cbn [length].
  destruct (Nat.ltb_spec (S (length (F cs))) (length (F cs) + S (length c))); [| lia].
  assert (K : skipn (S (length (F cs))) (F cs ++ slash :: c) = c).
  { replace (F cs ++ slash :: c) with ((F cs ++ [slash]) ++ c) by now rewrite <- app_assoc.
    rewrite skipn_app. replace (S (length (F cs))) with (length (F cs ++ [slash])) by (rewrite app_length; cbn; lia).
    rewrite skipn_all, Nat.sub_diag. reflexivity. }
  rewrite K.
  assert (S : ~ In dot c \/ exists b e, c = b ++ dot :: e /\ ~ In dot e).
  { clear. induction c as [| x c IH] using rev_ind; [left; tauto |].
    destruct (ascii_dec x dot) as [-> | Nx].
    - right. exists c, []. split; [reflexivity | tauto].
    - destruct IH as [IH | (b & e & -> & IH)].
      + left. intros Hi. apply in_app_or in Hi. destruct Hi as [Hi | [Hi | []]]; auto.
      + right. exists b, (e ++ [x]). split; [now rewrite <- app_assoc |].
        intros Hi. apply in_app_or in Hi. destruct Hi as [Hi | [Hi | []]]; auto. }
  destruct S as [S | (b & e & -> & S)].
  - rewrite last_index_none by exact S. exists (length c). split; [| split; [| lia]].
    + f_equal. f_equal. lia.
    + rewrite skipn_all. now constructor.
  - rewrite last_index_some by exact S. rewrite app_length in *. cbn [length] in *.
    destruct b as [| x b].
    + cbn [length]. rewrite Nat.add_0_r. rewrite Nat.eqb_refl. cbn [app].
      exists (Datatypes.S (length e)). split; [| split; [| lia]].
      * f_equal. f_equal. lia.
      * cbn [skipn]. rewrite skipn_all. now constructor.
    + destruct (Nat.eqb_spec (Datatypes.S (length (F cs)) + length (x :: b) + 1) (Datatypes.S (length (F cs)) + 1)); [cbn [length] in *; lia |].
      exists (length (x :: b) + 1). split; [f_equal; f_equal; lia | split; [| lia]].
      replace ((x :: b) ++ dot :: e) with (((x :: b) ++ [dot]) ++ e) at 2 by now rewrite <- app_assoc.
      rewrite skipn_app. replace (length (x :: b) + 1) with (length ((x :: b) ++ [dot])) by (rewrite app_length; reflexivity).
      rewrite skipn_all, Nat.sub_diag. apply ext_some; [discriminate | exact S].
Qed.

Lemma with_names_root : with_names (path_of []) = Ok {| f_mem := [slash; nul]; f_file := 0; f_ext := 1 |}.
Proof. reflexivity. Qed.

(* the object of a constructed file *)
Definition of_path (cs : list (list ascii)) (f : file) : Prop := with_names (path_of cs) = Ok f.

Lemma copy_ok : forall s t a b, c_str s ->
  file_copy {| f_mem := s ++ nul :: t; f_file := a; f_ext := b |} = Ok {| f_mem := s ++ [nul]; f_file := a; f_ext := b |}.
Proof.
  intros s t a b H. unfold file_copy. cbn [f_mem f_file f_ext].
  assert (E := c_string_ok [] s t H). cbn [app length] in E. rewrite E. reflexivity.
Qed.

Lemma scan_back_ok : forall a b t n, noslash b -> n = length a + 1 + length b ->
  scan_back (a ++ slash :: b ++ t) n = Ok (Z.of_nat (length a)).
Proof.
  intros a b. induction b as [| x b IH] using rev_ind; intros t n Hb ->; cbn [length].
  - replace (length a + 1 + 0) with (S (length a)) by lia. cbn [scan_back app].
    rewrite (rd_nth _ _ _ slash); [reflexivity | lia |]. rewrite Nat2Z.id, nth_error_app2, Nat.sub_diag by lia. reflexivity.
  - apply Forall_app in Hb. destruct Hb as [Hb Hx]. inversion_clear Hx as [| ? ? Hx' _].
    rewrite app_length. cbn [length]. replace (length a + 1 + (length b + 1)) with (S (length a + 1 + length b)) by lia.
    cbn [scan_back]. rewrite <- app_assoc. cbn [app].
    rewrite (rd_nth _ _ _ x); [| lia |].
    + cbn [bind]. rewrite (nosep_slash x Hx'). now apply IH.
    + rewrite Nat2Z.id, nth_error_app2 by lia. replace (length a + 1 + length b - length a) with (S (length b)) by lia.
      cbn [nth_error]. rewrite nth_error_app2, Nat.sub_diag by lia. reflexivity.
Qed.

Lemma rd_at : forall (a : list ascii) x b, rd (a ++ x :: b) (Z.of_nat (length a)) = Ok x.
Proof. intros. apply rd_nth; [lia |]. rewrite Nat2Z.id, nth_error_app2, Nat.sub_diag by lia. reflexivity. Qed.

Lemma upd_at : forall (a : list ascii) x b v, upd (a ++ x :: b) (Z.of_nat (length a)) v = Ok (a ++ v :: b).
Proof.
  intros. rewrite upd_ok by (rewrite app_length; cbn [length]; lia). rewrite Nat2Z.id.
  rewrite firstn_app, firstn_all, Nat.sub_diag. cbn [firstn]. rewrite app_nil_r.
  rewrite skipn_app. rewrite skipn_all2 by lia. replace (S (length a) - length a) with 1 by lia. reflexivity.
Qed.

Lemma first_char : forall c, noslash c -> c <> [] -> exists x c', c = x :: c' /\ (x =? slash)%char = false.
Proof. intros [| x c'] H N; [contradiction |]. inversion_clear H. eauto using nosep_slash. Qed.

(* parent of a file in the root *)
Lemma parent_root : forall c e, name c ->
  file_parent {| f_mem := F [c] ++ [nul]; f_file := 1; f_ext := e |} =
  Ok {| f_mem := slash :: nul :: skipn 1 c ++ [nul]; f_file := 0; f_ext := 1 |}.
Proof.
  intros c e Hc. unfold file_parent. rewrite copy_ok by (apply F_cstr; auto).
  destruct (first_char c (name_noslash c Hc) (proj1 Hc)) as (x & c' & -> & Hx).
  cbn [flat_map app bind f_mem f_file].
  change (rd (slash :: x :: (c' ++ []) ++ [nul]) (Z.of_nat 1)) with (@Ok ascii x). cbn [bind]. rewrite Hx.
  cbn [Nat.eqb]. rewrite app_nil_r.
  change (slash :: x :: c' ++ [nul]) with ([slash] ++ x :: c' ++ [nul]).
  change 1%Z with (Z.of_nat (length [slash])). rewrite upd_at. reflexivity.
Qed.

(* parent of a file further down *)
Lemma parent_deep : forall cs d c e t, Forall name (cs ++ [d; c]) ->
  file_parent {| f_mem := F (cs ++ [d; c]) ++ nul :: t; f_file := S (length (F (cs ++ [d]))); f_ext := e |} =
  Ok {| f_mem := F (cs ++ [d]) ++ nul :: c ++ [nul];
        f_file := match cs with [] => S (length (F (cs ++ [d]))) | _ => S (length (F cs)) end;
        f_ext := length (F (cs ++ [d])) |}.
Proof.
  intros cs d c e t H. unfold file_parent. rewrite copy_ok by now apply F_cstr.
  cbn [bind f_mem f_file f_ext].
  assert (Hd : name d /\ name c /\ Forall name cs).
  { apply Forall_app in H. destruct H as [H1 H2]. inversion_clear H2 as [| ? ? A B]. inversion_clear B. auto. }
  destruct Hd as (Hd & Hc & Hcs).
  destruct (first_char c (name_noslash c Hc) (proj1 Hc)) as (x & c' & E & Hx).
  assert (M : forall t, F (cs ++ [d; c]) ++ nul :: t = F (cs ++ [d]) ++ slash :: c ++ nul :: t).
  { intros u. change [d; c] with ([d] ++ [c]). rewrite app_assoc, F_app. cbn [flat_map]. rewrite app_nil_r, <- app_assoc. reflexivity. }
  rewrite !M.
  assert (R : rd (F (cs ++ [d]) ++ slash :: c ++ [nul]) (Z.of_nat (S (length (F (cs ++ [d]))))) = Ok x).
  { apply rd_nth; [lia |]. rewrite Nat2Z.id, nth_error_app2 by lia.
    replace (S (length (F (cs ++ [d]))) - length (F (cs ++ [d]))) with 1 by lia. subst c. reflexivity. }
  rewrite R. cbn [bind]. rewrite Hx.
  assert (Ld : 1 <= length d) by (destruct Hd as [Hd _]; destruct d; [contradiction | cbn; lia]).
  destruct (Nat.eqb_spec (S (length (F (cs ++ [d])))) 1) as [Ez | _]; [rewrite length_F_snoc in Ez; lia |].
  replace (Z.of_nat (S (length (F (cs ++ [d])))) - 1)%Z with (Z.of_nat (length (F (cs ++ [d])))) by lia.
  rewrite upd_at. cbn [bind]. replace (S (length (F (cs ++ [d]))) - 1) with (length (F (cs ++ [d]))) by lia.
  assert (B : scan_back (F (cs ++ [d]) ++ slash :: c ++ nul :: t) (length (F (cs ++ [d]))) = Ok (Z.of_nat (length (F cs)))).
  { rewrite F_app at 1. cbn [flat_map]. rewrite app_nil_r, <- app_assoc. cbn [app].
    apply scan_back_ok; [now apply name_noslash |]. rewrite length_F_snoc. lia. }
  rewrite B. cbn [bind]. destruct cs as [| c0 cs]; [reflexivity |].
  destruct (Z.eqb_spec (Z.of_nat (length (F (c0 :: cs)))) 0) as [Ez | _]; [rewrite F_cons_len in Ez; lia |].
  do 2 f_equal. lia.
Qed.

(* ---- no NUL appears ---- *)

Lemma put_cstr : forall cap c st st', put cap c st = Ok st' -> c <> nul -> c_str st -> c_str st'.
Proof. intros cap c st st'. unfold put. destruct (_ <? _); [| discriminate]. intros E H1 H2. injection E as <-. now constructor. Qed.

Lemma back_cstr : forall st st', back st = Ok st' -> c_str st -> c_str st'.
Proof.
  induction st as [| c st IH]; cbn [back]; intros st' E H; [discriminate |]. inversion_clear H.
  destruct (c =? slash)%char; [injection E as <-; assumption | now apply IH].
Qed.

Lemma cstr_skipn : forall n l, c_str l -> c_str (skipn n l).
Proof.
  intros n c H. unfold c_str in *. rewrite Forall_forall in *. intros x Hx. apply H.
  rewrite <- (firstn_skipn n c). apply in_or_app. now right.
Qed.

Lemma loop_cstr : forall n cap rel st st', length rel < n -> append_loop cap rel st = Ok st' ->
  c_str rel -> c_str st -> c_str st'.
Proof.
  induction n as [| n IH]; intros cap rel st st' L E Hr Hs; [lia |].
  assert (P : forall c rel1, rel = c :: rel1 -> (let! st := put cap c st in append_loop cap rel1 st) = Ok st' -> c_str st').
  { intros c rel1 -> E1. inversion_clear Hr. destruct (put cap c st) as [st1 | |] eqn:Ep; try discriminate.
    cbn [bind] in E1. eapply IH; [| exact E1 | assumption |]; [cbn [length] in L; lia |].
    eapply put_cstr; eauto. }
  destruct rel as [| c rel1]; cbn [append_loop] in E; [injection E as <-; assumption |].
  destruct (c =? slash)%char; [| now apply (P c rel1)].
  inversion_clear Hr as [| ? ? Hc Hr1].
  destruct rel1 as [| c1 rel2]; [eapply put_cstr; eauto |]. cbn [length] in L.
  destruct (c1 =? dot)%char.
  - assert (Hr2 : c_str rel2) by now inversion_clear Hr1.
    destruct (ends_component rel2).
    + eapply IH; [| exact E | |]; auto. lia.
    + destruct rel2 as [| c2 rel3]; [discriminate |]. cbn [length] in L.
      destruct ((c2 =? dot)%char && ends_component rel3).
      * assert (Hr3 : c_str rel3) by now inversion_clear Hr2.
        destruct (length st <=? 1).
        -- eapply IH; [| exact E | |]; auto. lia.
        -- destruct (back (skipn 2 st)) as [st1 | |] eqn:Eb; try discriminate. cbn [bind] in E.
           eapply IH; [| exact E | |]; auto; [lia |]. eapply back_cstr; [exact Eb |]. now apply cstr_skipn.
      * eapply P; [reflexivity | exact E].
  - destruct (c1 =? slash)%char; [| eapply P; [reflexivity | exact E]].
    eapply IH; [| exact E | |]; auto. cbn [length]. lia.
Qed.

Lemma start_cstr : forall cap st rel st' rel', append_start cap st rel = Ok (st', rel') ->
  c_str st -> c_str rel -> c_str st' /\ c_str rel'.
Proof.
  intros cap st rel st' rel' E Hs Hr. unfold append_start in E.
  match type of E with bind ?x _ = _ => destruct x as [[s r] | |] eqn:E1; try discriminate end.
  assert (G : c_str s /\ c_str r).
  { destruct rel as [| c0 [| c1 rel2]]; try (injection E1 as <- <-; now split).
    destruct (c0 =? dot)%char; [| injection E1 as <- <-; now split].
    assert (H2 : c_str (c1 :: rel2)) by now inversion_clear Hr.
    assert (H3 : c_str rel2) by now inversion_clear H2.
    destruct rel2 as [| c2 rel3].
    - destruct (c1 =? slash)%char; injection E1 as <- <-; now split.
    - destruct ((c1 =? dot)%char && (c2 =? slash)%char).
      + destruct (back st) as [st1 | |] eqn:Eb; try discriminate. cbn [bind] in E1. injection E1 as <- <-.
        split; [eapply back_cstr; eauto | assumption].
      + destruct (c1 =? slash)%char; injection E1 as <- <-; now split. }
  destruct G as [G1 G2]. cbn [bind] in E.
  match type of E with (if ?b then _ else _) = _ => destruct b end.
  - destruct (put cap slash s) as [s1 | |] eqn:Ep; try discriminate. cbn [bind] in E. injection E as <- <-.
    split; [| assumption]. eapply put_cstr; [exact Ep | discriminate | assumption].
  - injection E as <- <-. now split.
Qed.

Lemma unix_cstr : forall l, c_str l -> c_str (map unix l).
Proof.
  induction 1 as [| c l H _ IH]; cbn [map]; constructor; [| exact IH].
  unfold unix. destruct (c =? "\")%char; [discriminate | exact H].
Qed.

Lemma append_cstr : forall cap abs rel r, append_relative cap abs rel = Ok r -> c_str abs -> c_str rel -> c_str r.
Proof.
  intros cap abs rel r E Ha Hr. unfold append_relative in E. destruct (length abs <? cap); [| discriminate].
  destruct (append_start cap (rev abs) (map unix rel)) as [[st rl] | |] eqn:ES; try discriminate. cbn [bind] in E.
  destruct (start_cstr _ _ _ _ _ ES (Forall_rev Ha) (unix_cstr _ Hr)) as [H1 H2].
  destruct (append_loop cap rl st) as [st1 | |] eqn:EL; try discriminate. cbn [bind] in E.
  assert (H3 := loop_cstr _ _ _ _ _ (le_n _) EL H2 H1).
  unfold append_end in E. destruct st1 as [| c st2]; [discriminate |].
  assert (H4 : c_str st2) by now inversion_clear H3.
  match type of E with (if (length ?s <? _) then _ else _) = _ => destruct (length s <? cap); [| discriminate];
    assert (H5 : c_str s) by (destruct ((c =? slash)%char && (1 <? length (c :: st2))); assumption) end.
  injection E as <-. apply Forall_rev. exact H5.
Qed.

Lemma with_names_inv : forall abs f, with_names abs = Ok f -> f_mem f = abs ++ [nul].
Proof.
  intros abs f. unfold with_names. destruct (last_index slash abs); [| discriminate].
  intros E. injection E as <-. reflexivity.
Qed.

Lemma with_names_abs : forall abs f s, c_str abs -> with_names abs = Ok f -> file_absolute f = Ok s -> s = abs.
Proof.
  intros abs f s H E Es. unfold file_absolute in Es. rewrite (with_names_inv _ _ E) in Es.
  assert (G := c_string_ok [] abs [] H). cbn [app length] in G. rewrite G in Es. now injection Es as <-.
Qed.

Lemma names_noslash : forall cs, Forall name cs -> Forall noslash cs.
Proof. intros cs H. eapply Forall_impl; [| exact H]. apply name_noslash. Qed.

Lemma names_ne : forall cs, Forall name cs -> Forall (fun c => c <> []) cs.
Proof. intros cs H. eapply Forall_impl; [| exact H]. now intros c [Hc _]. Qed.

Lemma path_cstr : forall cs, Forall name cs -> c_str (path_of cs).
Proof. intros [| c cs] H; [repeat constructor; discriminate | now apply F_cstr]. Qed.

Lemma file_new_inv : forall cwd path f, c_str cwd -> c_str path -> file_new cwd path = Ok f ->
  exists abs, c_str abs /\ with_names abs = Ok f.
Proof.
  intros cwd path f Hc Hp E. unfold file_new in E.
  match type of E with bind ?x _ = _ => destruct x as [abs | |] eqn:E1; try discriminate end.
  cbn [bind] in E. exists abs. split; [| exact E].
  destruct path as [| c path]; [| destruct (c =? slash)%char]; eapply append_cstr; try exact E1; auto. constructor.
Qed.

Lemma pieces_cstr : forall l, c_str l -> Forall c_str (pieces l).
Proof.
  induction 1 as [| c l Hc _ IH]; cbn [pieces]; [repeat constructor |].
  destruct (is_separator c); [constructor; [constructor | assumption] |].
  destruct (pieces l); [constructor |]. inversion_clear IH. constructor; [now constructor | assumption].
Qed.

Lemma resolve_names : forall cs path, Forall name cs -> c_str path -> Forall name (resolve cs path).
Proof.
  intros cs path H Hp. unfold resolve. assert (N := pieces_noslash path). apply pieces_cstr in Hp. revert cs H.
  induction (pieces path) as [| p ps IH]; intros cs H; [assumption |]. cbn [fold_left].
  inversion_clear N. inversion_clear Hp. apply IH; auto. now apply walk_names.
Qed.
