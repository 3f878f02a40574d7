(* C201-C204: syntax errors of configuration files. *)
From Coq Require Import Ascii String.
From Verif Require Import Common ErrModel.
Local Open Scope nat_scope.

(* no character that ends a line *)
Definition inline (c : ascii) : Prop := c <> newline /\ c <> return_ /\ c <> zero.

Lemma inline_b : forall c, inline c -> ((c =? newline) || (c =? return_) || (c =? zero))%char%bool = false.
Proof. intros c (H1 & H2 & H3). rewrite !orb_false_iff. repeat split; apply Ascii.eqb_neq; assumption. Qed.

Lemma cut_full : forall l i, Forall inline l -> cut i (map Some l) = Ok (i + length l, map Some l).
Proof.
  induction l as [| c l IH]; intros i F; cbn; [rewrite Nat.add_0_r; reflexivity |]. inversion_clear F as [| ? ? Hc Hl].
  rewrite (inline_b c Hc), (IH (S i) Hl). cbn. replace (S (i + length l)) with (i + S (length l)) by lia. reflexivity.
Qed.

Lemma cut_newline : forall l i r, Forall inline l -> cut i (map Some l ++ Some newline :: r) = Ok (i + length l, map Some l ++ Some zero :: r).
Proof.
  induction l as [| c l IH]; intros i r F; cbn; [rewrite Nat.add_0_r; reflexivity |]. inversion_clear F as [| ? ? Hc Hl].
  rewrite (inline_b c Hc), (IH (S i) r Hl). cbn. replace (S (i + length l)) with (i + S (length l)) by lia. reflexivity.
Qed.

Lemma c_text_ok : forall l r, Forall inline l -> c_text (map Some l ++ Some zero :: r) = Ok l.
Proof.
  induction l as [| c l IH]; intros r F; cbn; [reflexivity |]. inversion_clear F as [| ? ? Hc Hl].
  rewrite (proj2 (Ascii.eqb_neq c zero)) by apply Hc. rewrite (IH r Hl). reflexivity.
Qed.

Lemma dots_inline : Forall inline [dot; dot; dot].
Proof. repeat constructor; discriminate. Qed.

Lemma inline_firstn : forall n (l : list ascii), Forall inline l -> Forall inline (firstn n l).
Proof. intros n l F. rewrite <- (firstn_skipn n l) in F. apply Forall_app in F. apply F. Qed.
Lemma inline_skipn : forall n (l : list ascii), Forall inline l -> Forall inline (skipn n l).
Proof. intros n l F. rewrite <- (firstn_skipn n l) in F. apply Forall_app in F. apply F. Qed.

(* what is shown of the rest of a line: all of it, or 124 characters and dots *)
Definition shown (l : list ascii) : list ascii := if length l <? 128 then l else firstn 124 l ++ [dot; dot; dot].

Lemma buffer_ok : forall l rest, Forall inline l ->
  exists i buf r, cut 0 (read_at (l ++ newline :: rest) 0) = Ok (i, buf) /\
    (if i =? 128 then firstn 124 buf ++ [Some dot; Some dot; Some dot; Some zero] else buf) = map Some (shown l) ++ Some zero :: r.
Proof.
  intros l rest F. unfold read_at, shown. cbn [skipn]. destruct (Nat.ltb_spec (length l) 128) as [L | L].
  - rewrite firstn_app. rewrite (firstn_all2 l) by lia. destruct (128 - length l) as [| k] eqn:K; [lia |]. rewrite firstn_cons.
    rewrite map_app. cbn [map]. rewrite <- app_assoc. cbn [app]. rewrite cut_newline by exact F.
    eexists. eexists. eexists. split; [reflexivity |]. cbn [Nat.add]. destruct (Nat.eqb_spec (length l) 128); [lia |]. reflexivity.
  - rewrite firstn_app. replace (128 - length l) with 0 by lia. rewrite firstn_O, app_nil_r.
    rewrite firstn_length, Nat.min_l by lia. cbn [repeat]. change (128 - 128) with 0. cbn [repeat]. rewrite app_nil_r.
    rewrite cut_full by (apply inline_firstn; exact F). rewrite firstn_length, Nat.min_l by lia.
    eexists. eexists. exists []. split; [reflexivity |]. cbn [Nat.add Nat.eqb].
    change (128 =? 128) with true. cbv iota. rewrite firstn_map, firstn_firstn. change (Nat.min 124 128) with 124.
    rewrite map_app, <- app_assoc. reflexivity.
Qed.

Lemma skipn_past : forall (a b : list ascii), skipn (length a) (a ++ b) = b.
Proof. intros. rewrite skipn_app, skipn_all, Nat.sub_diag. reflexivity. Qed.

Lemma skipn_twice : forall a k (z : list ascii), skipn k (skipn a z) = skipn (a + k) z.
Proof. induction a as [| a IH]; intros k z; [reflexivity |]. destruct z; [cbn; destruct k; reflexivity | cbn; apply IH]. Qed.

Lemma underline_ok : forall k n off, k + n < 128 -> (off < 2 ^ 32)%N -> (off + N.of_nat k + N.of_nat n < 2 ^ 32)%N ->
  underline (off + N.of_nat k) (off + N.of_nat k + N.of_nat n) off = Ok (repeat space k ++ repeat tilde n).
Proof.
  intros k n off H1 H2 H3. unfold underline, u32.
  replace (off + N.of_nat k + 2 ^ 32 - off)%N with (N.of_nat k + 1 * 2 ^ 32)%N by lia.
  replace (off + N.of_nat k + N.of_nat n + 2 ^ 32 - off)%N with (N.of_nat (k + n) + 1 * 2 ^ 32)%N by lia.
  rewrite !N.mod_add, !N.mod_small by lia.
  destruct (N.ltb_spec 128 (N.of_nat k)); [lia |].
  destruct (N.ltb_spec 128 (N.of_nat (k + n))); [lia |]. rewrite andb_false_r.
  destruct (N.leb_spec 128 (N.of_nat (k + n))); [lia |].
  rewrite !Nat2N.id. replace (k + n - k) with n by lia. rewrite firstn_all2; [reflexivity |].
  rewrite app_length, !repeat_length. lia.
Qed.

(* C201.  A syntax error shows the line of the wrong token, cut to what fits, and underlines exactly
   the token: for every line that ends with a newline, if the token ends before column 124 or has at
   most 61 characters. *)
Theorem error_underlines_token : forall before pre tok post rest,
  Forall inline (pre ++ tok ++ post) -> 1 <= length tok <= 123 ->
  length pre + length tok < 124 \/ length tok <= 61 ->
  (N.of_nat (length pre + length tok) < 2 ^ 32 - 1)%N ->
  exists s k, report (before ++ (pre ++ tok ++ post) ++ newline :: rest) (length before + length pre + length tok) (length before)
      (N.of_nat (length pre) + 1) (N.of_nat (length pre + length tok) + 1) true =
    Ok (Some (s, repeat space k ++ repeat tilde (length tok))) /\
    firstn (length tok) (skipn k s) = tok /\
    (length (pre ++ tok ++ post) < 124 -> s = pre ++ tok ++ post).
Proof.
  intros before pre tok post rest F L C Big. unfold report.
  set (P := N.of_nat (length pre)) in *. set (E := N.of_nat (length pre + length tok)) in *.
  destruct (N.ltb_spec 0 (E + 1)); [| lia]. destruct (N.ltb_spec (P + 1) (E + 1)); [| lia].
  destruct (N.leb_spec (E + 1 - (P + 1)) 123); [| lia]. cbn [andb].
  unfold get_line. replace (length before + length pre + length tok - length before) with (length pre + length tok) by lia.
  destruct (Nat.leb_spec 124 (length pre + length tok)) as [Far | Near].
  - assert (L61 : length tok <= 61) by lia.
    set (cur := length before + length pre + length tok).
    set (a := length pre + length tok - 64).
    assert (Ha : cur - 64 = length before + a) by (unfold a, cur; lia).
    assert (Hoff : cur - 64 - length before = a) by lia. rewrite Hoff, Ha.
    set (l := skipn a (pre ++ tok ++ post)).
    assert (R : read_at (before ++ (pre ++ tok ++ post) ++ newline :: rest) (length before + a) = read_at (l ++ newline :: rest) 0).
    { unfold read_at. cbn [skipn]. do 2 f_equal; [f_equal |]. 
      all: assert (S : skipn (length before + a) (before ++ (pre ++ tok ++ post) ++ newline :: rest) = l ++ newline :: rest)
        by (rewrite skipn_app; rewrite skipn_all2 by lia; replace (length before + a - length before) with a by lia; cbn [app];
            rewrite skipn_app; replace (a - length (pre ++ tok ++ post)) with 0 by (rewrite !app_length; lia); reflexivity).
      all: rewrite S; reflexivity. }
    rewrite R. assert (Fl : Forall inline l) by (apply inline_skipn; exact F).
    destruct (buffer_ok l rest Fl) as (i & buf & r & E1 & E2). rewrite E1. cbn [bind]. rewrite E2.
    destruct (Nat.eqb_spec a 0) as [Z | Z]; [unfold a in Z; lia |].
    set (k := 64 - length tok).
    assert (U : underline (P + 1 - 1) (E + 1 - 1) (N.of_nat a) = Ok (repeat space k ++ repeat tilde (length tok))).
    { replace (P + 1 - 1)%N with (N.of_nat a + N.of_nat k)%N by (unfold P, a, k; lia).
      replace (E + 1 - 1)%N with (N.of_nat a + N.of_nat k + N.of_nat (length tok))%N by (unfold E, a, k; lia).
      apply underline_ok; unfold k, a; lia. }
    rewrite U. cbn [bind].
    assert (Ll : 64 <= length (shown l)).
    { unfold shown. assert (64 <= length l) by (unfold l; rewrite skipn_length, !app_length; unfold a; lia).
      destruct (Nat.ltb_spec (length l) 128); [assumption |]. rewrite app_length, firstn_length. lia. }
    assert (T : [Some dot; Some dot; Some dot] ++ skipn 3 (map Some (shown l) ++ Some zero :: r) =
      map Some ([dot; dot; dot] ++ skipn 3 (shown l)) ++ Some zero :: r).
    { rewrite skipn_app. rewrite map_length. replace (3 - length (shown l)) with 0 by lia. rewrite skipn_O, map_app, skipn_map, <- app_assoc. reflexivity. }
    rewrite T. rewrite c_text_ok.
    + cbn [bind]. eexists. exists k. split; [reflexivity |]. split.
      * assert (K3 : 3 <= k) by (unfold k; lia).
        rewrite skipn_app. rewrite (skipn_all2 [dot; dot; dot]) by exact K3. cbn [app length].
        assert (SS : skipn (k - 3) (skipn 3 (shown l)) = skipn k (shown l)).
        { rewrite skipn_twice. f_equal. lia. }
        rewrite SS.
        assert (SH : firstn (length tok) (skipn k (shown l)) = firstn (length tok) (skipn k l)).
        { unfold shown. destruct (Nat.ltb_spec (length l) 128); [reflexivity |].
          rewrite skipn_app, firstn_app. rewrite firstn_length, Nat.min_l by lia.
          replace (length tok - length (skipn k (firstn 124 l))) with 0 by (rewrite skipn_length, firstn_length; unfold k; lia).
          rewrite firstn_O, app_nil_r. rewrite skipn_firstn_comm, firstn_firstn. rewrite Nat.min_l by (unfold k; lia). reflexivity. }
        rewrite SH. unfold l. 
        assert (SK : skipn k (skipn a (pre ++ tok ++ post)) = tok ++ post).
        { replace (skipn k (skipn a (pre ++ tok ++ post))) with (skipn (a + k) (pre ++ tok ++ post)).
          - replace (a + k) with (length pre) by (unfold a, k; lia). apply skipn_past.
          - symmetry. apply skipn_twice. }
        rewrite SK. rewrite firstn_app, Nat.sub_diag, firstn_O, app_nil_r. apply firstn_all.
      * intros Z'. rewrite !app_length in Z'. lia.
    + apply Forall_app. split; [apply dots_inline |]. apply inline_skipn. unfold shown. destruct (length l <? 128); [exact Fl |].
      apply Forall_app. split; [apply inline_firstn; exact Fl | apply dots_inline].
  - assert (R : read_at (before ++ (pre ++ tok ++ post) ++ newline :: rest) (length before) = read_at ((pre ++ tok ++ post) ++ newline :: rest) 0).
    { unfold read_at. rewrite skipn_past. reflexivity. }
    rewrite R. destruct (buffer_ok (pre ++ tok ++ post) rest F) as (i & buf & r & E1 & E2). rewrite E1. cbn [bind]. rewrite E2.
    cbn [Nat.eqb].
    assert (U : underline (P + 1 - 1) (E + 1 - 1) (N.of_nat 0) = Ok (repeat space (length pre) ++ repeat tilde (length tok))).
    { replace (P + 1 - 1)%N with (0 + N.of_nat (length pre))%N by (unfold P; lia).
      replace (E + 1 - 1)%N with (0 + N.of_nat (length pre) + N.of_nat (length tok))%N by (unfold E; lia).
      apply underline_ok; lia. }
    rewrite U. cbn [bind]. rewrite c_text_ok.
    + cbn [bind]. eexists. exists (length pre). split; [reflexivity |]. split.
      * unfold shown. destruct (Nat.ltb_spec (length (pre ++ tok ++ post)) 128).
        -- rewrite skipn_past. rewrite firstn_app, Nat.sub_diag, firstn_O, app_nil_r. apply firstn_all.
        -- rewrite skipn_app, firstn_app. rewrite firstn_length, Nat.min_l by lia.
           replace (length tok - length (skipn (length pre) (firstn 124 (pre ++ tok ++ post)))) with 0 by (rewrite skipn_length, firstn_length; lia).
           rewrite firstn_O, app_nil_r. rewrite skipn_firstn_comm, firstn_firstn. rewrite Nat.min_l by lia.
           rewrite skipn_past. rewrite firstn_app, Nat.sub_diag, firstn_O, app_nil_r. apply firstn_all.
      * intros Z. unfold shown. destruct (Nat.ltb_spec (length (pre ++ tok ++ post)) 128); [reflexivity | lia].
    + unfold shown. destruct (length (pre ++ tok ++ post) <? 128); [exact F |].
      apply Forall_app. split; [apply inline_firstn; exact F | apply dots_inline].
Qed.
Print Assumptions error_underlines_token.

Local Open Scope string_scope.
Definition chars_ (s : string) : list ascii := list_ascii_of_string s.

(* non-trivial case: the token "sferea" of the second line of a file, with a third line after it *)
Example error_underlines_token_ex :
  Forall inline (chars_ "shape: " ++ chars_ "sferea" ++ chars_ " x")%list /\
  report (chars_ "w: 1" ++ [newline] ++ (chars_ "shape: " ++ chars_ "sferea" ++ chars_ " x") ++ newline :: chars_ "z")%list 18 5 8 14 true =
    Ok (Some (chars_ "shape: sferea x", chars_ "       ~~~~~~")).
Proof.
  split; [| reflexivity]. cbn. repeat (apply Forall_cons; [repeat split; discriminate |]). apply Forall_nil.
Qed.

(* a far token: 130 characters before it, shown after dots *)
Example error_underlines_token_far :
  report (repeat "a"%char 130 ++ chars_ "bcd" ++ chars_ " e" ++ newline :: nil)%list 133 0 131 134 true =
    Ok (Some (chars_ "..." ++ repeat "a"%char 58 ++ chars_ "bcd e", repeat space 61 ++ chars_ "~~~"))%list.
Proof. reflexivity. Qed.

Local Open Scope nat_scope.
Local Open Scope list_scope.

Lemma underline_wraps : forall b e off, (b < off)%N -> (off <= b + (2 ^ 32 - 129))%N -> (off < 2 ^ 32)%N -> underline b e off = UB.
Proof.
  intros b e off H1 H2 H3. unfold underline, u32. rewrite (N.mod_small (b + 2 ^ 32 - off)) by lia.
  destruct (N.ltb_spec 128 (b + 2 ^ 32 - off)); [reflexivity | lia].
Qed.

Lemma cut_fuel : forall l j, cut j l <> OutOfFuel.
Proof.
  induction l as [| [c |] l IH]; intros j; cbn; try discriminate. destruct (_ || _)%bool; [discriminate |].
  destruct (cut (S j) l) as [[? ?] | |] eqn:EC; cbn; try discriminate. intros _. exact (IH _ EC).
Qed.

(* C202.  A long wrong token far in its line makes the error report write out of the array: every
   token of 65 to 123 characters that ends at column 124 or later, on a line that ends with a newline,
   whatever the line. *)
Theorem error_long_token_refuted : forall before pre tok post rest,
  Forall inline (pre ++ tok ++ post) -> 65 <= length tok <= 123 -> 124 <= length pre + length tok ->
  (N.of_nat (length pre + length tok) < 2 ^ 32 - 1)%N ->
  report (before ++ (pre ++ tok ++ post) ++ newline :: rest) (length before + length pre + length tok) (length before)
      (N.of_nat (length pre) + 1) (N.of_nat (length pre + length tok) + 1) true = UB.
Proof.
  intros before pre tok post rest F L C Big. unfold report.
  set (P := N.of_nat (length pre)) in *. set (E := N.of_nat (length pre + length tok)) in *.
  destruct (N.ltb_spec 0 (E + 1)); [| lia]. destruct (N.ltb_spec (P + 1) (E + 1)); [| lia].
  destruct (N.leb_spec (E + 1 - (P + 1)) 123); [| lia]. cbn [andb].
  unfold get_line. replace (length before + length pre + length tok - length before) with (length pre + length tok) by lia.
  destruct (Nat.leb_spec 124 (length pre + length tok)) as [Far | Near]; [| lia].
  destruct (cut 0 _) as [[i buf] | |] eqn:EC; cbn [bind]; [| reflexivity |].
  - rewrite underline_wraps; [reflexivity | unfold P; lia | unfold P, E in *; lia | unfold P, E in *; lia].
  - exfalso. exact (cut_fuel _ _ EC).
Qed.
Print Assumptions error_long_token_refuted.

Example error_long_token_ex :
  Forall inline (repeat "a"%char 60 ++ repeat "b"%char 70 ++ []) /\
  report ([] ++ (repeat "a"%char 60 ++ repeat "b"%char 70 ++ []) ++ [newline]) 130 0 61 131 true = UB.
Proof.
  split; [| reflexivity]. rewrite app_nil_r. apply Forall_app.
  split; apply Forall_forall; intros c Hc; apply repeat_spec in Hc; subst c; repeat split; discriminate.
Qed.

(* C203.  An error on the last line of a file that does not end with a newline reads characters that
   were never written: every such line shorter than the array. *)
Theorem error_last_line_refuted : forall before pre tok post,
  Forall inline (pre ++ tok ++ post) -> 1 <= length tok -> length (pre ++ tok ++ post) < 124 ->
  report (before ++ pre ++ tok ++ post) (length before + length pre + length tok) (length before)
      (N.of_nat (length pre) + 1) (N.of_nat (length pre + length tok) + 1) true = UB.
Proof.
  intros before pre tok post F L C. rewrite !app_length in C. unfold report.
  set (P := N.of_nat (length pre)) in *. set (E := N.of_nat (length pre + length tok)) in *.
  destruct (N.ltb_spec 0 (E + 1)); [| lia]. destruct (N.ltb_spec (P + 1) (E + 1)); [| lia].
  destruct (N.leb_spec (E + 1 - (P + 1)) 123); [| lia]. cbn [andb].
  unfold get_line. replace (length before + length pre + length tok - length before) with (length pre + length tok) by lia.
  destruct (Nat.leb_spec 124 (length pre + length tok)) as [Far | Near]; [lia |].
  unfold read_at. rewrite skipn_past. rewrite firstn_all2 by (rewrite !app_length; lia).
  assert (K : 1 <= 128 - length (pre ++ tok ++ post)) by (rewrite !app_length; lia).
  destruct (128 - length (pre ++ tok ++ post)) as [| k]; [lia |]. cbn [repeat].
  assert (U : forall l j r, Forall inline l -> cut j (map Some l ++ None :: r) = UB).
  { clear. induction l as [| c l IH]; intros j r F; cbn; [reflexivity |]. inversion_clear F as [| ? ? Hc Hl].
    rewrite (inline_b c Hc), (IH _ r Hl). reflexivity. }
  rewrite (U _ _ _ F). reflexivity.
Qed.
Print Assumptions error_last_line_refuted.

Example error_last_line_ex :
  report (chars_ "width: 3x" ++ []) 9 0 9 10 true = UB.
Proof. reflexivity. Qed.

(* C204.  Nothing is shown and nothing is read or written for tokens that span lines or are longer
   than 123 characters. *)
Theorem error_not_shown : forall file cur last bcol ecol same,
  same = false \/ (123 < ecol - bcol)%N \/ (ecol <= bcol)%N -> report file cur last bcol ecol same = Ok None.
Proof.
  intros file cur last bcol ecol same H. unfold report.
  destruct (N.ltb_spec bcol ecol); destruct same; destruct (N.leb_spec (ecol - bcol) 123); cbn [andb]; try reflexivity.
  destruct H as [H | [H | H]]; [discriminate | lia | lia].
Qed.
Print Assumptions error_not_shown.

Example error_not_shown_ex : report (chars_ "ab") 2 0 1 200 true = Ok None.
Proof. reflexivity. Qed.

(* -- positions -- *)

Definition text_of (l : lexeme) : list ascii := match l with Token t | Blank t => t | Line => [newline] end.
Definition source (ls : list lexeme) : list ascii := concat (map text_of ls).
(* the number of newlines of a text *)
Definition lines_in (t : list ascii) : N := N.of_nat (count_occ ascii_dec t newline).
(* no newline inside a token or a comment *)
Definition one_line (l : lexeme) : Prop := match l with Token t | Blank t => ~ In newline t | Line => True end.
(* the last line of a text *)
Definition splits (t before pre : list ascii) : Prop :=
  t = before ++ pre /\ ~ In newline pre /\ (before = [] \/ exists b, before = b ++ [newline]).

Lemma splits_unique : forall t a b c d, splits t a b -> splits t c d -> a = c /\ b = d.
Proof.
  assert (W : forall a b c d, length b < length d -> splits (a ++ b) a b -> splits (a ++ b) c d -> False).
  { intros a b c d L (_ & Nb & Ha) (E & Nd & Hc). destruct Ha as [-> | (x & ->)].
    - apply (f_equal (@length _)) in E. rewrite !app_length in E. cbn in E. lia.
    - apply Nd. rewrite <- app_assoc in E. cbn in E.
      assert (D : exists y, d = y ++ newline :: b).
      { exists (skipn (length c) x). 
        assert (E2 := f_equal (skipn (length c)) E). rewrite skipn_past in E2. rewrite <- E2, skipn_app.
        assert (length c <= length x).
        { apply (f_equal (@length _)) in E. rewrite !app_length in E. cbn in E. lia. }
        replace (length c - length x) with 0 by lia. rewrite skipn_O. reflexivity. }
      destruct D as (y & ->). apply in_or_app. right. left. reflexivity. }
  intros t a b c d H1 H2.
  assert (L : length b = length d).
  { destruct (Nat.lt_trichotomy (length b) (length d)) as [L | [L | L]]; [exfalso | exact L | exfalso].
    - destruct H1 as (E1 & H1). subst t. apply (W a b c d L); [split; [reflexivity | exact H1] | exact H2].
    - destruct H2 as (E1 & H2). subst t. apply (W c d a b L); [split; [reflexivity | exact H2] | exact H1]. }
  destruct H1 as (E1 & _). destruct H2 as (E2 & _). rewrite E1 in E2.
  assert (La : length a = length c) by (apply (f_equal (@length _)) in E2; rewrite !app_length in E2; lia).
  revert c La E2. clear - L. induction a as [| x a IH]; intros [| y c] La E; try discriminate La.
  - split; [reflexivity | exact E].
  - cbn in E, La. injection La as La. injection E as -> E. destruct (IH c La E) as [-> ->]. split; reflexivity.
Qed.

Lemma source_snoc : forall ls l, source (ls ++ [l]) = source ls ++ text_of l.
Proof. intros. unfold source. rewrite map_app, concat_app. cbn. rewrite app_nil_r. reflexivity. Qed.

Lemma lines_in_app : forall a b, lines_in (a ++ b) = (lines_in a + lines_in b)%N.
Proof. intros. unfold lines_in. rewrite count_occ_app. lia. Qed.

Lemma lines_in_none : forall t, ~ In newline t -> lines_in t = 0%N.
Proof. intros t H. unfold lines_in. apply count_occ_not_In with (eq_dec := ascii_dec) in H. rewrite H. reflexivity. Qed.

(* where the lexer is after some lexemes of one line each, starting at a column c0 of a line n0 *)
Lemma lex_inv : forall c0 n0 r0 ls, Forall one_line ls ->
  let x0 := {| begin_line := n0; begin_col := c0; end_line := n0; end_col := c0; cur_pos := 0; last_pos := 0; ret := r0 |} in
  let x := lex x0 ls in
  exists before pre, splits (source ls) before pre /\
    end_line x = (n0 + lines_in (source ls))%N /\ last_pos x = length before /\ cur_pos x = length (source ls) /\
    end_col x = (N.of_nat (length pre) + (if match before with [] => true | _ => false end then c0 else 1))%N /\
    (ret x = false -> begin_col x = end_col x /\ begin_line x = end_line x).
Proof.
  intros c0 n0 r0 ls. induction ls as [| l ls IH] using rev_ind; intros F x0 x.
  - exists [], []. unfold x, x0. cbn. repeat split; try reflexivity; try lia; try tauto.
  - apply Forall_app in F. destruct F as [F Fl]. inversion_clear Fl as [| ? ? Hl _].
    specialize (IH F). cbv zeta in IH. fold x0 in IH. destruct IH as (before & pre & (SP & NP & BP) & EL & LP & CP & EC & RB).
    assert (X : x = advance (lex x0 ls) l) by (unfold x, lex; rewrite fold_left_app; reflexivity).
    set (y := lex x0 ls) in *.
    assert (Hy : exists bl bc, (if ret y then step y else y) = {| begin_line := bl; begin_col := bc; end_line := end_line y; end_col := end_col y;
      cur_pos := cur_pos y; last_pos := last_pos y; ret := false |}).
    { destruct (ret y) eqn:RE.
      - eexists. eexists. reflexivity.
      - exists (begin_line y), (begin_col y). destruct y. cbn in RE |- *. subst. reflexivity. }
    destruct Hy as (bl & bc & Hy). rewrite source_snoc, lines_in_app, app_length.
    destruct l as [t | t |]; cbn [one_line text_of] in *.
    + exists before, (pre ++ t). split; [| rewrite X; unfold advance; rewrite Hy; cbn].
      { split; [rewrite SP, app_assoc; reflexivity |]. split; [| exact BP]. intros H. apply in_app_or in H. tauto. }
      rewrite (lines_in_none t Hl), EL, LP, CP, EC, app_length. repeat split; try lia; try discriminate.
    + exists before, (pre ++ t). split; [| rewrite X; unfold advance; rewrite Hy; cbn].
      { split; [rewrite SP, app_assoc; reflexivity |]. split; [| exact BP]. intros H. apply in_app_or in H. tauto. }
      rewrite (lines_in_none t Hl), EL, LP, CP, EC, app_length. repeat split; try lia.
    + exists (source ls ++ [newline]), []. split; [| rewrite X; unfold advance; rewrite Hy; cbn].
      { split; [rewrite app_nil_r; reflexivity |]. split; [intros [] |]. right. exists (source ls). reflexivity. }
      rewrite EL, CP, !app_length. change (lines_in [newline]) with 1%N. cbn [length].
      replace (match source ls ++ [newline] with [] => true | _ => false end) with false by (destruct (source ls); reflexivity).
      repeat split; try lia.
Qed.

(* C205.  An error in the main configuration file is reported at the line of the wrong token, and the
   token is underlined in that line: for every file, wherever the token is, if the line ends with a
   newline and the token ends before column 124 or has at most 61 characters. *)
Theorem error_main_file : forall ls before pre tok post rest,
  Forall one_line ls -> splits (source ls) before pre ->
  Forall inline (pre ++ tok ++ post) -> 1 <= length tok <= 123 ->
  length pre + length tok < 124 \/ length tok <= 61 -> (N.of_nat (length pre + length tok) < 2 ^ 32 - 1)%N ->
  exists s k, error_at (source ls ++ tok ++ post ++ newline :: rest) (lex first_lexer (ls ++ [Token tok])) =
      ((1 + lines_in (source ls))%N, Ok (Some (s, repeat space k ++ repeat tilde (length tok)))) /\
    firstn (length tok) (skipn k s) = tok /\
    (length (pre ++ tok ++ post) < 124 -> s = pre ++ tok ++ post).
Proof.
  intros ls before pre tok post rest F SP I L C Big.
  destruct (error_underlines_token before pre tok post rest I L C Big) as (s & k & R & T & S).
  exists s, k. split; [| split; assumption].
  destruct (lex_inv 1 1 false ls F) as (b2 & p2 & SP2 & EL & LP & CP & EC & RB). fold first_lexer in EL, LP, CP, EC, RB.
  destruct (splits_unique _ _ _ _ _ SP SP2) as [<- <-].
  replace (source ls ++ tok ++ post ++ newline :: rest) with (before ++ (pre ++ tok ++ post) ++ newline :: rest).
  2: { rewrite (proj1 SP), <- !app_assoc. reflexivity. }
  assert (EC' : end_col (lex first_lexer ls) = (N.of_nat (length pre) + 1)%N) by (rewrite EC; destruct before; reflexivity).
  assert (CP' : cur_pos (lex first_lexer ls) = length before + length pre) by (rewrite CP, (proj1 SP), app_length; reflexivity).
  unfold lex. rewrite fold_left_app. fold (lex first_lexer ls). cbn [fold_left].
  set (y := lex first_lexer ls) in *.
  assert (Hy : (if ret y then step y else y) = {| begin_line := end_line y; begin_col := end_col y; end_line := end_line y; end_col := end_col y;
      cur_pos := cur_pos y; last_pos := last_pos y; ret := false |}).
  { destruct (ret y) eqn:RE; [reflexivity |]. destruct (RB eq_refl) as [B1 B2]. destruct y. cbn in *. subst. reflexivity. }
  unfold advance. rewrite Hy. unfold error_at. cbn [end_line begin_line cur_pos last_pos begin_col end_col matched].
  rewrite EL, N.eqb_refl, CP', LP, EC'. f_equal.
  replace (N.of_nat (length pre) + 1 + N.of_nat (length tok))%N with (N.of_nat (length pre + length tok) + 1)%N by lia.
  exact R.
Qed.
Print Assumptions error_main_file.

Example error_main_file_ex :
  let ls := [Blank (chars_ "# scene"); Line; Token (chars_ "width"); Token (chars_ ":"); Blank (chars_ " ")] in
  Forall one_line ls /\ splits (source ls) (chars_ "# scene" ++ [newline]) (chars_ "width: ") /\
  error_at (source ls ++ chars_ "red" ++ [] ++ newline :: chars_ "x") (lex first_lexer (ls ++ [Token (chars_ "red")])) =
    (2%N, Ok (Some (chars_ "width: red", chars_ "       ~~~"))).
Proof.
  cbv zeta. split; [| split; [| reflexivity]].
  - repeat (apply Forall_cons; [cbn; intuition discriminate |]). apply Forall_nil.
  - split; [reflexivity |]. split; [cbn; intuition discriminate |]. right. exists (chars_ "# scene"). reflexivity.
Qed.

(* C206.  An error in a child file is reported at a line of the child that is too far by the number of
   lines of the main file: whenever the main file has a newline. *)
Theorem error_child_line_refuted : forall main ls tok file,
  Forall one_line main -> Forall one_line ls -> In Line main ->
  let x := lex (scan_begin (lex first_lexer main)) (ls ++ [Token tok]) in
  fst (error_at file x) = (1 + lines_in (source ls) + lines_in (source main))%N /\
  fst (error_at file x) <> (1 + lines_in (source ls))%N.
Proof.
  intros main ls tok file Fm Fl Hm x.
  destruct (lex_inv 1 1 false main Fm) as (b1 & p1 & _ & EL1 & _). fold first_lexer in EL1.
  assert (G : end_line x = (1 + lines_in (source ls) + lines_in (source main))%N).
  { unfold x. set (y0 := lex first_lexer main) in *. unfold lex. rewrite fold_left_app. fold (lex (scan_begin y0) ls). cbn [fold_left].
    assert (A : forall y l, one_line l -> end_line (advance y l) = (end_line y + lines_in (text_of l))%N).
    { intros y [t | t |] O; unfold advance; destruct (ret y); cbn in O |- *; try (rewrite lines_in_none by exact O; lia); change (lines_in [newline]) with 1%N; lia. }
    assert (B : forall ls y, Forall one_line ls -> end_line (lex y ls) = (end_line y + lines_in (source ls))%N).
    { clear - A. induction ls as [| l ls IH]; intros y F; [cbn; unfold lines_in; cbn; lia |]. inversion_clear F as [| ? ? O F'].
      unfold lex. cbn [fold_left]. fold (lex (advance y l) ls). rewrite (IH _ F'), (A _ _ O). unfold source. cbn [map concat].
      rewrite lines_in_app. unfold source. lia. }
    assert (T : forall y, end_line (advance y (Token tok)) = end_line y) by (intros y; unfold advance; destruct (ret y); reflexivity).
    rewrite T, (B _ _ Fl). cbn [scan_begin end_line]. rewrite EL1. lia. }
  cbn [fst error_at]. split; [exact G |]. rewrite G.
  assert (1 <= lines_in (source main))%N.
  { apply in_split in Hm. destruct Hm as (a & b & ->). unfold source. rewrite map_app, concat_app. cbn. rewrite lines_in_app.
    change (newline :: concat (map text_of b)) with ([newline] ++ concat (map text_of b)). rewrite lines_in_app.
    change (lines_in [newline]) with 1%N. lia. }
  lia.
Qed.
Print Assumptions error_child_line_refuted.

Example error_child_line_ex :
  fst (error_at (chars_ "wrong") (lex (scan_begin (lex first_lexer [Token (chars_ "children"); Line; Line])) ([] ++ [Token (chars_ "wrong")]))) = 3%N.
Proof. reflexivity. Qed.

(* C207.  A text in quotes that contains newlines shifts the line numbers of all later errors. *)
Theorem error_after_long_text_refuted : forall pre q ls tok file,
  Forall one_line pre -> Forall one_line ls -> In newline q ->
  let x := lex first_lexer (pre ++ Token q :: ls ++ [Token tok]) in
  (fst (error_at file x) < 1 + lines_in (source (pre ++ Token q :: ls)))%N.
Proof.
  intros pre q ls tok file Fp Fl Hq x. cbn [fst error_at]. unfold x, lex. rewrite fold_left_app. cbn [fold_left]. rewrite fold_left_app.
  cbn [fold_left].
  assert (A : forall y l, one_line l -> end_line (advance y l) = (end_line y + lines_in (text_of l))%N).
  { intros y [t | t |] O; unfold advance; destruct (ret y); cbn in O |- *; try (rewrite lines_in_none by exact O; lia); change (lines_in [newline]) with 1%N; lia. }
  assert (B : forall ls y, Forall one_line ls -> end_line (fold_left advance ls y) = (end_line y + lines_in (source ls))%N).
  { clear - A. induction ls as [| l ls IH]; intros y F; [cbn; unfold lines_in; cbn; lia |]. inversion_clear F as [| ? ? O F'].
    cbn [fold_left]. rewrite (IH _ F'), (A _ _ O). unfold source. cbn [map concat].
    rewrite lines_in_app. unfold source. lia. }
  assert (T : forall y t, end_line (advance y (Token t)) = end_line y) by (intros y t; unfold advance; destruct (ret y); reflexivity).
  rewrite T, (B _ _ Fl), T, (B _ _ Fp). cbn [first_lexer end_line].
  unfold source. rewrite map_app, concat_app. cbn [map concat text_of]. rewrite !lines_in_app.
  assert (1 <= lines_in q)%N.
  { unfold lines_in. apply count_occ_In with (eq_dec := ascii_dec) in Hq. lia. }
  lia.
Qed.
Print Assumptions error_after_long_text_refuted.

Example error_after_long_text_ex :
  fst (error_at (chars_ "x") (lex first_lexer ([] ++ Token (newline :: newline :: nil) :: [Line] ++ [Token (chars_ "x")]))) = 2%N.
Proof. reflexivity. Qed.

(* C208.  If the main file does not end with a newline and its last line has at least 128 characters,
   every shown error on the first line of the first child writes out of the array or reads characters
   never written. *)
Theorem error_child_column_refuted : forall main before last pre tok file,
  Forall one_line main -> splits (source main) before last -> 128 <= length last ->
  Forall one_line pre -> ~ In Line pre -> 1 <= length tok <= 123 ->
  (N.of_nat (length last + length (source pre) + length tok) < 2 ^ 32 - 1)%N ->
  snd (error_at file (lex (scan_begin (lex first_lexer main)) (pre ++ [Token tok]))) = UB.
Proof.
  intros main before last pre tok file Fm SP L Fp NL LT Big.
  destruct (lex_inv 1 1 false main Fm) as (b1 & p1 & SP1 & _ & _ & _ & EC1 & _). fold first_lexer in EC1.
  destruct (splits_unique _ _ _ _ _ SP SP1) as [<- <-].
  assert (EC1' : end_col (lex first_lexer main) = (N.of_nat (length last) + 1)%N) by (rewrite EC1; destruct before; reflexivity).
  set (y := lex first_lexer main) in *.
  set (x0 := {| begin_line := end_line y; begin_col := end_col y; end_line := end_line y; end_col := end_col y; cur_pos := 0; last_pos := 0; ret := true |}).
  assert (EQ : lex (scan_begin y) (pre ++ [Token tok]) = lex x0 (pre ++ [Token tok])) by (destruct pre; reflexivity).
  rewrite EQ. destruct (lex_inv (end_col y) (end_line y) true pre Fp) as (b2 & p2 & SP2 & EL & LP & CP & EC & RB). fold x0 in EL, LP, CP, EC, RB.
  assert (NN : ~ In newline (source pre)).
  { unfold source. rewrite in_concat. intros (t & Ht & Hn). apply in_map_iff in Ht. destruct Ht as (l & <- & Hl).
    rewrite Forall_forall in Fp. specialize (Fp l Hl). destruct l; cbn in *; tauto. }
  assert (B2 : b2 = [] /\ p2 = source pre).
  { apply (splits_unique (source pre)); [exact SP2 |]. split; [reflexivity |]. split; [exact NN | left; reflexivity]. }
  destruct B2 as [-> ->]. cbv iota in EC. cbn [length] in LP.
  unfold lex. rewrite fold_left_app. fold (lex x0 pre). cbn [fold_left]. set (z := lex x0 pre) in *.
  assert (Hz : (if ret z then step z else z) = {| begin_line := end_line z; begin_col := end_col z; end_line := end_line z; end_col := end_col z;
      cur_pos := cur_pos z; last_pos := last_pos z; ret := false |}).
  { destruct (ret z) eqn:RE; [reflexivity |]. destruct (RB eq_refl) as [B1 B2]. destruct z. cbn in *. subst. reflexivity. }
  unfold advance. rewrite Hz. unfold error_at. cbn [snd end_line begin_line cur_pos last_pos begin_col end_col matched].
  rewrite N.eqb_refl, CP, LP, EC, EC1'. unfold report.
  set (c := (N.of_nat (length (source pre)) + (N.of_nat (length last) + 1))%N). set (n := N.of_nat (length tok)).
  destruct (N.ltb_spec 0 (c + n)); [| unfold n in *; lia]. destruct (N.ltb_spec c (c + n)); [| unfold n in *; lia].
  destruct (N.leb_spec (c + n - c) 123); [| unfold n in *; lia]. cbn [andb].
  assert (U : forall b e off, (off + 128 <= e)%N -> (e < 2 ^ 32)%N -> underline b e off = UB).
  { clear. intros b e off H1 H2. unfold underline, u32.
    replace (e + 2 ^ 32 - off)%N with (e - off + 1 * 2 ^ 32)%N by lia. rewrite N.mod_add by lia. rewrite (N.mod_small (e - off)) by lia.
    destruct (128 <? _)%N; [reflexivity |]. destruct (_ && _)%bool; [reflexivity |].
    destruct (N.leb_spec 128 (e - off)); [reflexivity | lia]. }
  unfold get_line. replace (length (source pre) + length tok - 0) with (length (source pre) + length tok) by lia.
  destruct (Nat.leb_spec 124 (length (source pre) + length tok)).
  all: destruct (cut 0 _) as [[i buf] | |] eqn:CU; cbn [bind]; [| reflexivity | exfalso; exact (cut_fuel _ _ CU)].
  all: rewrite U; [reflexivity | unfold c, n; lia | unfold c, n; lia].
Qed.
Print Assumptions error_child_column_refuted.

Example error_child_column_ex :
  snd (error_at (chars_ "wrong" ++ [newline]) (lex (scan_begin (lex first_lexer [Blank (repeat "#"%char 128)])) ([] ++ [Token (chars_ "wrong")]))) = UB.
Proof. reflexivity. Qed.
