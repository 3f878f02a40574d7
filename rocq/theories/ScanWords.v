(* Proofs about the scanner: one step of it, words and symbols. *)
From Coq Require Import QArith Qreduction.
From Verif Require Import Common PathModel PathSpec DriverModel ScanModel ScanSpec.
Local Open Scope nat_scope.

Lemma forall2_len_scan {A B} (R : A -> B -> Prop) l m : Forall2 R l m -> List.length l = List.length m.
Proof. induction 1; simpl; congruence. Qed.

(* ---- steps ---- *)

Lemma prepend_app a b r : prepend a (prepend b r) = prepend (a ++ b) r.
Proof. destruct r as [[r|]| |]; simpl; rewrite ?app_assoc; reflexivity. Qed.
Lemma prepend_nil r : prepend [] r = r.
Proof. destruct r as [[r|]| |]; reflexivity. Qed.

Lemma better_ge s b r : fst b <= fst (better s b r).
Proof. unfold better. destruct (fst b <? _) eqn:E; simpl; [apply Nat.ltb_lt in E; lia | lia]. Qed.
Lemma better_len s b r : match_len (fst r) s <= fst (better s b r).
Proof. unfold better. destruct (fst b <? _) eqn:E; simpl; [lia | apply Nat.ltb_ge in E; lia]. Qed.
Lemma fold_ge s rs : forall b, fst b <= fst (fold_left (better s) rs b).
Proof. induction rs as [|r rs IH]; intros b; simpl; [lia|]. eapply Nat.le_trans; [apply (better_ge s b r)|apply IH]. Qed.
Lemma fold_len s rs r : In r rs -> forall b, match_len (fst r) s <= fst (fold_left (better s) rs b).
Proof.
  induction rs as [|r' rs IH]; intros H b; [destruct H|]. destruct H as [-> | H]; simpl.
  - eapply Nat.le_trans; [apply (better_len s b r)|apply fold_ge].
  - apply IH, H.
Qed.
Lemma fold_none s rs : forallb (fun r => match_len (fst r) s =? 0) rs = true ->
  forall b, fold_left (better s) rs b = b.
Proof.
  induction rs as [|r rs IH]; intros H b; simpl in *; [reflexivity|].
  apply andb_prop in H. destruct H as [H1 H2]. apply Nat.eqb_eq in H1. unfold better at 2. rewrite H1.
  simpl. apply IH, H2.
Qed.

Lemma longest_pos s : s <> [] -> 1 <= fst (longest rules s).
Proof.
  intros H. destruct s as [|c s]; [contradiction|]. unfold longest.
  destruct (c =? newline)%char eqn:E.
  - pose proof (fold_len (c :: s) rules (PNewline, Skip)) as K. simpl match_len in K. rewrite E in K. apply K.
    unfold rules. rewrite !in_app_iff. right. right. right. simpl. auto.
  - pose proof (fold_len (c :: s) rules (PAny, Refuse)) as K. simpl match_len in K. rewrite E in K. apply K.
    unfold rules. rewrite !in_app_iff. right. right. right. simpl. auto.
Qed.

Lemma scan_enough : forall f s, List.length s <= f -> scan_from f s = scan s.
Proof.
  assert (K : forall f g s, List.length s <= f -> List.length s <= g -> scan_from f s = scan_from g s).
  { induction f as [|f IH]; intros g s Hf Hg.
    - destruct s; [|simpl in Hf; lia]. destruct g; reflexivity.
    - destruct s as [|c s]; [destruct g; reflexivity|]. destruct g as [|g]; [simpl in Hg; lia|].
      cbn [scan_from]. pose proof (longest_pos (c :: s) ltac:(discriminate)) as P.
      destruct (longest rules (c :: s)) as [n a]. simpl fst in P.
      destruct (perform a _) as [[t|]| |]; cbn [bind]; try reflexivity.
      rewrite (IH g); [reflexivity| |]; rewrite skipn_length; simpl List.length in *; lia. }
  intros f s H. apply K; [exact H|lia].
Qed.

Lemma scan_step s n a : s <> [] -> longest rules s = (n, a) ->
  scan s = (let! t := perform a (firstn n s) in
            match t with None => Ok None | Some t => prepend t (scan (skipn n s)) end).
Proof.
  intros H E. pose proof (longest_pos s H) as P. rewrite E in P. simpl in P. unfold scan at 1.
  destruct s as [|c s]; [contradiction|]. simpl List.length at 1. cbn [scan_from]. rewrite E.
  destruct (perform a _) as [[t|]| |]; cbn [bind]; try reflexivity.
  rewrite scan_enough; [reflexivity|]. rewrite skipn_length. cbn [List.length]. lia.
Qed.

Lemma scan_word w s a t : w <> [] -> longest rules (w ++ s) = (List.length w, a) -> perform a w = Ok (Some t) ->
  scan (w ++ s) = prepend t (scan s).
Proof.
  intros H E P. assert (N : w ++ s <> []) by (destruct w; [contradiction|discriminate]).
  rewrite (scan_step _ _ _ N E).
  rewrite firstn_app, firstn_all, Nat.sub_diag, app_nil_r, P. cbn [bind].
  rewrite skipn_app, skipn_all, Nat.sub_diag. reflexivity.
Qed.

(* ---- spans ---- *)

Definition stops (p : ascii -> bool) (s : text) : Prop := match s with [] => True | c :: _ => p c = false end.

Lemma span_app p l s : Forall (fun c => p c = true) l -> stops p s -> span p (l ++ s) = List.length l.
Proof.
  induction l as [|c l IH]; intros H K; simpl.
  - destruct s; simpl in *; [reflexivity|]. rewrite K. reflexivity.
  - apply Forall_cons_iff in H. destruct H as [H1 H2]. rewrite H1, IH; auto.
Qed.
Lemma span_all p l : Forall (fun c => p c = true) l -> span p l = List.length l.
Proof. intros H. rewrite <- (app_nil_r l) at 1. apply span_app; [exact H|exact I]. Qed.
Lemma span_none p s : stops p s -> span p s = 0.
Proof. destruct s; simpl; [reflexivity|]. intros ->. reflexivity. Qed.
Lemma skipn_len_app {A} (l s : list A) : skipn (List.length l) (l ++ s) = s.
Proof. rewrite skipn_app, skipn_all, Nat.sub_diag. reflexivity. Qed.
Lemma firstn_len_app {A} (l s : list A) : firstn (List.length l) (l ++ s) = l.
Proof. rewrite firstn_app, firstn_all, Nat.sub_diag. apply app_nil_r. Qed.

Lemma breaks_cases c : breaks c ->
  In c [" "; tab; newline; return_; "#"; ":"; "["; "]"; "{"; "}"; ","; quote; apostrophe]%char.
Proof. unfold breaks, blank, line_end. simpl. intuition. Qed.

Ltac each_break H := apply breaks_cases in H; simpl in H;
  repeat (destruct H as [<- | H]); [.. | destruct H].

Lemma digit_char_digit d : d < 10 -> is_digit (digit_char d) = true.
Proof. intros H. do 10 (destruct d; [reflexivity|]). lia. Qed.
Lemma digits_are ds : Forall (fun d => d < 10) ds -> Forall (fun c => is_digit c = true) (digits ds).
Proof. induction 1; simpl; constructor; auto using digit_char_digit. Qed.
Lemma digits_len ds : List.length (digits ds) = List.length ds.
Proof. apply map_length. Qed.
Lemma digit_char_value d : d < 10 -> digit_value (digit_char d) = Z.of_nat d.
Proof. intros H. do 10 (destruct d; [reflexivity|]). lia. Qed.

Lemma digits_value_acc ds : Forall (fun d => d < 10) ds -> forall a,
  fold_left (fun a c => 10 * a + digit_value c)%Z (digits ds) a = (a * 10 ^ Z.of_nat (List.length ds) + decimal ds)%Z.
Proof.
  induction 1 as [|d ds H F IH]; intros a.
  - simpl. lia.
  - change (digits (d :: ds)) with (digit_char d :: digits ds). cbn [fold_left]. rewrite IH, digit_char_value by exact H.
    cbn [List.length decimal]. rewrite Nat2Z.inj_succ, Z.pow_succ_r by lia. ring.
Qed.
Lemma digits_value_decimal ds : Forall (fun d => d < 10) ds -> digits_value (digits ds) = decimal ds.
Proof. intros H. unfold digits_value. rewrite digits_value_acc by exact H. lia. Qed.
Lemma decimal_app a b : decimal (a ++ b) = (decimal a * 10 ^ Z.of_nat (List.length b) + decimal b)%Z.
Proof.
  induction a as [|d a IH]; cbn [decimal app]; [lia|]. rewrite IH, app_length, Nat2Z.inj_add, Z.pow_add_r by lia. ring.
Qed.
Lemma decimal_nonneg ds : (0 <= decimal ds)%Z.
Proof. induction ds as [|d ds IH]; cbn [decimal]; [lia|]. pose proof (Z.pow_nonneg 10 (Z.of_nat (List.length ds))). nia. Qed.

(* ---- words ---- *)

(* a word is matched as if nothing came after it *)
Definition breaksb (c : ascii) : bool :=
  existsb (Ascii.eqb c) [" "; tab; newline; return_; "#"; ":"; "["; "]"; "{"; "}"; ","; quote; apostrophe]%char.
Lemma breaks_b c : breaks c -> breaksb c = true.
Proof. intros H. each_break H; reflexivity. Qed.
Definition is_letter (c : ascii) : bool :=
  let n := nat_of_ascii c in ((65 <=? n) && (n <=? 90)) || ((97 <=? n) && (n <=? 122)).

(* no literal continues the word with a character that ends words *)
Definition safe (w : text) (p : pattern) : bool :=
  match p with
  | Lit l => negb (prefix w l && match skipn (List.length w) l with c :: _ => breaksb c | [] => false end)
  | NoCase l => forallb is_letter l
  | _ => true
  end.

Lemma prefix_word w : forall l s, separate s -> safe w (Lit l) = true -> prefix l (w ++ s) = prefix l w.
Proof.
  induction w as [|b w IH]; intros l s S H; destruct l as [|a l]; try reflexivity.
  - destruct s as [|c s]; [reflexivity|]. cbn [app prefix]. simpl in S. apply breaks_b in S.
    destruct (a =? c)%char eqn:E; [|reflexivity]. apply Ascii.eqb_eq in E. subst a.
    cbn [safe prefix List.length skipn] in H. rewrite S in H. discriminate.
  - cbn [app prefix]. destruct (a =? b)%char eqn:E; [|reflexivity]. cbn [andb]. apply IH; [exact S|].
    apply Ascii.eqb_eq in E. subst b. cbn [safe prefix List.length skipn] in *. rewrite Ascii.eqb_refl in H. exact H.
Qed.
Lemma prefix_nocase_word w : forall l s, separate s -> forallb is_letter l = true -> prefix_nocase l (w ++ s) = prefix_nocase l w.
Proof.
  induction w as [|b w IH]; intros l s S H; destruct l as [|a l]; try reflexivity.
  - destruct s as [|c s]; [reflexivity|]. cbn [app prefix_nocase]. simpl in S.
    destruct (a =? lower c)%char eqn:E; [|reflexivity]. apply Ascii.eqb_eq in E. subst a.
    cbn [forallb] in H. each_break S; discriminate H.
  - cbn [app prefix_nocase]. destruct (a =? lower b)%char eqn:E; [|reflexivity]. cbn [andb]. apply IH; [exact S|].
    cbn [forallb] in H. apply andb_prop in H. apply H.
Qed.

Lemma letter_not c d : is_letter c = true -> is_letter d = false -> (c =? d)%char = false.
Proof. intros H K. apply Ascii.eqb_neq. intros ->. congruence. Qed.
Lemma letter_no_digit c : is_letter c = true -> is_digit c = false.
Proof.
  intros H. destruct (is_digit c) eqn:D; [|reflexivity]. unfold is_digit in D. unfold is_letter in H.
  apply andb_prop in D. destruct D as [A B]. apply Nat.leb_le in A. apply Nat.leb_le in B.
  apply orb_prop in H. destruct H as [H|H]; apply andb_prop in H; destruct H as [X Y]; apply Nat.leb_le in X; lia.
Qed.

Lemma match_word c w s p : is_letter c = true -> separate s -> safe (c :: w) p = true ->
  match_len p ((c :: w) ++ s) = match_len p (c :: w).
Proof.
  intros L S H. destruct p.
  - cbn [match_len]. rewrite prefix_word by assumption. reflexivity.
  - cbn [match_len]. rewrite prefix_nocase_word by assumption. reflexivity.
  - cbn [app match_len]. rewrite (letter_not c "+") by auto. cbn [span]. rewrite letter_no_digit by exact L. reflexivity.
  - cbn [app match_len]. rewrite (letter_not c "-") by auto. reflexivity.
  - cbn [app match_len]. unfold float_len, sign_len, is_sign. rewrite (letter_not c "+"), (letter_not c "-") by auto. cbn [orb skipn].
    unfold mantissa_len. cbn [span]. rewrite letter_no_digit by exact L. cbn [skipn]. rewrite (letter_not c ".") by auto. reflexivity.
  - cbn [app match_len]. rewrite (letter_not c quote), (letter_not c apostrophe) by auto. reflexivity.
  - cbn [app match_len]. rewrite (letter_not c "#") by auto. reflexivity.
  - reflexivity.
  - reflexivity.
  - reflexivity.
Qed.

Lemma fold_same s t rs : Forall (fun r => match_len (fst r) s = match_len (fst r) t) rs ->
  forall b, fold_left (better s) rs b = fold_left (better t) rs b.
Proof.
  induction 1 as [|r rs H F IH]; intros b; [reflexivity|]. cbn [fold_left]. rewrite IH. f_equal. unfold better. rewrite H. reflexivity.
Qed.

Definition safe_word (w : text) : bool :=
  match w with c :: _ => is_letter c && forallb (fun r => safe w (fst r)) rules | [] => false end.
Lemma longest_word w s : safe_word w = true -> separate s -> longest rules (w ++ s) = longest rules w.
Proof.
  intros H S. destruct w as [|c w]; [discriminate|]. cbn [safe_word] in H. apply andb_prop in H. destruct H as [L H].
  unfold longest. apply fold_same. apply Forall_forall. intros r I. rewrite forallb_forall in H. apply match_word; auto.
Qed.

Lemma word_matched k w s : In w (spellings k) -> separate s -> longest rules (w ++ s) = (List.length w, Return (Kw k)).
Proof.
  intros H S. rewrite longest_word; [|clear S|exact S].
  - destruct k; simpl in H; repeat (destruct H as [<- | H]); try destruct H; vm_compute; reflexivity.
  - destruct k; simpl in H; repeat (destruct H as [<- | H]); try destruct H; vm_compute; reflexivity.
Qed.

Lemma nat_ascii_inj a b : nat_of_ascii a = nat_of_ascii b -> a = b.
Proof. intros H. rewrite <- (ascii_nat_embedding a), <- (ascii_nat_embedding b), H. reflexivity. Qed.

(* a symbol is an upper case letter and perhaps a lower case one *)
Lemma same_upper a b : upper a -> same_letter a b -> b = a \/ b = ascii_of_nat (nat_of_ascii a + 32).
Proof.
  unfold same_letter, upper. intros H [E | [[_ E] | [K E]]]; [auto| |lia].
  right. rewrite E, ascii_nat_embedding. reflexivity.
Qed.
Lemma same_lower a b : 97 <= nat_of_ascii a <= 122 -> same_letter a b -> b = a \/ b = ascii_of_nat (nat_of_ascii a - 32).
Proof.
  unfold same_letter, upper. intros H [E | [[K E] | [_ E]]]; [auto|lia|].
  right. rewrite <- E, Nat.add_sub, ascii_nat_embedding. reflexivity.
Qed.

(* both cases of every letter of a symbol *)
Definition cases (c : ascii) : list ascii :=
  let n := nat_of_ascii c in
  if n <=? 90 then [c; ascii_of_nat (n + 32)] else [c; ascii_of_nat (n - 32)].
Fixpoint all_cases (w : text) : list text :=
  match w with
  | [] => [[]]
  | c :: w => flat_map (fun d => map (cons d) (all_cases w)) (cases c)
  end.

Lemma all_cases_of sym w : forallb is_letter sym = true -> Forall2 same_letter sym w -> In w (all_cases sym).
Proof.
  intros L H. induction H as [|a b sym w S H IH]; simpl; [auto|].
  simpl in L. apply andb_prop in L. destruct L as [L1 L2].
  apply in_flat_map. exists b. split; [|apply in_map, IH, L2].
  assert (U : 65 <= nat_of_ascii a <= 90 \/ 97 <= nat_of_ascii a <= 122).
  { unfold is_letter in L1. apply orb_prop in L1. destruct L1 as [L1|L1]; apply andb_prop in L1; destruct L1 as [X Y];
      apply Nat.leb_le in X; apply Nat.leb_le in Y; lia. }
  unfold cases. destruct (nat_of_ascii a <=? 90) eqn:E.
  - apply Nat.leb_le in E. destruct (same_upper a b ltac:(unfold upper; lia) S) as [-> | ->]; simpl; auto.
  - apply Nat.leb_gt in E. destruct (same_lower a b ltac:(lia) S) as [-> | ->]; simpl; auto.
Qed.

Lemma element_matched n sym w s : nth_error symbols n = Some sym -> Forall2 same_letter sym w -> separate s ->
  longest rules (w ++ s) = (List.length w, Return (Element n)).
Proof.
  intros N F S.
  assert (L : forallb is_letter sym = true).
  { assert (A : forallb (forallb is_letter) symbols = true) by (vm_compute; reflexivity).
    rewrite forallb_forall in A. apply A, (nth_error_In _ _ N). }
  apply all_cases_of in F; [|exact L]. clear L.
  rewrite longest_word; [|clear S|exact S].
  - do 29 (destruct n as [|n]; [injection N as <-; vm_compute in F; repeat (destruct F as [<- | F]); try destruct F; vm_compute; reflexivity|]).
    destruct n; discriminate.
  - do 29 (destruct n as [|n]; [injection N as <-; vm_compute in F; repeat (destruct F as [<- | F]); try destruct F; vm_compute; reflexivity|]).
    destruct n; discriminate.
Qed.
