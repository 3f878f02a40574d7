(* Proofs about the scanner: numbers, strings, blanks and comments. *)
From Coq Require Import QArith Qreduction Qpower.
From Verif Require Import Common PathModel PathSpec DriverModel ScanModel ScanSpec ScanWords.
Local Open Scope nat_scope.

(* ---- numbers ---- *)

Definition number_heads : list ascii := ["0"; "1"; "2"; "3"; "4"; "5"; "6"; "7"; "8"; "9"; "+"; "-"; "."]%char.

Lemma number_rules c r : In c number_heads ->
  longest rules (c :: r) =
  fold_left (better (c :: r)) [(PUint, ReturnUint); (PInt, ReturnInt); (PFloat, ReturnFloat); (PAny, Refuse)] (0, Refuse).
Proof.
  intros H. unfold longest, rules. rewrite !fold_left_app.
  rewrite (fold_none (c :: r) words) by
    (simpl in H; repeat (destruct H as [<- | H]; [vm_compute; reflexivity|]); destruct H).
  rewrite (fold_none (c :: r) metals) by
    (simpl in H; repeat (destruct H as [<- | H]; [vm_compute; reflexivity|]); destruct H).
  assert (Z : match_len PString (c :: r) = 0 /\ match_len PComment (c :: r) = 0 /\ match_len PBlank (c :: r) = 0 /\
              match_len PNewline (c :: r) = 0).
  { simpl in H; repeat (destruct H as [<- | H]; [repeat split; reflexivity|]); destruct H. }
  destruct Z as (Z1 & Z2 & Z3 & Z4). cbn [fold_left].
  set (b := better _ _ (PFloat, _)).
  assert (K : forall p a, match_len p (c :: r) = 0 -> better (c :: r) b (p, a) = b).
  { intros p a E. unfold better. cbn [fst snd]. rewrite E. reflexivity. }
  rewrite (K _ _ Z1), (K _ _ Z2), (K _ _ Z3), (K _ _ Z4). reflexivity.
Qed.

Lemma digit_head d : d < 10 -> In (digit_char d) number_heads.
Proof. intros H. do 10 (destruct d; [simpl; tauto|]). lia. Qed.

Lemma separate_digit s : separate s -> stops is_digit s.
Proof. destruct s as [|c s]; simpl; [auto|]. intros H. each_break H; reflexivity. Qed.
Lemma digit_not c d : is_digit c = true -> is_digit d = false -> (c =? d)%char = false.
Proof. intros H K. apply Ascii.eqb_neq. intros ->. congruence. Qed.

Lemma separate_mantissa ds s : Forall (fun d => d < 10) ds -> separate s -> mantissa_len (digits ds ++ s) = List.length ds.
Proof.
  intros H S. unfold mantissa_len. rewrite (span_app is_digit) by auto using digits_are, separate_digit.
  rewrite skipn_len_app. rewrite digits_len. destruct s as [|c s]; [reflexivity|].
  assert (c =? "." = false)%char as ->; [|reflexivity]. simpl in S. each_break S; reflexivity.
Qed.
Lemma separate_exponent s : separate s -> exponent_len s = 0.
Proof. destruct s as [|c s]; [reflexivity|]. simpl. intros H. each_break H; reflexivity. Qed.

Lemma sign_len_sign s r : stops is_sign r -> sign_len (sign_text s ++ r) = List.length (sign_text s).
Proof.
  destruct s; simpl; intros H; try reflexivity. destruct r; simpl in *; [reflexivity|]. rewrite H. reflexivity.
Qed.
Lemma digit_no_sign c : is_digit c = true -> is_sign c = false.
Proof. intros H. unfold is_sign. rewrite !digit_not by auto. reflexivity. Qed.
Lemma digits_stop ds s p : ds <> [] -> Forall (fun d => d < 10) ds -> (forall c, is_digit c = true -> p c = false) ->
  stops p (digits ds ++ s).
Proof.
  intros H F P. destruct ds as [|d ds]; [contradiction|]. simpl. apply P, digit_char_digit.
  apply Forall_cons_iff in F. apply F.
Qed.

Lemma float_len_int g ds s : are_digits ds -> separate s ->
  float_len (sign_text g ++ digits ds ++ s) = List.length (sign_text g) + List.length ds.
Proof.
  intros [N F] S. unfold float_len.
  rewrite sign_len_sign by (apply digits_stop; auto using digit_no_sign).
  rewrite skipn_len_app, separate_mantissa by auto.
  destruct (List.length ds =? 0) eqn:E; [apply Nat.eqb_eq, length_zero_iff_nil in E; contradiction|].
  replace (skipn _ _) with s.
  2:{ rewrite app_assoc, <- (digits_len ds), <- app_length, skipn_len_app. reflexivity. }
  rewrite separate_exponent by exact S. lia.
Qed.

Lemma uint_matched g ds s : g <> Minus -> are_digits ds -> separate s ->
  longest rules ((sign_text g ++ digits ds) ++ s) = (List.length (sign_text g ++ digits ds), ReturnUint).
Proof.
  intros G D SEP. pose proof (float_len_int g ds s D SEP) as FL. destruct D as [N F].
  assert (SP : span is_digit (digits ds ++ s) = List.length ds).
  { rewrite (span_app is_digit), digits_len by auto using digits_are, separate_digit. reflexivity. }
  rewrite <- app_assoc. rewrite app_length, digits_len.
  assert (NZ : List.length ds <> 0) by (intros E; apply length_zero_iff_nil in E; contradiction).
  destruct g; [| |contradiction].
  - cbn [sign_text app List.length Nat.add] in *.
    destruct ds as [|d ds]; [contradiction|]. cbn [digits map app] in *.
    apply Forall_cons_iff in F. destruct F as [Fd F].
    rewrite number_rules by (apply digit_head, Fd).
    assert (U : match_len PUint (digit_char d :: map digit_char ds ++ s) = S (List.length ds)).
    { cbn [match_len]. rewrite (digit_not (digit_char d) "+") by (auto using digit_char_digit). exact SP. }
    assert (I : match_len PInt (digit_char d :: map digit_char ds ++ s) = 0).
    { cbn [match_len]. rewrite (digit_not (digit_char d) "-") by (auto using digit_char_digit). reflexivity. }
    assert (A : match_len PAny (digit_char d :: map digit_char ds ++ s) <= 1).
    { cbn [match_len]. destruct (_ =? _)%char; lia. }
    cbn [fold_left]. unfold better at 4. cbn [fst snd]. rewrite U. cbn [Nat.ltb Nat.leb].
    unfold better at 3. cbn [fst snd]. rewrite I. cbn [Nat.ltb Nat.leb].
    unfold better at 2. cbn [fst snd match_len]. rewrite FL. cbn [List.length]. rewrite Nat.ltb_irrefl.
    unfold better at 1. cbn [fst snd].
    destruct (S (List.length ds) <? _) eqn:E; [apply Nat.ltb_lt in E; lia|reflexivity].
  - cbn [sign_text app List.length Nat.add] in *.
    rewrite number_rules by (simpl; tauto).
    assert (U : match_len PUint ("+"%char :: digits ds ++ s) = S (List.length ds)).
    { cbn [match_len Ascii.eqb Bool.eqb]. simpl Ascii.eqb. cbn [orb andb]. rewrite SP.
      destruct (List.length ds =? 0) eqn:E; [apply Nat.eqb_eq in E; contradiction|reflexivity]. }
    cbn [fold_left]. unfold better at 4. cbn [fst snd]. rewrite U. cbn [Nat.ltb Nat.leb].
    unfold better at 3. cbn [fst snd]. change (match_len PInt _) with 0. cbn [Nat.ltb Nat.leb].
    unfold better at 2. cbn [fst snd match_len]. rewrite FL, Nat.ltb_irrefl.
    unfold better at 1. cbn [fst snd]. change (match_len PAny _) with 1.
    destruct (S (List.length ds) <? _) eqn:E; [apply Nat.ltb_lt in E; lia|reflexivity].
Qed.

Lemma int_matched ds s : are_digits ds -> separate s ->
  longest rules (("-"%char :: digits ds) ++ s) = (List.length ("-"%char :: digits ds), ReturnInt).
Proof.
  intros D SEP. pose proof (float_len_int Minus ds s D SEP) as FL. destruct D as [N F].
  assert (SP : span is_digit (digits ds ++ s) = List.length ds).
  { rewrite (span_app is_digit), digits_len by auto using digits_are, separate_digit. reflexivity. }
  assert (NZ : List.length ds <> 0) by (intros E; apply length_zero_iff_nil in E; contradiction).
  cbn [app sign_text List.length Nat.add] in *. rewrite digits_len.
  rewrite number_rules by (simpl; tauto).
  assert (U : match_len PInt ("-"%char :: digits ds ++ s) = S (List.length ds)).
  { cbn [match_len]. rewrite SP. simpl Ascii.eqb. cbn [andb].
    destruct (List.length ds =? 0) eqn:E; [apply Nat.eqb_eq in E; contradiction|reflexivity]. }
  cbn [fold_left]. unfold better at 4. cbn [fst snd]. change (match_len PUint _) with 0. cbn [Nat.ltb Nat.leb].
  unfold better at 3. cbn [fst snd]. rewrite U. cbn [Nat.ltb Nat.leb fst snd].
  unfold better at 2. cbn [fst snd match_len]. rewrite FL, Nat.ltb_irrefl.
  unfold better at 1. cbn [fst snd]. change (match_len PAny _) with 1.
  destruct (S (List.length ds) <? _) eqn:E; [apply Nat.ltb_lt in E; lia|reflexivity].
Qed.

Definition exp_text (e : option (bool * sign * list nat)) : text :=
  match e with Some (u, s, e) => (if u then "E" else "e")%char :: sign_text s ++ digits e | None => [] end.
Definition frac_text (f : option (list nat)) : text := match f with Some f => "."%char :: digits f | None => [] end.
Definition exp_ok (e : option (bool * sign * list nat)) : Prop :=
  match e with Some (_, _, e) => are_digits e | None => True end.

Lemma digits_pos ds : are_digits ds -> 0 < List.length ds.
Proof. intros [H _]. destruct ds; [contradiction|simpl; lia]. Qed.

Lemma exp_stops e s : separate s -> stops is_digit (exp_text e ++ s).
Proof.
  intros H. destruct e as [[[u g] e]|]; [destruct u; reflexivity|]. simpl. apply separate_digit, H.
Qed.

Lemma exponent_len_text e s : exp_ok e -> separate s -> exponent_len (exp_text e ++ s) = List.length (exp_text e).
Proof.
  intros H SEP. destruct e as [[[u g] e]|]; [|apply separate_exponent, SEP].
  cbn [exp_ok exp_text app] in *. destruct H as [N F]. unfold exponent_len.
  rewrite <- app_assoc.
  rewrite sign_len_sign by (apply digits_stop; auto using digit_no_sign). rewrite skipn_len_app.
  rewrite (span_app is_digit) by auto using digits_are, separate_digit.
  assert (P : 0 < List.length (digits e)) by (rewrite digits_len; apply digits_pos; split; assumption).
  apply Nat.ltb_lt in P. rewrite P. cbn [List.length]. rewrite app_length. destruct u; reflexivity.
Qed.

Lemma mantissa_len_text w f e s : Forall (fun d => d < 10) w ->
  match f with Some f => are_digits f | None => w <> [] /\ e <> None end -> separate s ->
  mantissa_len (digits w ++ frac_text f ++ exp_text e ++ s) = List.length w + List.length (frac_text f).
Proof.
  intros W H SEP. unfold mantissa_len. destruct f as [f|].
  - rewrite (span_app is_digit) by (auto using digits_are; reflexivity). rewrite skipn_len_app.
    cbn [frac_text app]. destruct H as [N F].
    rewrite (span_app is_digit) by auto using digits_are, exp_stops.
    assert (P : 0 < List.length (digits f)) by (rewrite digits_len; apply digits_pos; split; assumption).
    apply Nat.ltb_lt in P. rewrite P. simpl Ascii.eqb. cbn [andb List.length]. rewrite digits_len. lia.
  - cbn [frac_text app]. rewrite (span_app is_digit) by auto using digits_are, exp_stops. rewrite skipn_len_app.
    destruct H as [_ H]. destruct e as [[[u g] e]|]; [|contradiction]. cbn [exp_text app].
    rewrite digits_len. destruct u; simpl; lia.
Qed.

Lemma frac_no_sign w f e s : Forall (fun d => d < 10) w ->
  match f with Some f => are_digits f | None => w <> [] /\ e <> None end ->
  stops is_sign (digits w ++ frac_text f ++ exp_text e ++ s).
Proof.
  intros W H. destruct w as [|d w].
  - destruct f as [f|]; [reflexivity|]. destruct H as [H _]. contradiction.
  - apply digits_stop; [discriminate|exact W|apply digit_no_sign].
Qed.

Lemma numeral_text_eq n : numeral_text n =
  sign_text (nu_sign n) ++ digits (nu_whole n) ++ frac_text (nu_frac n) ++ exp_text (nu_exp n).
Proof. reflexivity. Qed.

Lemma float_len_text n s : numeral_ok n -> separate s -> float_len (numeral_text n ++ s) = List.length (numeral_text n).
Proof.
  destruct n as [g w f e]. unfold numeral_ok. cbn [nu_sign nu_whole nu_frac nu_exp]. intros (W & H & E) SEP.
  rewrite numeral_text_eq. cbn [nu_sign nu_whole nu_frac nu_exp]. rewrite <- !app_assoc. unfold float_len.
  rewrite sign_len_sign by (apply frac_no_sign; assumption). rewrite skipn_len_app.
  rewrite mantissa_len_text by assumption.
  assert (P : List.length w + List.length (frac_text f) <> 0).
  { destruct f; simpl; [lia|]. destruct H as [H _]. destruct w; [contradiction|simpl; lia]. }
  apply Nat.eqb_neq in P. rewrite P.
  replace (skipn _ _) with (exp_text e ++ s).
  2:{ rewrite (app_assoc (digits w)), app_assoc. rewrite <- (digits_len w), <- !app_length, skipn_len_app. reflexivity. }
  rewrite exponent_len_text by assumption. rewrite !app_length, digits_len. lia.
Qed.

Lemma numeral_head n : numeral_ok n -> exists c r, numeral_text n = c :: r /\ In c number_heads.
Proof.
  destruct n as [g w f e]. unfold numeral_ok. cbn [nu_sign nu_whole nu_frac nu_exp]. intros (W & H & E).
  rewrite numeral_text_eq. cbn [nu_sign nu_whole nu_frac nu_exp].
  destruct g; [|eexists; eexists; split; [reflexivity|simpl; tauto]..].
  destruct w as [|d w].
  - destruct f as [f|]; [|destruct H; contradiction]. eexists; eexists; split; [reflexivity|simpl; tauto].
  - eexists; eexists; split; [reflexivity|]. apply digit_head. apply Forall_cons_iff in W. apply W.
Qed.

Lemma uint_short g w r : Forall (fun d => d < 10) w -> stops is_digit r -> stops is_sign (digits w ++ r) ->
  match_len PUint (sign_text g ++ digits w ++ r) <= List.length (sign_text g) + List.length w /\
  match_len PInt (sign_text g ++ digits w ++ r) <= List.length (sign_text g) + List.length w.
Proof.
  intros W R S. assert (SP : span is_digit (digits w ++ r) = List.length w).
  { rewrite (span_app is_digit), digits_len by auto using digits_are. reflexivity. }
  destruct g; cbn [sign_text app List.length].
  - split.
    + cbn [match_len]. destruct (digits w ++ r) as [|c t]; [lia|]. destruct (c =? "+")%char eqn:E.
      * simpl in S. unfold is_sign in S. rewrite E in S. discriminate.
      * simpl. rewrite <- SP. reflexivity.
    + cbn [match_len]. destruct (digits w ++ r) as [|c t]; [lia|]. destruct (c =? "-")%char eqn:E; [|simpl; lia].
      simpl in S. unfold is_sign in S. rewrite E, orb_true_r in S. discriminate.
  - split; cbn [match_len]; simpl Ascii.eqb; cbn [andb]; [|lia]. rewrite SP. destruct (_ =? 0); lia.
  - split; cbn [match_len]; simpl Ascii.eqb; cbn [andb].
    + simpl. lia.
    + rewrite SP. destruct (_ =? 0); simpl; lia.
Qed.

Lemma better_le s b r k : fst b <= k -> match_len (fst r) s <= k -> fst (better s b r) <= k.
Proof. unfold better. destruct (_ <? _); auto. Qed.

Lemma float_matched n s : numeral_ok n -> separate s ->
  longest rules (numeral_text n ++ s) = (List.length (numeral_text n), ReturnFloat).
Proof.
  intros O SEP. pose proof (float_len_text n s O SEP) as FL.
  destruct (numeral_head n O) as (c & t & E & H). rewrite E. cbn [app]. rewrite number_rules by exact H.
  change (c :: t ++ s) with ((c :: t) ++ s). rewrite <- E.
  set (w := numeral_text n ++ s) in *.
  assert (B : match_len PUint w < List.length (numeral_text n) /\ match_len PInt w < List.length (numeral_text n)).
  { clear FL E H c t. destruct n as [g a f e]. unfold numeral_ok in O. cbn [nu_sign nu_whole nu_frac nu_exp] in O.
    destruct O as (W & O & X). unfold w. rewrite numeral_text_eq. cbn [nu_sign nu_whole nu_frac nu_exp].
    rewrite <- !app_assoc.
    assert (T : stops is_digit (frac_text f ++ exp_text e ++ s)).
    { destruct f; [reflexivity|]. apply exp_stops, SEP. }
    destruct (uint_short g a (frac_text f ++ exp_text e ++ s) W T (frac_no_sign a f e s W O)) as [P Q].
    rewrite !app_length, digits_len.
    assert (1 <= List.length (frac_text f) + List.length (exp_text e)).
    { destruct f; simpl; [lia|]. destruct O as [_ O]. destruct e as [[[u q] e]|]; [simpl; lia|contradiction]. }
    lia. }
  destruct B as [B1 B2]. cbn [fold_left].
  set (b := better w (better w (0, Refuse) (PUint, ReturnUint)) (PInt, ReturnInt)).
  assert (B : fst b < List.length (numeral_text n)).
  { unfold b. assert (P : 0 < List.length (numeral_text n)) by lia.
    assert (fst (better w (better w (0, Refuse) (PUint, ReturnUint)) (PInt, ReturnInt)) <= pred (List.length (numeral_text n))); [|lia].
    apply better_le; [apply better_le|]; cbn [fst]; lia. }
  clearbody b. unfold better at 2. cbn [fst snd match_len]. rewrite FL.
  assert (L : (fst b <? List.length (numeral_text n)) = true) by (apply Nat.ltb_lt, B). rewrite L.
  unfold better. cbn [fst snd].
  assert (A : match_len PAny w <= 1). { cbn [match_len]. destruct w; [lia|]. destruct (_ =? _)%char; lia. }
  destruct (List.length (numeral_text n) <? match_len PAny w) eqn:K; [|reflexivity].
  apply Nat.ltb_lt in K. lia.
Qed.

(* ---- values ---- *)

Lemma in_int v : is_int v -> ((- 2 ^ 31 <=? v) && (v <? 2 ^ 31))%Z = true.
Proof. intros [A B]. apply andb_true_intro. split; [apply Z.leb_le|apply Z.ltb_lt]; assumption. Qed.
Lemma not_in_int v : ~ is_int v -> ((- 2 ^ 31 <=? v) && (v <? 2 ^ 31))%Z = false.
Proof.
  intros H. destruct (_ && _) eqn:E; [|reflexivity]. exfalso. apply H. apply andb_prop in E. destruct E as [A B].
  apply Z.leb_le in A. apply Z.ltb_lt in B. split; assumption.
Qed.

Definition int_text (g : sign) (ds : list nat) : text := sign_text g ++ digits ds.
Lemma atoi_text g ds : are_digits ds ->
  atoi (int_text g ds) = if ((- 2 ^ 31 <=? signed_z g (decimal ds)) && (signed_z g (decimal ds) <? 2 ^ 31))%Z
                         then Ok (signed_z g (decimal ds)) else UB.
Proof.
  intros [N F]. unfold atoi, int_text. destruct g; cbn [sign_text app signed_z].
  - destruct ds as [|d ds]; [contradiction|]. rewrite <- (digits_value_decimal (d :: ds)) by exact F.
    cbn [digits map]. apply Forall_cons_iff in F. destruct F as [Fd F].
    rewrite !digit_not by auto using digit_char_digit. reflexivity.
  - simpl Ascii.eqb. cbn [andb]. rewrite digits_value_decimal by exact F. reflexivity.
  - simpl Ascii.eqb. cbn [andb]. rewrite digits_value_decimal by exact F. reflexivity.
Qed.

Lemma Qpower_10_pos e : ~ (Qpower 10 e == 0)%Q.
Proof. apply Qpower_not_0. discriminate. Qed.
Lemma Qpower_10_nat n : (inject_Z (10 ^ Z.of_nat n) == Qpower 10 (Z.of_nat n))%Q.
Proof. rewrite Zpower_Qpower by lia. reflexivity. Qed.

Lemma atof_text n : numeral_ok n -> (atof (numeral_text n) == numeral_value n)%Q.
Proof.
  destruct n as [g w f e]. unfold numeral_ok. cbn [nu_sign nu_whole nu_frac nu_exp]. intros (W & H & E).
  rewrite numeral_text_eq. cbn [nu_sign nu_whole nu_frac nu_exp]. unfold atof. cbv zeta.
  rewrite <- (app_nil_r (exp_text e)).
  rewrite sign_len_sign by (apply frac_no_sign; assumption). rewrite skipn_len_app.
  assert (T : stops is_digit (frac_text f ++ exp_text e ++ [])).
  { destruct f; [reflexivity|]. apply exp_stops. exact I. }
  rewrite (span_app is_digit) by auto using digits_are. rewrite firstn_len_app, skipn_len_app.
  set (fr := match f with Some f => f | None => [] end).
  replace (match frac_text f ++ exp_text e ++ [] with [] => ([], []) | c :: t => _ end)
    with (digits fr, exp_text e).
  2:{ destruct f as [f|]; cbn [frac_text app].
      - simpl Ascii.eqb. cbn [andb]. destruct H as [N F].
        rewrite (span_app is_digit) by (auto using digits_are; apply exp_stops; exact I).
        rewrite firstn_len_app, skipn_len_app, app_nil_r. reflexivity.
      - rewrite app_nil_r. destruct e as [[[u q] e]|]; [|destruct H; contradiction]. destruct u; reflexivity. }
  cbv beta iota. rewrite Qred_correct.
  set (ex := match e with Some (_, s, e) => signed_z s (decimal e) | None => 0%Z end).
  replace (match exp_text e with [] => 0%Z | c :: t => _ end) with ex.
  2:{ unfold ex. destruct e as [[[u q] e]|]; [|reflexivity]. cbn [exp_text]. destruct E as [N F].
      rewrite (sign_len_sign q (digits e)).
      2:{ rewrite <- (app_nil_r (digits e)). apply digits_stop; auto using digit_no_sign. }
      rewrite skipn_len_app, digits_value_decimal by exact F.
      destruct q; [|reflexivity..]. cbn [sign_text app signed_z]. destruct e as [|d e]; [contradiction|]. cbn [digits map].
      apply Forall_cons_iff in F. destruct F as [Fd F]. rewrite digit_not by auto using digit_char_digit. reflexivity. }
  assert (FF : Forall (fun d => d < 10) fr).
  { unfold fr. destruct f as [f|]; [apply H|constructor]. }
  replace (digits w ++ digits fr) with (digits (w ++ fr)) by apply map_app.
  rewrite digits_value_decimal by (apply Forall_app; split; assumption).
  rewrite digits_len, decimal_app.
  unfold numeral_value. cbn [nu_sign nu_whole nu_frac nu_exp].
  assert (V : (inject_Z (decimal w * 10 ^ Z.of_nat (List.length fr) + decimal fr) * Qpower 10 (ex - Z.of_nat (List.length fr)) ==
              (inject_Z (decimal w) + match f with Some f => inject_Z (decimal f) / inject_Z (10 ^ Z.of_nat (List.length f)) | None => 0 end) *
              match e with Some (_, s, e) => Qpower 10 (signed_z s (decimal e)) | None => 1 end)%Q).
  { replace (match e with Some (_, s, e) => Qpower 10 (signed_z s (decimal e)) | None => 1%Q end) with (Qpower 10 ex).
    2:{ unfold ex. destruct e as [[[u q] e]|]; reflexivity. }
    assert (Z : (match f with Some f => inject_Z (decimal f) / inject_Z (10 ^ Z.of_nat (List.length f)) | None => 0 end ==
                 inject_Z (decimal fr) / inject_Z (10 ^ Z.of_nat (List.length fr)))%Q).
    { unfold fr. destruct f; reflexivity. }
    rewrite Z. unfold Z.sub. rewrite Qpower_plus by discriminate. rewrite Qpower_opp, inject_Z_plus, inject_Z_mult.
    rewrite Qpower_10_nat. field. apply Qpower_10_pos. }
  destruct g.
  - replace (match sign_text NoSign ++ _ with [] => _ | c :: _ => _ end)
      with (inject_Z (decimal w * 10 ^ Z.of_nat (List.length fr) + decimal fr) * Qpower 10 (ex - Z.of_nat (List.length fr)))%Q.
    + exact V.
    + pose proof (frac_no_sign w f e [] W H) as K. cbn [sign_text app].
      destruct (digits w ++ frac_text f ++ exp_text e ++ []) as [|c t]; [reflexivity|]. simpl in K. unfold is_sign in K.
      apply orb_false_elim in K. destruct K as [_ K]. rewrite K. reflexivity.
  - cbn [sign_text app signed]. simpl Ascii.eqb. exact V.
  - cbn [sign_text app signed]. simpl Ascii.eqb. cbn [andb]. rewrite V. reflexivity.
Qed.

(* ---- strings ---- *)

(* a rule between two others that match nothing longer *)
Lemma string_rules c r n : c = quote \/ c = apostrophe -> match_len PString (c :: r) = n -> 1 <= n ->
  longest rules (c :: r) = (n, ReturnString).
Proof.
  intros H E N. unfold longest, rules. rewrite !fold_left_app.
  rewrite (fold_none (c :: r) words) by (destruct H as [-> | ->]; vm_compute; reflexivity).
  rewrite (fold_none (c :: r) metals) by (destruct H as [-> | ->]; vm_compute; reflexivity).
  assert (Z : match_len PUint (c :: r) = 0 /\ match_len PInt (c :: r) = 0 /\ match_len PFloat (c :: r) = 0 /\
              match_len PComment (c :: r) = 0 /\ match_len PBlank (c :: r) = 0 /\ match_len PNewline (c :: r) = 0 /\
              match_len PAny (c :: r) = 1).
  { destruct H as [-> | ->]; repeat split; reflexivity. }
  destruct Z as (Z1 & Z2 & Z3 & Z4 & Z5 & Z6 & Z7). cbn [fold_left]. unfold better. cbn [fst snd].
  rewrite Z1, Z2, Z3, Z4, Z5, Z6, Z7, E. cbn [Nat.ltb Nat.leb fst snd].
  destruct n as [|n]; [lia|]. reflexivity.
Qed.

Lemma last_default {A} (l : list A) a b : l <> [] -> last l a = last l b.
Proof. induction l as [|x l IH]; [contradiction|]. intros _. destruct l; [reflexivity|]. simpl in *. apply IH. discriminate. Qed.

Lemma last_cons_neq {A} (x : A) l d k : last (x :: l) d <> k -> last l x <> k.
Proof. destruct l as [|y l]; [auto|]. rewrite (last_default (y :: l) x d) by discriminate. auto. Qed.

Lemma double_len_string : forall k s n r d, List.length s <= k -> d <> backslash -> ~ In quote s -> ~ In newline s ->
  last s d <> backslash -> double_len n (s ++ quote :: r) = n + List.length s + 1.
Proof.
  induction k as [|k IH]; intros s n r d K D Q N L.
  - destruct s; [|simpl in K; lia]. simpl. lia.
  - destruct s as [|c s]; [simpl; lia|]. cbn [app double_len].
    assert (E : (c =? quote)%char = false) by (apply Ascii.eqb_neq; intros ->; apply Q; left; reflexivity).
    rewrite E. destruct (c =? backslash)%char eqn:B.
    + apply Ascii.eqb_eq in B. subst c. destruct s as [|x s]; [simpl in L; contradiction|].
      cbn [app]. assert (X : (x =? newline)%char = false) by (apply Ascii.eqb_neq; intros ->; apply N; simpl; auto).
      rewrite X. rewrite (IH s (S (S n)) r "a"%char).
      * simpl. lia.
      * simpl in K. lia.
      * discriminate.
      * intros I. apply Q. simpl. auto.
      * intros I. apply N. simpl. auto.
      * destruct s as [|y s]; [discriminate|]. rewrite (last_default (y :: s) "a"%char d) by discriminate. exact L.
    + rewrite (IH s (S n) r c).
      * simpl. lia.
      * simpl in K. lia.
      * apply Ascii.eqb_neq, B.
      * intros I. apply Q. simpl. auto.
      * intros I. apply N. simpl. auto.
      * apply (last_cons_neq c s d), L.
Qed.

Lemma single_len_string s : forall e n b r, ~ In apostrophe s ->
  (s = [] -> e = false) -> last s "a"%char <> backslash -> single_len e n b (s ++ apostrophe :: r) = n + List.length s + 1.
Proof.
  induction s as [|c s IH]; intros e n b r Q E L.
  - simpl. rewrite E by reflexivity. lia.
  - cbn [app single_len].
    assert (X : (c =? apostrophe)%char = false) by (apply Ascii.eqb_neq; intros ->; apply Q; left; reflexivity).
    rewrite X. rewrite IH.
    + simpl. lia.
    + intros I. apply Q. simpl. auto.
    + intros ->. apply Ascii.eqb_neq. exact L.
    + destruct s as [|y s]; [discriminate|]. exact L.
Qed.

Lemma string_matched c s r : c = quote \/ c = apostrophe -> quotable c s ->
  longest rules ((c :: s ++ [c]) ++ r) = (List.length (c :: s ++ [c]), ReturnString).
Proof.
  intros H (Q & L & N). cbn [app]. rewrite <- app_assoc. cbn [app]. apply string_rules; [exact H| |simpl; lia].
  destruct H as [-> | ->]; cbn [match_len].
  - rewrite Ascii.eqb_refl. rewrite (double_len_string (List.length s) s 1 r "a"%char); auto; [|discriminate].
    simpl. rewrite app_length. simpl. lia.
  - rewrite Ascii.eqb_refl. simpl (apostrophe =? quote)%char. cbv iota.
    rewrite single_len_string; auto. simpl. rewrite app_length. simpl. lia.
Qed.

Lemma unquote_string c s : unquote (c :: s ++ [c]) = s.
Proof. unfold unquote. cbn [tl]. apply removelast_last. Qed.

(* ---- blanks and comments ---- *)

Lemma blank_matched c r : blank c -> longest rules (c :: r) = (1, Skip).
Proof. unfold blank, line_end. intros [-> | [-> | [-> | ->]]]; vm_compute; reflexivity. Qed.

Definition not_line_end (c : ascii) : bool := negb ((c =? newline)%char || (c =? return_)%char).
Lemma no_line_end_all body : no_line_end body -> Forall (fun c => not_line_end c = true) body.
Proof.
  intros H. apply Forall_forall. intros c I. specialize (H c I). unfold not_line_end. apply negb_true_iff, orb_false_iff.
  split; apply Ascii.eqb_neq; intros ->; apply H; [left|right]; reflexivity.
Qed.

Lemma comment_matched body r : no_line_end body -> stops not_line_end r ->
  longest rules (("#"%char :: body) ++ r) = (List.length ("#"%char :: body), Skip).
Proof.
  intros H S. cbn [app List.length].
  assert (E : match_len PComment ("#"%char :: body ++ r) = Datatypes.S (List.length body)).
  { cbn [match_len]. rewrite Ascii.eqb_refl. f_equal. apply span_app; [apply no_line_end_all, H|exact S]. }
  unfold longest, rules. rewrite !fold_left_app.
  rewrite (fold_none _ words) by (vm_compute; reflexivity).
  rewrite (fold_none _ metals) by (vm_compute; reflexivity).
  cbn [fold_left]. unfold better. cbn [fst snd]. rewrite E.
  change (match_len PUint _) with 0. change (match_len PInt _) with 0. change (match_len PFloat _) with 0.
  change (match_len PString _) with 0. change (match_len PBlank _) with 0. change (match_len PNewline _) with 0.
  change (match_len PAny _) with 1. cbn [Nat.ltb Nat.leb fst snd]. reflexivity.
Qed.

Lemma scan_gap g s : gap g -> scan (g ++ s) = scan s.
Proof.
  induction 1 as [|c g B G IH|body c g NB LE G IH]; [reflexivity| |].
  - change ((c :: g) ++ s) with ([c] ++ (g ++ s)).
    rewrite (scan_word [c] (g ++ s) Skip []); [|discriminate|apply blank_matched, B|reflexivity].
    rewrite prepend_nil. exact IH.
  - replace (("#"%char :: body ++ c :: g) ++ s) with (("#"%char :: body) ++ c :: g ++ s).
    2:{ simpl. rewrite <- app_assoc. reflexivity. }
    rewrite (scan_word ("#"%char :: body) (c :: g ++ s) Skip []); [|discriminate| |reflexivity].
    2:{ apply comment_matched; [exact NB|]. destruct LE as [-> | ->]; reflexivity. }
    rewrite prepend_nil. change (c :: g ++ s) with ([c] ++ (g ++ s)).
    rewrite (scan_word [c] (g ++ s) Skip []); [|discriminate| |reflexivity].
    2:{ apply blank_matched. right. right. exact LE. }
    rewrite prepend_nil. exact IH.
Qed.

Lemma scan_last_gap g : last_gap g -> scan g = Ok (Some []).
Proof.
  intros [g' G | g' body G NB].
  - rewrite <- (app_nil_r g'), scan_gap by exact G. reflexivity.
  - rewrite scan_gap by exact G. rewrite <- (app_nil_r ("#"%char :: body)).
    rewrite (scan_word _ [] Skip []); [reflexivity|discriminate| |reflexivity].
    apply comment_matched; [exact NB|exact I].
Qed.

(* ---- all tokens ---- *)

Lemma written_nonempty t w : written t w -> w <> [].
Proof.
  intros H. inversion H as [| | | | | |k w' I|n sym w' N F|g ds G D B|ds D B|n q O R V|c s C Q]; subst; try discriminate.
  - destruct k; simpl in I; repeat (destruct I as [<- | I]; [discriminate|]); destruct I.
  - intros ->. inversion F. subst. do 29 (destruct n as [|n]; [discriminate|]). destruct n; discriminate.
  - destruct D as [D _]. destruct ds; [contradiction|]. destruct g; discriminate.
  - destruct (numeral_head n O) as (c & r & -> & _). discriminate.
Qed.

Lemma scan_written t w s : written t w -> closed t \/ separate s -> scan (w ++ s) = prepend [t] (scan s).
Proof.
  intros H S. pose proof (written_nonempty t w H) as NE.
  inversion H as [| | | | | |k w' I|n sym w' N F|g ds G D B|ds D B|n q O R V|c s' C Q]; subst.
  1-6: match goal with |- _ = prepend [?t] _ => apply (scan_word _ _ (Return t)) end;
         [discriminate|vm_compute; reflexivity|reflexivity].
  - destruct S as [[]|S]. eapply scan_word; [exact NE|apply (word_matched k); assumption|reflexivity].
  - destruct S as [[]|S]. eapply scan_word; [exact NE|apply (element_matched n sym); assumption|reflexivity].
  - destruct S as [[]|S]. eapply scan_word; [exact NE|apply uint_matched; assumption|]. cbn [perform].
    fold (int_text g ds). rewrite atoi_text by exact D.
    assert (E : signed_z g (decimal ds) = decimal ds) by (destruct g; [reflexivity|reflexivity|contradiction]).
    rewrite E, in_int by exact B. reflexivity.
  - destruct S as [[]|S]. eapply scan_word; [exact NE|apply int_matched; assumption|]. cbn [perform].
    change ("-"%char :: digits ds) with (int_text Minus ds). rewrite atoi_text by exact D. cbn [signed_z].
    rewrite in_int by exact B. reflexivity.
  - destruct S as [[]|S]. eapply scan_word; [exact NE|apply float_matched; assumption|]. cbn [perform].
    assert (E : atof (numeral_text n) = q); [|rewrite E; reflexivity].
    rewrite <- R. assert (E : (atof (numeral_text n) == q)%Q) by (rewrite V; apply atof_text, O).
    apply Qred_complete in E. rewrite <- E. unfold atof. cbv zeta. destruct (match _ with [] => _ | _ => _ end).
    rewrite (Qred_complete _ _ (Qred_correct _)). reflexivity.
  - eapply scan_word; [exact NE|apply string_matched; assumption|]. cbn [perform]. rewrite unquote_string. reflexivity.
Qed.

Lemma scan_layout_then E ts s : layout_then E ts s -> exists e, E e /\ scan s = prepend ts (scan e).
Proof.
  induction 1 as [s H|t ts g w s G W S L IH].
  - exists s. split; [exact H|]. rewrite prepend_nil. reflexivity.
  - destruct IH as (e & He & Hs). exists e. split; [exact He|].
    rewrite scan_gap by exact G. rewrite (scan_written t w s W S), Hs, prepend_app. reflexivity.
Qed.

(* ---- definedness ---- *)

Lemma scan_total s : scan s <> OutOfFuel.
Proof.
  unfold scan. assert (K : forall f s, List.length s <= f -> scan_from f s <> OutOfFuel); [|apply K; lia]. clear s.
  induction f as [|f IH]; intros s L; (destruct s as [|c s]; [discriminate|]); [simpl in L; lia|].
  cbn [scan_from]. pose proof (longest_pos (c :: s) ltac:(discriminate)) as P.
  destruct (longest rules (c :: s)) as [n a]. simpl fst in P.
  assert (PA : perform a (firstn n (c :: s)) <> OutOfFuel).
  { destruct a; cbn [perform]; try discriminate; unfold atoi; cbv zeta; destruct (_ && _); discriminate. }
  destruct (perform a _) as [[t|]| |]; cbn [bind]; try discriminate; [|contradiction].
  assert (X : scan_from f (skipn n (c :: s)) <> OutOfFuel).
  { apply IH. rewrite skipn_length. cbn [List.length] in *. lia. }
  destruct (scan_from f (skipn n (c :: s))) as [[r|]| |]; cbn [bind]; try discriminate. contradiction.
Qed.

Lemma longest_match s rs : fst (longest rs s) = 0 \/ exists p, In (p, snd (longest rs s)) rs /\ match_len p s = fst (longest rs s).
Proof.
  unfold longest. induction rs as [|r rs IH] using rev_ind; [left; reflexivity|].
  rewrite fold_left_app. cbn [fold_left].
  set (y := fold_left (better s) rs (0, Refuse)) in *. unfold better. destruct (fst y <? match_len (fst r) s) eqn:E.
  - right. exists (fst r). cbn [fst snd]. split; [|reflexivity]. apply in_app_iff. right. left. destruct r; reflexivity.
  - destruct IH as [IH|(p & I & M)]; [left; exact IH|]. right. exists p. split; [apply in_app_iff; left; exact I|exact M].
Qed.

Lemma action_rule p a : In (p, a) rules -> (a = ReturnUint -> p = PUint) /\ (a = ReturnInt -> p = PInt).
Proof.
  intros H.
  assert (K : forallb (fun r : pattern * action => match snd r, fst r with
            | ReturnUint, PUint => true | ReturnUint, _ => false
            | ReturnInt, PInt => true | ReturnInt, _ => false | _, _ => true end) rules = true) by (vm_compute; reflexivity).
  rewrite forallb_forall in K. specialize (K _ H). cbn [fst snd] in K.
  split; intros ->; destruct p; try discriminate K; reflexivity.
Qed.

Lemma digit_of c : is_digit c = true -> exists d, d < 10 /\ c = digit_char d.
Proof.
  unfold is_digit. intros H. apply andb_prop in H. destruct H as [A B]. apply Nat.leb_le in A. apply Nat.leb_le in B.
  exists (nat_of_ascii c - 48). split; [lia|]. unfold digit_char.
  replace (48 + (nat_of_ascii c - 48)) with (nat_of_ascii c) by lia. symmetry. apply ascii_nat_embedding.
Qed.
Lemma span_digits s : exists ds, Forall (fun d => d < 10) ds /\ firstn (span is_digit s) s = digits ds /\ List.length ds = span is_digit s.
Proof.
  induction s as [|c s IH]; cbn [span]; [exists []; repeat split; constructor|].
  destruct (is_digit c) eqn:E; [|exists []; repeat split; constructor].
  destruct IH as (ds & F & EQ & L). destruct (digit_of c E) as (d & D & ->).
  exists (d :: ds). split; [constructor; assumption|]. simpl. rewrite EQ, L. split; reflexivity.
Qed.

(* the text of an integer that atoi does not represent *)
Lemma match_int p s : p = PUint \/ p = PInt -> 0 < match_len p s ->
  exists g ds, are_digits ds /\ firstn (match_len p s) s = int_text g ds.
Proof.
  intros P H. destruct s as [|c s]; [destruct P as [-> | ->]; simpl in H; lia|].
  destruct P as [-> | ->]; cbn [match_len] in *.
  - destruct (c =? "+")%char eqn:E.
    + apply Ascii.eqb_eq in E. subst c. destruct (span is_digit s =? 0) eqn:Z; [lia|]. apply Nat.eqb_neq in Z.
      destruct (span_digits s) as (ds & F & EQ & L). exists Plus, ds. split.
      * split; [intros ->; simpl in L; lia|exact F].
      * cbn [firstn int_text sign_text app]. unfold int_text. simpl. rewrite EQ. reflexivity.
    + destruct (span_digits (c :: s)) as (ds & F & EQ & L). exists NoSign, ds. split.
      * split; [intros ->; simpl in L; simpl in H; lia|exact F].
      * rewrite EQ. reflexivity.
  - destruct (c =? "-")%char eqn:E; cbn [andb] in *; [|lia]. apply Ascii.eqb_eq in E. subst c.
    destruct (span is_digit s =? 0) eqn:Z; cbn [negb] in *; [lia|]. apply Nat.eqb_neq in Z.
    destruct (span_digits s) as (ds & F & EQ & L). exists Minus, ds. split.
    + split; [intros ->; simpl in L; lia|exact F].
    + unfold int_text. simpl. rewrite EQ. reflexivity.
Qed.

Lemma perform_ub a m : perform a m = UB -> (a = ReturnUint \/ a = ReturnInt) /\ atoi m = UB.
Proof.
  destruct a; cbn [perform]; intros H; try discriminate; destruct (atoi m); try discriminate; split; auto.
Qed.

Lemma scan_ub s : scan s = UB -> exists a g ds b, s = a ++ int_text g ds ++ b /\ are_digits ds /\ ~ is_int (signed_z g (decimal ds)).
Proof.
  assert (K : forall k s, List.length s <= k -> scan s = UB ->
    exists a g ds b, s = a ++ int_text g ds ++ b /\ are_digits ds /\ ~ is_int (signed_z g (decimal ds))).
  2:{ apply (K (List.length s)). lia. }
  clear s. induction k as [|k IH]; intros s L H; (destruct s as [|c s]; [discriminate|]); [simpl in L; lia|].
  pose proof (longest_pos (c :: s) ltac:(discriminate)) as P.
  pose proof (longest_match (c :: s) rules) as M.
  destruct (longest rules (c :: s)) as [n a] eqn:LO. cbn [fst snd] in P, M.
  rewrite (scan_step (c :: s) n a) in H; [|discriminate|exact LO]. clear LO.
  destruct M as [M|(p & I & M)]; [lia|].
  destruct (perform a (firstn n (c :: s))) as [[t|]| |] eqn:PA; cbn [bind] in H; try discriminate.
  - assert (E : scan (skipn n (c :: s)) = UB).
    { unfold prepend in H. destruct (scan (skipn n (c :: s))) as [[r|]| |]; cbn [bind] in H; congruence. }
    apply IH in E.
    + destruct E as (x & g & ds & b & E & D & N). exists (firstn n (c :: s) ++ x), g, ds, b.
      rewrite <- app_assoc, <- E, firstn_skipn. auto.
    + rewrite skipn_length. cbn [List.length] in *. lia.
  - apply perform_ub in PA. destruct PA as [A U]. pose proof (action_rule p a I) as [A1 A2].
    assert (X : p = PUint \/ p = PInt) by (destruct A; auto). clear A A1 A2 I.
    destruct (match_int p (c :: s) X) as (g & ds & D & E); [lia|]. rewrite M in E.
    exists [], g, ds, (skipn n (c :: s)). rewrite <- E. split; [symmetry; apply firstn_skipn|]. split; [exact D|].
    intros B. rewrite E, atoi_text, in_int in U by assumption. discriminate.
Qed.

(* ---- integers outside int ---- *)

Lemma int_matched_sign g ds s : are_digits ds -> separate s ->
  exists a, (a = ReturnUint \/ a = ReturnInt) /\ longest rules (int_text g ds ++ s) = (List.length (int_text g ds), a).
Proof.
  intros D S. destruct g.
  - exists ReturnUint. split; [auto|]. apply (uint_matched NoSign); [discriminate|assumption..].
  - exists ReturnUint. split; [auto|]. apply (uint_matched Plus); [discriminate|assumption..].
  - exists ReturnInt. split; [auto|]. apply int_matched; assumption.
Qed.
Lemma scan_overflow g ds s : are_digits ds -> separate s -> ~ is_int (signed_z g (decimal ds)) -> scan (int_text g ds ++ s) = UB.
Proof.
  intros D S N. destruct (int_matched_sign g ds s D S) as (a & A & E).
  assert (NE : int_text g ds ++ s <> []).
  { destruct D as [D _]. destruct ds; [contradiction|]. destruct g; discriminate. }
  rewrite (scan_step _ _ _ NE E). rewrite firstn_len_app.
  assert (U : atoi (int_text g ds) = UB) by (rewrite atoi_text, not_in_int by assumption; reflexivity).
  destruct A as [-> | ->]; cbn [perform]; rewrite U; reflexivity.
Qed.

(* ---- a backslash before the closing quote ---- *)

Definition plain (c : ascii) (s : text) : Prop := forall x, In x s -> x <> c /\ x <> backslash.
Lemma plain_cons c x s : plain c (x :: s) -> (x =? c)%char = false /\ (x =? backslash)%char = false /\ plain c s.
Proof.
  intros H. destruct (H x (or_introl eq_refl)) as [A B]. repeat split; try (apply Ascii.eqb_neq; assumption);
    intros; apply H; right; assumption.
Qed.
Lemma double_len_plain s : forall n r, plain quote s -> double_len n (s ++ r) = double_len (n + List.length s) r.
Proof.
  induction s as [|c s IH]; intros n r H; [simpl; rewrite Nat.add_0_r; reflexivity|].
  apply plain_cons in H. destruct H as (A & B & H). cbn [app double_len]. rewrite A, B, IH by exact H. simpl. f_equal. lia.
Qed.
Lemma single_len_plain s : forall e n b r, s <> [] -> plain apostrophe s ->
  single_len e n b (s ++ r) = single_len false (n + List.length s) b r.
Proof.
  induction s as [|c s IH]; intros e n b r N H; [contradiction|].
  apply plain_cons in H. destruct H as (A & B & H). cbn [app single_len]. rewrite A, B.
  destruct s as [|d s]; [cbn [app List.length]; f_equal; lia|]. rewrite IH by (try discriminate; exact H). simpl. f_equal. lia.
Qed.
Lemma single_len_plain' s n b r : plain apostrophe s -> single_len false n b (s ++ r) = single_len false (n + List.length s) b r.
Proof.
  destruct s as [|c s]; intros H; [simpl; rewrite Nat.add_0_r; reflexivity|]. apply single_len_plain; [discriminate|exact H].
Qed.

Lemma scan_swallow c b r1 r2 : c = quote \/ c = apostrophe -> plain c b -> plain c r1 ->
  scan (c :: b ++ backslash :: c :: r1 ++ c :: r2) = prepend [Str (b ++ backslash :: c :: r1)] (scan r2).
Proof.
  intros C B1 B2. set (m := b ++ backslash :: c :: r1).
  replace (c :: b ++ backslash :: c :: r1 ++ c :: r2) with ((c :: m ++ [c]) ++ r2).
  2:{ unfold m. cbn [app]. rewrite <- !app_assoc. cbn [app]. reflexivity. }
  apply (scan_word _ r2 ReturnString); [discriminate| |cbn [perform]; rewrite unquote_string; reflexivity].
  cbn [app]. rewrite <- app_assoc. cbn [app]. apply string_rules; [exact C| |simpl; lia].
  assert (L : List.length m = List.length b + 2 + List.length r1).
  { unfold m. rewrite app_length. simpl. lia. }
  cbn [List.length]. rewrite app_length, L. cbn [List.length].
  unfold m. destruct C as [-> | ->]; cbn [match_len]; rewrite Ascii.eqb_refl; rewrite <- !app_assoc; cbn [app].
  - rewrite double_len_plain by exact B1. cbn [double_len]. simpl (backslash =? quote)%char. simpl (backslash =? backslash)%char.
    simpl (quote =? newline)%char. cbv iota. rewrite double_len_plain by exact B2. cbn [double_len]. rewrite Ascii.eqb_refl. lia.
  - simpl (apostrophe =? quote)%char. cbv iota. rewrite single_len_plain' by exact B1. cbn [single_len].
    simpl (backslash =? apostrophe)%char. simpl (backslash =? backslash)%char. cbv iota.
    cbn [single_len]. rewrite Ascii.eqb_refl. rewrite single_len_plain' by exact B2. cbn [single_len]. rewrite Ascii.eqb_refl. lia.
Qed.

Lemma double_len_open s : forall n, ~ In quote s -> double_len n s = 0.
Proof.
  assert (K : forall k s n, List.length s <= k -> ~ In quote s -> double_len n s = 0); [|intros n; apply (K (List.length s)); lia].
  clear s. induction k as [|k IH]; intros s n L H; (destruct s as [|c s]; [reflexivity|]); [simpl in L; lia|].
  cbn [double_len]. assert (E : (c =? quote)%char = false) by (apply Ascii.eqb_neq; intros ->; apply H; left; reflexivity).
  rewrite E. destruct (c =? backslash)%char.
  - destruct s as [|d s]; [reflexivity|]. destruct (d =? newline)%char; [reflexivity|].
    apply IH; [simpl in L; lia|]. intros I. apply H. right. right. exact I.
  - apply IH; [simpl in L; lia|]. intros I. apply H. right. exact I.
Qed.
Lemma scan_unclosed b r : plain quote b -> ~ In quote r -> scan (quote :: b ++ backslash :: quote :: r) = Ok None.
Proof.
  intros B R. set (s := b ++ backslash :: quote :: r).
  assert (E : match_len PString (quote :: s) = 0).
  { unfold s. cbn [match_len]. rewrite Ascii.eqb_refl. rewrite double_len_plain by exact B. cbn [double_len].
    simpl (backslash =? quote)%char. simpl (backslash =? backslash)%char. simpl (quote =? newline)%char. cbv iota.
    apply double_len_open, R. }
  assert (L : longest rules (quote :: s) = (1, Refuse)).
  { unfold longest, rules. rewrite !fold_left_app.
    rewrite (fold_none _ words) by (vm_compute; reflexivity). rewrite (fold_none _ metals) by (vm_compute; reflexivity).
    clearbody s. cbn [fold_left]. unfold better. cbn [fst snd]. rewrite E. reflexivity. }
  rewrite (scan_step _ 1 Refuse); [reflexivity|discriminate|exact L].
Qed.
Lemma scan_capital_e s : scan ("E"%char :: s) = Ok None.
Proof.
  assert (L : longest rules ("E"%char :: s) = (1, Refuse)) by (vm_compute; reflexivity).
  rewrite (scan_step _ 1 Refuse); [reflexivity|discriminate|exact L].
Qed.
