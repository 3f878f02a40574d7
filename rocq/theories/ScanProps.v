(* C240-C245: what the scanner makes of the text of a configuration. *)
From Coq Require Import QArith.
From Verif Require Import Common PathModel PathSpec DriverModel ScanModel ScanSpec ScanWords ScanProofs.
Local Open Scope nat_scope.

(* C240 *)
Theorem layout_scanned : forall ts s, layout ts s -> scan s = Ok (Some ts).
Proof.
  intros ts s H. apply scan_layout_then in H. destruct H as (e & E & ->). rewrite (scan_last_gap e E). cbn [prepend bind].
  rewrite app_nil_r. reflexivity.
Qed.
Print Assumptions layout_scanned.

(* spp:+36 # samples, then out:'a b' *)
Example layout_scanned_case :
  layout [Kw KwSpp; Colon; UInt 36; Kw KwOut; Colon; Str (chars "a b")]
    (chars "spp:" ++ tab :: chars "+36# samples" ++ newline :: chars "out : 'a b' # end").
Proof.
  change (chars "spp:" ++ tab :: chars "+36# samples" ++ newline :: chars "out : 'a b' # end") with
    ([] ++ chars "spp" ++ [] ++ [":"%char] ++ [tab] ++ (sign_text Plus ++ digits [3; 6]) ++
     ("#"%char :: chars " samples" ++ newline :: []) ++ chars "out" ++ [" "%char] ++ [":"%char] ++ [" "%char] ++
     (apostrophe :: chars "a b" ++ [apostrophe]) ++ (([" "%char] ++ "#"%char :: chars " end") : text)).
  assert (B : forall c, In c [" "%char; tab; newline] -> blank c).
  { intros c H. unfold blank, line_end. simpl in H. intuition. }
  assert (G : forall c, In c [" "%char; tab] -> gap [c]).
  { intros c H. apply gap_blank; [apply B; simpl in *; tauto|constructor]. }
  assert (N : forall s, forallb not_line_end s = true -> no_line_end s).
  { intros s H c I. rewrite forallb_forall in H. specialize (H c I). intros [-> | ->]; discriminate. }
  apply layout_token; [constructor|apply w_word; simpl; tauto|right; right; simpl; tauto|].
  apply layout_token; [constructor|constructor|left; exact I|].
  apply layout_token; [apply G; simpl; tauto| |right; right; simpl; tauto|].
  { apply (w_uint Plus [3; 6]); [discriminate|split; [discriminate|repeat constructor]|split; reflexivity || discriminate]. }
  apply layout_token; [|apply w_word; simpl; tauto|right; left; left; reflexivity|].
  { apply gap_comment; [apply N; reflexivity|left; reflexivity|constructor]. }
  apply layout_token; [apply G; simpl; tauto|constructor|left; exact I|].
  apply layout_token; [apply G; simpl; tauto| |left; exact I|].
  { apply w_string; [right; reflexivity|]. split; [|split; [discriminate|discriminate]]. simpl. intros H. intuition discriminate. }
  apply layout_end. apply last_comment; [apply G; simpl; tauto|apply N; reflexivity].
Qed.

(* C241 *)
Theorem numbers_read : forall n g ds s,
  (numeral_ok n -> separate s -> exists q, (q == numeral_value n)%Q /\ scan (numeral_text n ++ s) = prepend [Float q] (scan s)) /\
  (are_digits ds -> is_int (signed_z g (decimal ds)) -> separate s ->
     exists t, (t = UInt (signed_z g (decimal ds)) \/ t = Int (signed_z g (decimal ds))) /\
     scan (sign_text g ++ digits ds ++ s) = prepend [t] (scan s)).
Proof.
  intros n g ds s. split.
  - intros O S. exists (Qred (numeral_value n)). split; [apply Qred_correct|].
    apply scan_written; [|right; exact S]. apply w_float; [exact O| |apply Qred_correct].
    apply Qred_complete, Qred_correct.
  - intros D B S. rewrite app_assoc. destruct g.
    + eexists. split; [left; reflexivity|]. apply scan_written; [|right; exact S].
      apply (w_uint NoSign); [discriminate|assumption..].
    + eexists. split; [left; reflexivity|]. apply scan_written; [|right; exact S].
      apply (w_uint Plus); [discriminate|assumption..].
    + eexists. split; [right; reflexivity|]. apply scan_written; [|right; exact S].
      apply w_int; assumption.
Qed.
Print Assumptions numbers_read.

(* -12.5E-1 *)
Example numbers_read_case :
  let n := mk_numeral Minus [1; 2] (Some [5]) (Some (true, Minus, [1])) in
  numeral_ok n /\ numeral_text n = chars "-12.5E-1" /\ (numeral_value n == -5 # 4)%Q /\
  scan (chars "-12.5E-1,") = Ok (Some [Float (-5 # 4); Comma]).
Proof. cbv zeta. split; [repeat split; repeat constructor; discriminate|]. repeat split; vm_compute; reflexivity. Qed.

(* C242: every integer is read as its value, or refused *)
Theorem integer_overflow_refuted : forall ts s gap_text g ds rest,
  gap gap_text -> are_digits ds -> ~ is_int (signed_z g (decimal ds)) -> separate rest ->
  layout_then (fun e => e = gap_text ++ (sign_text g ++ digits ds) ++ rest) ts s -> scan s = UB.
Proof.
  intros ts s gt g ds r G D N S H. apply scan_layout_then in H. destruct H as (e & -> & ->).
  rewrite scan_gap by exact G. fold (int_text g ds). rewrite scan_overflow by assumption. reflexivity.
Qed.
Print Assumptions integer_overflow_refuted.

(* spp:4294967297 *)
Example integer_overflow_case :
  let ds := [4; 2; 9; 4; 9; 6; 7; 2; 9; 7] in
  are_digits ds /\ ~ is_int (signed_z NoSign (decimal ds)) /\
  layout_then (fun e => e = [] ++ (sign_text NoSign ++ digits ds) ++ []) [Kw KwSpp; Colon] (chars "spp:4294967297").
Proof.
  cbv zeta. split; [split; [discriminate|repeat constructor]|]. split.
  - intros [_ H]. vm_compute in H. discriminate.
  - apply (layout_token _ (Kw KwSpp) [Colon] [] (chars "spp") (chars ":4294967297")); [constructor|apply w_word; simpl; tauto| |].
    + right. right. simpl. tauto.
    + apply (layout_token _ Colon [] [] (chars ":") (chars "4294967297")); [constructor|constructor|left; exact I|].
      constructor. reflexivity.
Qed.

(* C243 *)
Theorem scan_defined : forall s,
  scan s <> OutOfFuel /\
  (scan s = UB -> exists a g ds b, s = a ++ (sign_text g ++ digits ds) ++ b /\ are_digits ds /\ ~ is_int (signed_z g (decimal ds))).
Proof. intros s. split; [apply scan_total|apply scan_ub]. Qed.
Print Assumptions scan_defined.

Example scan_defined_case : exists a b, chars "fov:-2147483649" = a ++ (sign_text Minus ++ digits [2;1;4;7;4;8;3;6;4;9]) ++ b /\
  scan (chars "fov:-2147483649") = UB /\ scan (chars "fov:-2147483648") = Ok (Some [Kw KwFov; Colon; Int (-2147483648)]).
Proof. exists (chars "fov:"), []. repeat split; vm_compute; reflexivity. Qed.

(* C244: escaping is not supported, so a string is what stands between its quotes *)
Theorem backslash_refuted : forall c b r1 r2, c = quote \/ c = apostrophe -> ~ In c b -> ~ In backslash b -> ~ In c r1 -> ~ In backslash r1 ->
  scan (c :: b ++ backslash :: c :: r1 ++ c :: r2) = prepend [Str (b ++ backslash :: c :: r1)] (scan r2) /\
  (~ In quote r1 -> ~ In quote b -> ~ In quote r2 -> scan (quote :: b ++ backslash :: quote :: r1 ++ r2) = Ok None).
Proof.
  intros c b r1 r2 C B1 B2 R1 R2. split.
  - apply scan_swallow; [exact C| |]; intros x I; split; intros ->; contradiction.
  - intros Q1 Q2 Q3. apply scan_unclosed.
    + intros x I. split; intros ->; contradiction.
    + rewrite in_app_iff. tauto.
Qed.
Print Assumptions backslash_refuted.

(* out:"dir\" shape:"a" *)
Example backslash_case :
  scan (chars "out:" ++ quote :: chars "dir" ++ backslash :: quote :: chars " shape:" ++ quote :: chars " ag") =
  Ok (Some [Kw KwOut; Colon; Str (chars "dir" ++ backslash :: quote :: chars " shape:"); Element 0]) /\
  scan (chars "out:" ++ quote :: chars "dir" ++ backslash :: quote :: chars " ag") = Ok None.
Proof. split; vm_compute; reflexivity. Qed.

(* C245: README.md gives E10 as a float *)
Theorem readme_float_refuted : forall ts s gap_text ds rest, gap gap_text -> are_digits ds ->
  layout_then (fun e => e = gap_text ++ "E"%char :: digits ds ++ rest) ts s -> scan s = Ok None.
Proof.
  intros ts s gt ds r G D H. apply scan_layout_then in H. destruct H as (e & -> & ->).
  rewrite scan_gap by exact G. rewrite scan_capital_e. reflexivity.
Qed.
Print Assumptions readme_float_refuted.

Example readme_float_case : are_digits [1; 0] /\
  layout_then (fun e => e = [] ++ "E"%char :: digits [1; 0] ++ chars "}") [Colon] (chars ":E10}").
Proof.
  split; [split; [discriminate|repeat constructor]|].
  apply (layout_token _ Colon [] [] (chars ":") (chars "E10}")); [constructor|constructor|left; exact I|]. constructor. reflexivity.
Qed.
