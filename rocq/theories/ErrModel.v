(* src/parsers/config_driver.cpp:158-190 error() and config_lexer.l:199-235 get_line(): the line
   shown with a syntax error and the underlining of the token. *)
From Coq Require Import Ascii String.
From Verif Require Import Common.
Local Open Scope nat_scope.

(* buf, 128 characters; None was never written *)
Definition buffer := list (option ascii).
Definition zero : ascii := "000"%char.
Definition newline : ascii := "010"%char.
Definition return_ : ascii := "013"%char.

(* fseek and fread of 128 characters at a position *)
Definition read_at (file : list ascii) (pos : nat) : buffer :=
  let got := firstn 128 (skipn pos file) in map Some got ++ repeat None (128 - List.length got).

(* config_lexer.l:213-221: the index where the loop stops, 128 if it does not, and buf *)
Fixpoint cut (i : nat) (l : buffer) : res (nat * buffer) :=
  match l with
  | [] => Ok (i, [])
  | None :: _ => UB
  | Some c :: l =>
    if ((c =? newline) || (c =? return_) || (c =? zero))%char%bool then Ok (i, Some zero :: l)
    else let! (j, l) := cut (S i) l in Ok (j, Some c :: l)
  end.

Definition dot : ascii := "."%char.

(* config_lexer.l:199-235; cur is current_pos, last is last_line_pos, the start of the line *)
Definition get_line (file : list ascii) (cur last : nat) : res (nat * buffer) :=
  let '(offset, pos) := if 124 <=? cur - last then (cur - 64 - last, cur - 64) else (0, last) in
  let! (i, buf) := cut 0 (read_at file pos) in
  let buf := if i =? 128 then firstn 124 buf ++ [Some dot; Some dot; Some dot; Some zero] else buf in
  let buf := if offset =? 0 then buf else [Some dot; Some dot; Some dot] ++ skipn 3 buf in
  Ok (offset, buf).

(* printing buf with %s *)
Fixpoint c_text (l : buffer) : res (list ascii) :=
  match l with
  | [] => UB
  | None :: _ => UB
  | Some c :: l => if (c =? zero)%char then Ok [] else let! s := c_text l in Ok (c :: s)
  end.

Definition space : ascii := " "%char.
Definition tilde : ascii := "~"%char.

(* config_driver.cpp:176-180: under, from the zero-based columns of the token; the differences
   are unsigned int *)
Definition underline (b e offset : N) : res (list ascii) :=
  let b' := u32 (b + 2 ^ 32 - offset) in
  let e' := u32 (e + 2 ^ 32 - offset) in
  if (128 <? b')%N then UB
  else if ((b' <? e') && (128 <? e'))%N%bool then UB
  else if (128 <=? e')%N then UB
  else Ok (firstn (N.to_nat e') (repeat space (N.to_nat b') ++ repeat tilde (N.to_nat e' - N.to_nat b'))).

(* config_driver.cpp:158-190; bcol and ecol are the columns of the location, from 1.  None: the
   token is not shown. *)
Definition report (file : list ascii) (cur last : nat) (bcol ecol : N) (same_line : bool) :
    res (option (list ascii * list ascii)) :=
  let e := if (0 <? ecol)%N then (ecol - 1)%N else 0%N in
  if ((bcol <? ecol)%N && same_line && (ecol - bcol <=? 123)%N)%bool then
    let! (offset, buf) := get_line file cur last in
    let! under := underline (bcol - 1) e (N.of_nat offset) in
    let! s := c_text buf in
    Ok (Some (s, under))
  else Ok None.

(* config_lexer.l:66-183: what the rules match.  Tokens are returned to the parser, blanks are white
   space and comments, Line is a newline.  The ignored word bump (line 128), which does not advance
   current_pos, is left out. *)
Inductive lexeme :=
| Token (t : list ascii)
| Blank (t : list ascii)
| Line.

(* loc, current_pos and last_line_pos (config_lexer.l:14-16); ret: the last lexeme was returned, so
   the next one is matched by another call of yylex.  Columns and lines are unbounded (unsigned int
   in position.hh). *)
Record lexer := { begin_line : N; begin_col : N; end_line : N; end_col : N; cur_pos : nat; last_pos : nat; ret : bool }.

(* location.hh step(): also the first action of every call of yylex (config_lexer.l:66-68) *)
Definition step (x : lexer) : lexer :=
  {| begin_line := end_line x; begin_col := end_col x; end_line := end_line x; end_col := end_col x;
     cur_pos := cur_pos x; last_pos := last_pos x; ret := false |}.

(* YY_USER_ACTION and UPDATE_POS *)
Definition matched (t : list ascii) (x : lexer) : lexer :=
  {| begin_line := begin_line x; begin_col := begin_col x; end_line := end_line x; end_col := end_col x + N.of_nat (List.length t);
     cur_pos := cur_pos x + List.length t; last_pos := last_pos x; ret := ret x |}.

(* config_lexer.l:181 and position.hh lines() *)
Definition newlined (x : lexer) : lexer :=
  {| begin_line := begin_line x; begin_col := begin_col x; end_line := end_line x + 1; end_col := 1;
     cur_pos := cur_pos x; last_pos := last_pos x; ret := ret x |}.

Definition advance (x : lexer) (l : lexeme) : lexer :=
  let x := if ret x then step x else x in
  match l with
  | Token t =>
    let x := matched t x in
    {| begin_line := begin_line x; begin_col := begin_col x; end_line := end_line x; end_col := end_col x;
       cur_pos := cur_pos x; last_pos := last_pos x; ret := true |}
  | Blank t => step (matched t x)
  | Line =>
    let x := step (newlined (matched [newline] x)) in
    {| begin_line := begin_line x; begin_col := begin_col x; end_line := end_line x; end_col := end_col x;
       cur_pos := cur_pos x; last_pos := cur_pos x; ret := ret x |}
  end.

(* loc when the program starts (config_lexer.l:14, position.hh) *)
Definition first_lexer : lexer :=
  {| begin_line := 1; begin_col := 1; end_line := 1; end_col := 1; cur_pos := 0; last_pos := 0; ret := false |}.

(* scan_begin (config_lexer.l:188-196): loc stays *)
Definition scan_begin (x : lexer) : lexer :=
  {| begin_line := begin_line x; begin_col := begin_col x; end_line := end_line x; end_col := end_col x;
     cur_pos := 0; last_pos := 0; ret := true |}.

Definition lex (x : lexer) (ls : list lexeme) : lexer := fold_left advance ls x.

(* the line number of the message (config_driver.cpp:182) and what is shown *)
Definition error_at (file : list ascii) (x : lexer) : N * res (option (list ascii * list ascii)) :=
  (end_line x, report file (cur_pos x) (last_pos x) (begin_col x) (end_col x) (begin_line x =? end_line x)%N).
