(* What paths mean: lists of components. *)
From Coq Require Export Ascii.
From Coq Require String.
Export String.StringSyntax.
From Verif Require Import Common.
Local Open Scope char_scope.
Local Open Scope list_scope.

Definition chars (s : String.string) : list ascii := String.list_ascii_of_string s.
Arguments chars s%string_scope.

(* the pieces of a string between its slashes or backslashes *)
Definition is_separator (c : ascii) : bool := ((c =? "/") || (c =? "\"))%char%bool.

Fixpoint pieces (l : list ascii) : list (list ascii) :=
  match l with
  | [] => [[]]
  | c :: l =>
    if is_separator c then [] :: pieces l
    else match pieces l with p :: ps => (c :: p) :: ps | [] => [] end
  end.

(* one step down a path *)
Definition walk (at_ : list (list ascii)) (p : list ascii) : list (list ascii) :=
  if list_eq_dec ascii_dec p [] then at_
  else if list_eq_dec ascii_dec p (chars ".") then at_
  else if list_eq_dec ascii_dec p (chars "..") then removelast at_
  else at_ ++ [p].

Definition resolve (at_ : list (list ascii)) (path : list ascii) : list (list ascii) :=
  fold_left walk (pieces path) at_.

(* a directory or file as an absolute path *)
Definition path_of (cs : list (list ascii)) : list ascii :=
  match cs with [] => chars "/" | _ => flat_map (fun c => chars "/" ++ c) cs end.

(* a name that can be stored: not empty, no separator, not a dot component *)
Definition name (c : list ascii) : Prop :=
  c <> [] /\ c <> chars "." /\ c <> chars ".." /\ Forall (fun x => is_separator x = false /\ x <> "000") c.

(* no character NUL: the condition to be a C string *)
Definition c_str (l : list ascii) : Prop := Forall (fun x => x <> "000") l.

Definition starts_at_root (path : list ascii) : bool :=
  match path with c :: _ => (c =? "/")%char | [] => false end.

Definition ends_with_separator (path : list ascii) : Prop :=
  exists p c, path = p ++ [c] /\ is_separator c = true.

(* every dot-dot goes up from the root or from a name of at least two
   characters *)
Fixpoint long_pops (at_ : list (list ascii)) (ps : list (list ascii)) : Prop :=
  match ps with
  | [] => True
  | p :: ps =>
    (p = chars ".." -> at_ = [] \/ (2 <= length (last at_ []))%nat) /\ long_pops (walk at_ p) ps
  end.

(* what follows the last dot of a name, unless that dot is its first character *)
Inductive extension_of : list ascii -> list ascii -> Prop :=
| ext_none : forall n, ~ In "." n -> extension_of n []
| ext_hidden : forall n, ~ In "." n -> extension_of ("." :: n) []
| ext_some : forall b e, b <> [] -> ~ In "." e -> extension_of (b ++ "." :: e) e.

(* the inputs on which path resolution is right, see DESIGN.md *)
Definition resolvable (at_ : list (list ascii)) (path : list ascii) : Prop :=
  (resolve (if starts_at_root path then [] else at_) path <> [] \/ ends_with_separator path) /\
  (if starts_at_root path then long_pops [] (pieces path)
   else
     pieces path <> [chars "."] /\ pieces path <> [chars ".."] /\
     (at_ = [] -> hd [] (pieces path) = chars "..") /\
     long_pops (walk at_ (hd [] (pieces path))) (tl (pieces path))).
