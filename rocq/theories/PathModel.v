(* Model of src/utility/file.cpp: path resolution and the File object (the
   non-Windows branch). *)
From Coq Require Export Ascii.
From Coq Require String.
Export String.StringSyntax.
From Verif Require Import Common ArrayIO.
Local Open Scope char_scope.
Local Open Scope list_scope.
Local Open Scope nat_scope.

Definition slash : ascii := "/".
Definition dot : ascii := ".".
Definition nul : ascii := "000".

(* A C string is the list of its characters, the final NUL left out. *)

(* file.cpp:53-60: backslashes become slashes *)
Definition unix (c : ascii) : ascii := if (c =? "\")%char then slash else c.

(* The output buffer [out] of append_relative is modelled by the characters
   below [absolute_index], the last one first: nothing above the index is ever
   read.  [cap] is the number of bytes allocated by the caller.

   out[absolute_index++] = c *)
Definition put (cap : nat) (c : ascii) (st : list ascii) : res (list ascii) :=
  if length st <? cap then Ok (c :: st) else UB.

(* file.cpp:73-75 and 112-113, while(absolute_index-- > 0 && out[absolute_index]
   != '/'): leaves the index on the previous slash.  When there is none the index
   becomes -1 and the function cannot end without accessing out[-1] or out[-2]:
   that is undefined behaviour. *)
Fixpoint back (st : list ascii) : res (list ascii) :=
  match st with
  | [] => UB
  | c :: st => if (c =? slash)%char then Ok st else back st
  end.

Definition ends_component (l : list ascii) : bool :=
  match l with [] => true | c :: _ => (c =? slash)%char end.

(* file.cpp:91-130: the main loop; [rel] is what is left of the relative path *)
Fixpoint append_loop (cap : nat) (rel : list ascii) (st : list ascii) : res (list ascii) :=
  match rel with
  | [] => Ok st
  | c :: rel1 =>
    if (c =? slash)%char then
      match rel1 with
      | [] => put cap c st
      | c1 :: rel2 =>
        if (c1 =? dot)%char then
          if ends_component rel2 then append_loop cap rel2 st
          else
            match rel2 with
            | [] => UB
            | c2 :: rel3 =>
              if ((c2 =? dot)%char && ends_component rel3)%bool then
                if (length st <=? 1)%nat then append_loop cap rel3 st
                else
                  let! st := back (skipn 2 st) in
                  append_loop cap rel3 st
              else
                let! st := put cap c st in
                append_loop cap rel1 st
            end
        else if (c1 =? slash)%char then append_loop cap rel1 st
        else
          let! st := put cap c st in
          append_loop cap rel1 st
      end
    else
      let! st := put cap c st in
      append_loop cap rel1 st
  end.

(* file.cpp:131-138: removal of a trailing slash and the final NUL.  With an
   empty path out[-1] is read. *)
Definition append_end (cap : nat) (st : list ascii) : res (list ascii) :=
  match st with
  | [] => UB
  | c :: st1 =>
    let st := if ((c =? slash)%char && (1 <? length st))%bool then st1 else st in
    if length st <? cap then Ok (rev st) else UB
  end.

(* file.cpp:63-84: the first component of the relative path *)
Definition append_start (cap : nat) (st : list ascii) (rel : list ascii) :
  res (list ascii * list ascii) :=
  let! (st, rel) :=
    match rel with
    | c0 :: c1 :: rel2 =>
      if (c0 =? dot)%char then
        match rel2 with
        | c2 :: _ =>
          if ((c1 =? dot)%char && (c2 =? slash)%char)%bool then
            let! st := back st in Ok (st, rel2)
          else if (c1 =? slash)%char then Ok (st, c1 :: rel2)
          else Ok (st, rel)
        | [] => if (c1 =? slash)%char then Ok (st, [c1]) else Ok (st, rel)
        end
      else Ok (st, rel)
    | _ => Ok (st, rel)
    end in
  let starts := match rel with c :: _ => (c =? slash)%char | [] => false end in
  if (negb starts && (0 <? length st))%bool then
    let! st := put cap slash st in Ok (st, rel)
  else Ok (st, rel).

(* file.cpp:20-141 append_relative *)
Definition append_relative (cap : nat) (abs relative : list ascii) : res (list ascii) :=
  if length abs <? cap then
    let! (st, rel) := append_start cap (rev abs) (map unix relative) in
    let! st := append_loop cap rel st in
    append_end cap st
  else UB.

(* file.hpp:216-218: the allocated bytes of [absolute], and the offsets of
   [file] and [ext] in it.  The result of stat is left out. *)
Record file := { f_mem : list ascii; f_file : nat; f_ext : nat }.

(* reading a C string at an offset of an allocated block *)
Fixpoint until_nul (l : list ascii) : res (list ascii) :=
  match l with
  | [] => UB
  | c :: l => if (c =? nul)%char then Ok [] else let! s := until_nul l in Ok (c :: s)
  end.

Definition c_string (mem : list ascii) (off : nat) : res (list ascii) := until_nul (skipn off mem).

(* strrchr: offset of the last occurrence *)
Fixpoint last_index (c : ascii) (l : list ascii) : option nat :=
  match l with
  | [] => None
  | x :: l =>
    match last_index c l with
    | Some i => Some (S i)
    | None => if (x =? c)%char then Some 0 else None
    end
  end.

(* file.cpp:170-191 and 301-310: the file and ext pointers.  Without a slash
   strrchr returns NULL, which is dereferenced. *)
Definition with_names (abs : list ascii) : res file :=
  match last_index slash abs with
  | None => UB
  | Some i =>
    let f := if S i <? length abs then S i else i in
    let e :=
      match last_index dot (skipn f abs) with
      | None => length abs
      | Some j => if f + j + 1 =? f + 1 then length abs else f + j + 1
      end in
    Ok {| f_mem := abs ++ [nul]; f_file := f; f_ext := e |}
  end.

(* file.cpp:143-192 File::File(const char* ); cwd is the result of realpath(".") *)
Definition file_new (cwd path : list ascii) : res file :=
  let! abs :=
    match path with
    | c :: _ =>
      if (c =? slash)%char then append_relative (length path + 1) [] path
      else append_relative (length cwd + 1 + length path + 1) cwd path
    | [] => append_relative (length cwd + 1 + length path + 1) cwd path
    end in
  with_names abs.

(* file.cpp:194-205 copy constructor (and operator=, 272-288) *)
Definition file_copy (f : file) : res file :=
  let! s := c_string (f_mem f) 0 in
  Ok {| f_mem := s ++ [nul]; f_file := f_file f; f_ext := f_ext f |}.

(* file.cpp:212-225 *)
Definition file_extension (f : file) : res (list ascii) := c_string (f_mem f) (f_ext f).
Definition file_filename (f : file) : res (list ascii) := c_string (f_mem f) (f_file f).
Definition file_absolute (f : file) : res (list ascii) := c_string (f_mem f) 0.

(* file.cpp:290-311 File::append *)
Definition file_append (f : file) (path : list ascii) : res file :=
  let! abs := file_absolute f in
  let! abs := append_relative (length abs + length path + 2) abs path in
  with_names abs.

(* file.cpp:352, while(i-- > max_decrement && file[i] != '/'), with n = offset
   of file + i: the offset at which it stops, -1 if there is no slash *)
Fixpoint scan_back (mem : list ascii) (n : nat) : res Z :=
  match n with
  | O => Ok (-1)%Z
  | S p =>
    let! c := rd mem (Z.of_nat p) in
    if (c =? slash)%char then Ok (Z.of_nat p) else scan_back mem p
  end.

(* file.cpp:313-361 File::get_parent *)
Definition file_parent (f : file) : res file :=
  let! r := file_copy f in
  let! c := rd (f_mem r) (Z.of_nat (f_file r)) in
  if (c =? slash)%char then Ok r
  else if f_file f =? 1 then
    let! mem := upd (f_mem r) 1 nul in
    Ok {| f_mem := mem; f_file := 0; f_ext := 1 |}
  else
    let! mem := upd (f_mem r) (Z.of_nat (f_file r) - 1) nul in
    let! p := scan_back (f_mem f) (f_file f - 1) in
    Ok {| f_mem := mem;
          f_file := if (p =? 0)%Z then f_file r else Z.to_nat (p + 1);
          f_ext := f_file r - 1 |}.
